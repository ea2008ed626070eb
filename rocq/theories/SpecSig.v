(** SpecSig.v - definitions used to state what signalling an LSP does. *)
From Verif Require Import Base Spec.

(** The bandwidth an LSP signals for: the configured one, else its share. *)
Definition wanted (s : st) (l : nat) (share : Q) : Q :=
  match l_cfg (h_ls s l) with Some c => c | None => share end.

(** [b] is the least reservable bandwidth along [p]. *)
Definition least_reservable (s : st) (p : list nat) (b : Q) : Prop :=
  (exists i, In i p /\ reservable s i b) /\ forall i r, In i p -> reservable s i r -> (b <= r)%Q.

(** The routes open to [l] when it asks for [bw] in state [s] *)
Definition open_route (s : st) (l : nat) (bw : Q) (p : list nat) : Prop :=
  route s (lsp_usable s bw) (lsp_from s l) p (lsp_to s l).

(** The route an LSP must take: least cost, then fewest hops. *)
Definition best_route (s : st) (l : nat) (bw : Q) (p : list nat) : Prop :=
  least_cost s (lsp_usable s bw) (lsp_from s l) p (lsp_to s l) /\
  forall q, least_cost s (lsp_usable s bw) (lsp_from s l) q (lsp_to s l) -> (List.length p <= List.length q)%nat.

(** From [s] to [s'] only the path and bandwidths of LSP [l] and reservations of
    interfaces change (and the random number generator moves on). *)
Record only_signals (s : st) (l : nat) (s' : st) : Prop := {
  os_sets : same_sets s s'; os_nd : h_nd s' = h_nd s; os_sr : h_sr s' = h_sr s; os_dm : h_dm s' = h_dm s;
  os_ckts : m_ckts s' = m_ckts s; os_groups : m_groups s' = m_groups s; os_next : s_next s' = s_next s;
  os_if : forall i, h_if s' i = if_res (i_res (h_if s' i)) (h_if s i);
  os_ls : forall m, m <> l -> h_ls s' m = h_ls s m;
  os_l : h_ls s' l = ls_setup (l_setup (h_ls s' l)) (ls_res (l_res (h_ls s' l)) (ls_path (l_path (h_ls s' l)) (h_ls s l))) }.

(** LSP [l] asked for [bw] in state [s] and was routed over [p]. *)
Record signalled_on (s : st) (l : nat) (bw : Q) (p : list nat) (s' : st) : Prop := {
  so_only : only_signals s l s';
  so_best : best_route s l bw p;
  so_path : exists b, l_path (h_ls s' l) = PRouted p (route_cost s p) b /\ least_reservable s p b;
  so_bw : l_res (h_ls s' l) = RNum bw /\ l_setup (h_ls s' l) = RNum bw;
  so_on : forall i, In i p -> exists r, reserved s i r /\ (i_res (h_if s' i) == r + bw)%Q;
  so_off : forall i, ~ In i p -> h_if s' i = h_if s i }.

(** LSP [l] asked for [bw] in state [s] and could not be routed. *)
Record signalled_off (s : st) (l : nat) (bw : Q) (s' : st) : Prop := {
  sx_only : only_signals s l s';
  sx_none : forall p, ~ open_route s l bw p;
  sx_path : l_path (h_ls s' l) = PUnrouted;
  sx_bw : l_res (h_ls s' l) = RUnrouted /\ l_setup (h_ls s' l) = RNum bw;
  sx_if : h_if s' = h_if s }.

Definition signalled (s : st) (l : nat) (bw : Q) (s' : st) : Prop :=
  (exists p, signalled_on s l bw p s') \/ signalled_off s l bw s'.

(** Signalling some LSPs one after the other, each for the given bandwidth *)
Inductive signalling : st -> list (nat * Q) -> st -> Prop :=
| sig_nil s : signalling s [] s
| sig_cons s l bw tl s1 s' : signalled s l bw s1 -> signalling s1 tl s' -> signalling s ((l, bw) :: tl) s'.

(** ** Signalling a routed LSP again *)

Definition no_parallel (s : st) : Prop :=
  forall i j, In i (m_ifs s) -> In j (m_ifs s) -> loc s i = loc s j -> rem s i = rem s j -> i = j.

(** What interface [i] can offer an LSP that already holds [resv] on [cur] *)
Definition own_reservable (s : st) (cur : list nat) (resv : Q) (i : nat) (r : Q) : Prop :=
  exists r0, reservable s i r0 /\ (In i cur /\ (r == r0 + resv)%Q \/ ~ In i cur /\ (r == r0)%Q).
Definition own_usable (s : st) (cur : list nat) (resv bw : Q) (i : nat) : Prop :=
  i_failed (h_if s i) = false /\ i_rsvp (h_if s i) = true /\
  exists r, own_reservable s cur resv i r /\ (bw <= r)%Q.

(** The reservation [x'] of an interface after an LSP moved from [cur] to [p]
    and from [old] to [new]; [x] is the reservation before. *)
Definition moved (cur p : list nat) (old new : Q) (i : nat) (x x' : Q) : Prop :=
  (In i cur /\ In i p /\ exists r r', rounds 10 x r /\ rounds 10 (r - old) r' /\ (x' == r' + new)%Q) \/
  (In i cur /\ ~ In i p /\ exists r, rounds 10 x r /\ (x' == r - old)%Q) \/
  (~ In i cur /\ In i p /\ exists r, rounds 10 x r /\ (x' == r + new)%Q) \/
  (~ In i cur /\ ~ In i p /\ x' = x).

(** LSP [l] holding [old] on [cur] asked for [new] and got [p]. *)
Record resignalled_on (s : st) (l : nat) (cur : list nat) (old new : Q) (p : list nat) (s' : st) : Prop := {
  ro_only : only_signals s l s';
  ro_least : least_cost s (own_usable s cur old new) (lsp_from s l) p (lsp_to s l);
  ro_path : exists b, l_path (h_ls s' l) = PRouted p (route_cost s p) b /\
              (exists i, In i p /\ own_reservable s cur old i b) /\
              forall i r, In i p -> own_reservable s cur old i r -> (b <= r)%Q;
  ro_bw : l_res (h_ls s' l) = RNum new;
  ro_setup : l_setup (h_ls s' l) = RNum (match l_cfg (h_ls s l) with Some c => if Qeq_bool c 0 then new else c | None => new end);
  ro_same : (old == new)%Q -> h_if s' = h_if s;
  ro_moved : ~ (old == new)%Q -> forall i, moved cur p old new i (i_res (h_if s i)) (i_res (h_if s' i)) }.

(** ** Signalling in update_simulation *)

(** The share of an LSP: traffic of the demands between its end nodes over the
    number of LSPs between them *)
Definition dmds_of (s : st) (l : nat) : list nat :=
  filter (fun d => String.eqb (dmd_from s d) (lsp_from s l) && String.eqb (dmd_to s d) (lsp_to s l)) (m_dms s).
Definition lsps_of (s : st) (l : nat) : list nat :=
  filter (fun m => String.eqb (lsp_from s m) (lsp_from s l) && String.eqb (lsp_to s m) (lsp_to s l)) (m_lsps s).
Definition traffic_of (s : st) (l : nat) : Q := Qsum (map (fun d => d_traffic (h_dm s d)) (dmds_of s l)).
Definition equal_share (s : st) (l : nat) : Q :=
  (traffic_of s l / inject_Z (Z.of_nat (List.length (lsps_of s l))))%Q.

(** Between any two nodes all LSPs are routed or none is. *)
Definition all_or_none (s : st) : Prop :=
  forall l m, In l (m_lsps s) -> In m (m_lsps s) -> lsp_from s l = lsp_from s m -> lsp_to s l = lsp_to s m ->
    l_path (h_ls s l) = PUnrouted -> l_path (h_ls s m) = PUnrouted.

(** [s0] is [s] without traffic and reservations on its interfaces and without
    LSP paths. *)
Record cleared (s s0 : st) : Prop := {
  cl_sets : same_sets s s0; cl_nd : h_nd s0 = h_nd s;
  cl_if : forall i, In i (m_ifs s) -> h_if s0 i = if_traffic (TNum 0) (if_res 0%Q (h_if s i));
  cl_ls : forall l, In l (m_lsps s) -> h_ls s0 l = ls_path PUnrouted (h_ls s l);
  cl_dm : forall d, same_dm_data (h_dm s d) (h_dm s0 d) }.

(** What the LSPs in [ls] hold on interface [i] *)
Definition holds (s : st) (i l : nat) : Q :=
  match l_path (h_ls s l), l_res (h_ls s l) with
  | PRouted p _ _, RNum q => if existsb (Nat.eqb i) p then q else 0%Q
  | _, _ => 0%Q
  end.
Definition booked (s : st) (i : nat) (ls : list nat) : Q := Qsum (map (holds s i) ls).

Definition tenths (x : Q) : Prop := exists z : Z, (x == z # 10)%Q.

(** The LSPs of a list that are not Unrouted *)
Definition routed_among (s : st) (ls : list nat) : list nat :=
  filter (fun m => match l_path (h_ls s m) with PUnrouted => false | _ => true end) ls.

(** What the theorems about signalling one LSP assume of the model *)
Definition sig_ready (k : kind) (s : st) : Prop :=
  NoDup (m_ifs s) /\ (forall i, In i (m_ifs s) -> 1 <= i_cost (h_if s i)) /\ (k = Perf -> no_parallel s).
