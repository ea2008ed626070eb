(** Spec.v - vocabulary used to state the properties.  It depends on the object
    records only, not on any function of the model of the code: what a route, a
    usable interface, a rounded number, ... is, is said here from scratch. *)
From Verif Require Import Base.

(** ** Names and keys, read off the objects *)
Definition loc (s : st) (i : nat) : string := n_name (h_nd s (i_node (h_if s i))).
Definition rem (s : st) (i : nat) : string := n_name (h_nd s (i_rem (h_if s i))).
Definition if_key (s : st) (i : nat) : string * string := (i_name (h_if s i), loc s i).
Definition dmd_from (s : st) (d : nat) : string := n_name (h_nd s (d_src (h_dm s d))).
Definition dmd_to (s : st) (d : nat) : string := n_name (h_nd s (d_dst (h_dm s d))).
Definition dmd_key (s : st) (d : nat) := (dmd_from s d, dmd_to s d, d_name (h_dm s d)).
Definition lsp_from (s : st) (l : nat) : string := n_name (h_nd s (l_src (h_ls s l))).
Definition lsp_to (s : st) (l : nat) : string := n_name (h_nd s (l_dst (h_ls s l))).
Definition lsp_key (s : st) (l : nat) := (lsp_from s l, lsp_to s l, l_name (h_ls s l)).
Definition nd_name (s : st) (n : nat) : string := n_name (h_nd s n).
Definition srlg_name (s : st) (g : nat) : string := sr_name (h_sr s g).

(** ** Rounding to 1/d, ties to an even last digit *)
Definition rounds (d : positive) (x r : Q) : Prop :=
  exists z : Z, (r == z # d)%Q /\ (Qabs (x - r) <= 1 # (2 * d))%Q
                /\ ((Qabs (x - r) == 1 # (2 * d))%Q -> Z.even z = true).

(** ** Reserved and reservable bandwidth as a user reads them *)
Definition reserved (s : st) (i : nat) (r : Q) : Prop := rounds 10 (i_res (h_if s i)) r.
Definition reservable (s : st) (i : nat) (r : Q) : Prop :=
  if i_rsvp (h_if s i)
  then exists r0, reserved s i r0 /\
         rounds 10 (i_cap (h_if s i) * i_pct (h_if s i) / 100 - r0) r
  else (r == -(1))%Q.

(** Interfaces that IGP routing may use, and those an LSP may use that needs
    bandwidth [bw]. *)
Definition usable (s : st) (i : nat) : Prop :=
  i_failed (h_if s i) = false /\ exists r, reservable s i r /\ (0 <= r)%Q.
Definition usable_bw (s : st) (bw : Q) (i : nat) : Prop :=
  i_failed (h_if s i) = false /\ exists r, reservable s i r /\ (bw <= r)%Q.
Definition lsp_usable (s : st) (bw : Q) (i : nat) : Prop :=
  i_failed (h_if s i) = false /\ i_rsvp (h_if s i) = true /\
  exists r, reservable s i r /\ (bw <= r)%Q.

(** ** Routes: sequences of interfaces of the model, end to end *)
Inductive route (s : st) (ok : nat -> Prop) : string -> list nat -> string -> Prop :=
| route_nil n : route s ok n [] n
| route_cons i p v : In i (m_ifs s) -> ok i -> route s ok (rem s i) p v ->
                     route s ok (loc s i) (i :: p) v.

Fixpoint route_cost (s : st) (p : list nat) : Z :=
  match p with [] => 0 | i :: tl => i_cost (h_if s i) + route_cost s tl end.

Definition least_cost (s : st) (ok : nat -> Prop) (u : string) (p : list nat) (v : string) : Prop :=
  route s ok u p v /\ forall q, route s ok u q v -> route_cost s p <= route_cost s q.

(** Nodes visited by a route from [u] *)
Definition route_nodes (s : st) (u : string) (p : list nat) : list string := u :: map (rem s) p.

(** ** Well-formedness conditions used as hypotheses *)

(** No two objects of the model share a key. *)
Definition keys_unique (s : st) : Prop :=
  NoDup (map (if_key s) (m_ifs s)) /\ NoDup (map (nd_name s) (m_nds s)) /\
  NoDup (map (dmd_key s) (m_dms s)) /\ NoDup (map (lsp_key s) (m_lsps s)) /\
  NoDup (map (srlg_name s) (m_srs s)).

(** Every object refers to node objects of the model. *)
Definition refs_ok (s : st) : Prop :=
  (forall i, In i (m_ifs s) -> In (i_node (h_if s i)) (m_nds s) /\ In (i_rem (h_if s i)) (m_nds s)) /\
  (forall d, In d (m_dms s) -> In (d_src (h_dm s d)) (m_nds s) /\ In (d_dst (h_dm s d)) (m_nds s)) /\
  (forall l, In l (m_lsps s) -> In (l_src (h_ls s l)) (m_nds s) /\ In (l_dst (h_ls s l)) (m_nds s)).

Definition costs_ok (s : st) : Prop :=
  forall i, In i (m_ifs s) -> 1 <= i_cost (h_if s i) /\ (0 < i_cap (h_if s i))%Q.

(** LSPs and demands are told apart by the text "source-dest": no two different
    pairs made of a source and a destination of LSPs and demands give the same
    text. *)
Definition ends_text (a b : string) : string := String.append a (String.append "-" b).
Definition from_names (s : st) : list string := map (lsp_from s) (m_lsps s) ++ map (dmd_from s) (m_dms s).
Definition to_names (s : st) : list string := map (lsp_to s) (m_lsps s) ++ map (dmd_to s) (m_dms s).
Definition texts_distinct (s : st) : Prop :=
  forall a a' b b', In a (from_names s) -> In a' (from_names s) -> In b (to_names s) -> In b' (to_names s) ->
    ends_text a b = ends_text a' b' -> a = a' /\ b = b'.

(** The two ends of a link are both up or both down.  In a FlexModel the ends of
    a link have swapped end nodes and the same circuit_id. *)
Definition is_reverse (k : kind) (s : st) (i j : nat) : Prop :=
  loc s i = rem s j /\ rem s i = loc s j /\
  (k = Perf \/ i_cid (h_if s i) = i_cid (h_if s j)).
Definition ends_agree (k : kind) (s : st) : Prop :=
  forall i j, In i (m_ifs s) -> In j (m_ifs s) -> is_reverse k s i j ->
    i_failed (h_if s i) = i_failed (h_if s j).

(** The other end of the link of interface [i], as interfaces are paired by the
    API: swapped end nodes and the same circuit_id. *)
Definition other_end (s : st) (i j : nat) : Prop :=
  In j (m_ifs s) /\ loc s j = rem s i /\ rem s j = loc s i /\ i_cid (h_if s j) = i_cid (h_if s i).
(** ... and no other interface on the remote node has that circuit_id. *)
Definition sole_other_end (s : st) (i j : nat) : Prop :=
  other_end s i j /\ forall x, In x (m_ifs s) -> loc s x = rem s i -> i_cid (h_if s x) = i_cid (h_if s i) -> x = j.

(** Every reference held by the model has been allocated. *)
Definition allocated (s : st) : Prop :=
  forall x, In x (m_ifs s ++ m_nds s ++ m_dms s ++ m_lsps s ++ m_srs s) -> (x < s_next s)%nat.

(** ** Parts of the state that a call leaves alone *)
Definition same_sets (s s' : st) : Prop :=
  m_ifs s' = m_ifs s /\ m_nds s' = m_nds s /\ m_dms s' = m_dms s /\ m_lsps s' = m_lsps s /\ m_srs s' = m_srs s.

(** The data a user puts in: everything that is not a simulation result.  Only
    the failure state of interfaces is left out. *)
Definition same_if_data (r r' : iface) : Prop :=
  i_name r' = i_name r /\ i_cost r' = i_cost r /\ i_cap r' = i_cap r /\ i_node r' = i_node r /\
  i_rem r' = i_rem r /\ i_srlgs r' = i_srlgs r /\ i_rsvp r' = i_rsvp r /\ i_pct r' = i_pct r.
Definition same_dm_data (r r' : demand) : Prop :=
  d_src r' = d_src r /\ d_dst r' = d_dst r /\ d_traffic r' = d_traffic r /\ d_name r' = d_name r.
Definition same_ls_data (r r' : lsp) : Prop :=
  l_src r' = l_src r /\ l_dst r' = l_dst r /\ l_name r' = l_name r /\ l_cfg r' = l_cfg r.
Definition same_input (s s' : st) : Prop :=
  same_sets s s' /\
  (forall n, h_nd s' n = h_nd s n) /\ (forall g, h_sr s' g = h_sr s g) /\
  (forall i, same_if_data (h_if s i) (h_if s' i)) /\
  (forall d, same_dm_data (h_dm s d) (h_dm s' d)) /\
  (forall l, same_ls_data (h_ls s l) (h_ls s' l)).

(** Nothing but interface records may differ. *)
Definition only_ifs (s s' : st) : Prop :=
  same_sets s s' /\ h_nd s' = h_nd s /\ h_sr s' = h_sr s /\ h_dm s' = h_dm s /\ h_ls s' = h_ls s /\
  m_ckts s' = m_ckts s /\ m_groups s' = m_groups s.

(** [r'] is [r] taken down: failed and without reservations, else the same. *)
Definition downed (r r' : iface) : Prop :=
  same_if_data r r' /\ i_cid r' = i_cid r /\ i_traffic r' = i_traffic r /\ i_inckt r' = i_inckt r /\
  i_failed r' = true /\ i_res r' = 0%Q.

Definition in_failed_srlg (s : st) (gs : list nat) : Prop :=
  exists g, In g gs /\ sr_failed (h_sr s g) = true.

(** ** Circuits *)
(** Interfaces that take part in circuits (and IGP routing, when up). *)
Definition available (s : st) (i : nat) : Prop := exists r, reservable s i r /\ (0 <= r)%Q.

(** [P] holds of exactly one element of [l]. *)
Definition one_in (l : list nat) (P : nat -> Prop) : Prop :=
  exists x, In x l /\ P x /\ forall y, In y l -> P y -> y = x.

(** Every available interface has an available interface in the other
    direction; with circuit ids (FlexModel) there is exactly one interface with
    its end nodes and circuit_id and exactly one in the other direction. *)
Definition pairs_up (k : kind) (s : st) : Prop :=
  forall i, In i (m_ifs s) -> available s i ->
    (exists j, In j (m_ifs s) /\ available s j /\ loc s j = rem s i /\ rem s j = loc s i) /\
    (k = Flex -> i_cid (h_if s i) <> CNone ->
       one_in (m_ifs s) (fun x => loc s x = loc s i /\ rem s x = rem s i /\ i_cid (h_if s x) = i_cid (h_if s i)) /\
       one_in (m_ifs s) (fun x => loc s x = rem s i /\ rem s x = loc s i /\ i_cid (h_if s x) = i_cid (h_if s i))).
