(** SpecFloat.v - floating point numbers, and what a simulation in floating point arithmetic
    has in common with the exact one (C104, C105). *)
From Verif Require Import Base SpecSig.

(** Numbers with a significand of 53 bits, and the one nearest to [x]: of two, the one
    whose last bit is 0 *)
Definition is_float (f : Q) : Prop := exists m e : Z, (Z.abs m <= 2 ^ 53)%Z /\ (f == inject_Z m * 2 ^ e)%Q.
Definition nearest_float (x f : Q) : Prop :=
  is_float f /\ (forall g, is_float g -> Qabs (x - f) <= Qabs (x - g))%Q /\
  (forall g, is_float g -> (Qabs (x - g) == Qabs (x - f))%Q -> (g == f)%Q \/
     exists m e : Z, Z.even m = true /\ (2 ^ 52 <= Z.abs m <= 2 ^ 53)%Z /\ (f == inject_Z m * 2 ^ e)%Q).

(** [f] differs from [q] by at most n * 2^-52 of it. *)
Definition within (n : nat) (q f : Q) : Prop := (Qabs (f - q) <= inject_Z (Z.of_nat n) * (1 # 2 ^ 52) * q)%Q.

(** The same network with the same routes: all that can be asked of the model except
    amounts of traffic *)
Record same_routes (s t : st) : Prop := {
  sv_objects : m_ifs t = m_ifs s /\ m_nds t = m_nds s /\ m_dms t = m_dms s /\ m_lsps t = m_lsps s /\ m_srs t = m_srs s;
  sv_circuits : m_ckts t = m_ckts s /\ m_groups t = m_groups s;
  sv_nodes : h_nd t = h_nd s /\ h_sr t = h_sr s;
  sv_demands : forall d, dm_detail PDInitial (h_dm t d) = dm_detail PDInitial (h_dm s d);
  sv_interfaces : forall i, if_traffic TDown (if_res 0%Q (h_if t i)) = if_traffic TDown (if_res 0%Q (h_if s i));
  sv_reserved : forall i, (i_res (h_if t i) == i_res (h_if s i))%Q;
  sv_down : forall i, i_traffic (h_if t i) = TDown <-> i_traffic (h_if s i) = TDown;
  sv_lsps : forall l, ls_path PUnrouted (ls_res RUnrouted (ls_setup RUnrouted (h_ls t l))) = ls_path PUnrouted (ls_res RUnrouted (ls_setup RUnrouted (h_ls s l)));
  sv_lsp_paths : forall l, match l_path (h_ls s l), l_path (h_ls t l) with
                           | PRouted p c b, PRouted p' c' b' => p' = p /\ c' = c /\ (b' == b)%Q
                           | PRouted _ _ _, _ => False | _, PRouted _ _ _ => False
                           | a, b => b = a end;
  sv_lsp_reserved : forall l, match l_res (h_ls s l), l_res (h_ls t l) with
                              | RNum q, RNum f => (f == q)%Q
                              | RNum _, _ => False | _, RNum _ => False
                              | a, b => b = a end;
  sv_lsp_setup : forall l, match l_setup (h_ls s l), l_setup (h_ls t l) with
                           | RNum q, RNum f => (f == q)%Q
                           | RNum _, _ => False | _, RNum _ => False
                           | a, b => b = a end }.

(** The number of paths of all demands *)
Fixpoint all_paths (s : st) (ds : list nat) : nat :=
  match ds with
  | [] => 0
  | d :: ds => (match d_path (h_dm s d) with DPaths ps => List.length ps | DUnrouted => 0 end) + all_paths s ds
  end%nat.

(** Traffic on the interfaces within [n] *)
Definition close_traffic (n : nat) (s t : st) : Prop :=
  forall i, In i (m_ifs s) ->
    match i_traffic (h_if s i), i_traffic (h_if t i) with
    | TDown, TDown => True
    | TNum q, TNum f => within n q f
    | _, _ => False
    end.
(** path_detail with the same paths and splits, and traffic within [n] *)
Definition close_info (n : nat) (a b : pinfo) : Prop :=
  pi_items b = pi_items a /\ pi_interfaces b = pi_interfaces a /\ pi_splits b = pi_splits a /\ within n (pi_traffic a) (pi_traffic b).
Definition close_details (n : nat) (s t : st) : Prop :=
  forall d, In d (m_dms s) ->
    d_detail (h_dm t d) = d_detail (h_dm s d) \/
    exists xs ys, d_detail (h_dm s d) = PDInfo xs /\ d_detail (h_dm t d) = PDInfo ys /\ Forall2 (close_info n) xs ys.

(** ** Amounts in steps of a half (C105) *)
Definition half_steps (x : Q) : Prop := exists z : Z, (x == z # 2)%Q.
(** What can be reserved on an interface, the traffic of demands, configured setup bandwidths and
    the shares of the LSPs are multiples of a half, whatever number of the LSPs between two nodes
    is routed; [B] bounds what a LSP can ask for, and all LSPs together stay below 2^44. *)
Record in_halves (B : Q) (s : st) : Prop := {
  hv_ifs : forall i, In i (m_ifs s) -> (0 <= i_cap (h_if s i))%Q /\ (0 <= i_pct (h_if s i))%Q /\
             half_steps (i_cap (h_if s i) * (i_pct (h_if s i) / 100)) /\ (i_cap (h_if s i) * (i_pct (h_if s i) / 100) <= inject_Z (2 ^ 44))%Q;
  hv_dms : forall d, In d (m_dms s) -> half_steps (d_traffic (h_dm s d)) /\ (0 <= d_traffic (h_dm s d))%Q;
  hv_shares : forall l n, In l (m_lsps s) -> (1 <= n <= List.length (lsps_of s l))%nat -> half_steps (traffic_of s l / inject_Z (Z.of_nat n));
  hv_traffic : forall l, In l (m_lsps s) -> (traffic_of s l <= B)%Q;
  hv_config : forall l x, In l (m_lsps s) -> l_cfg (h_ls s l) = Some x -> half_steps x /\ (0 <= x <= B)%Q;
  hv_bound : (0 <= B)%Q /\ (3 * B * inject_Z (Z.of_nat (List.length (m_lsps s))) <= inject_Z (2 ^ 44))%Q }.

(** [t] is [s] with every amount a user wrote down replaced by the nearest float, as Python does
    when it reads 0.1. *)
Record read_as_floats (s t : st) : Prop := {
  rf_sets : m_ifs t = m_ifs s /\ m_nds t = m_nds s /\ m_dms t = m_dms s /\ m_lsps t = m_lsps s /\ m_srs t = m_srs s /\ m_ckts t = m_ckts s /\ m_groups t = m_groups s;
  rf_nodes : h_nd t = h_nd s /\ h_sr t = h_sr s;
  rf_ifs : forall i, In i (m_ifs s) -> exists cap pct, nearest_float (i_cap (h_if s i)) cap /\ nearest_float (i_pct (h_if s i)) pct /\ nearest_float (i_res (h_if s i)) (i_res (h_if t i)) /\
    h_if t i = mkIface (i_name (h_if s i)) (i_cost (h_if s i)) cap (i_node (h_if s i)) (i_rem (h_if s i)) (i_cid (h_if s i)) (i_traffic (h_if s i)) (i_failed (h_if s i))
                 (i_res (h_if t i)) (i_srlgs (h_if s i)) (i_rsvp (h_if s i)) pct (i_inckt (h_if s i));
  rf_dms : forall d, In d (m_dms s) -> exists tr, nearest_float (d_traffic (h_dm s d)) tr /\
    h_dm t d = mkDemand (d_src (h_dm s d)) (d_dst (h_dm s d)) tr (d_name (h_dm s d)) (d_path (h_dm s d)) (d_detail (h_dm s d));
  rf_lsps : forall l, In l (m_lsps s) -> exists cfg, match l_cfg (h_ls s l), cfg with Some x, Some y => nearest_float x y | None, None => True | _, _ => False end /\
    h_ls t l = mkLsp (l_src (h_ls s l)) (l_dst (h_ls s l)) (l_name (h_ls s l)) (l_path (h_ls s l)) (l_res (h_ls s l)) (l_setup (h_ls s l)) cfg (l_mm (h_ls s l)) (l_imm (h_ls s l)) }.
