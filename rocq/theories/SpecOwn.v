(** SpecOwn.v - which objects a call can change (C84, C85). *)
From Verif Require Import Base Graph Objects Sim Api Spec.

(** [t] comes from [s] by changing objects of the model only; the model still
    holds the same objects, and no object is created. *)
Record within (s t : st) : Prop := {
  wi_sets : same_sets s t;
  wi_if : forall i, ~ In i (m_ifs s) -> h_if t i = h_if s i;
  wi_nd : forall n, ~ In n (m_nds s) -> h_nd t n = h_nd s n;
  wi_dm : forall d, ~ In d (m_dms s) -> h_dm t d = h_dm s d;
  wi_ls : forall l, ~ In l (m_lsps s) -> h_ls t l = h_ls s l;
  wi_sr : forall g, ~ In g (m_srs s) -> h_sr t g = h_sr s g;
  wi_next : s_next t = s_next s }.

(** The objects handed to a call *)
Definition given_ifs (o : op) : list nat :=
  match o with
  | OpIfToSrlg i _ _ | OpIfFromSrlg i _ | OpSetCost i _ | OpSetCapacity i _ | OpIfFail i | OpIfUnfail i | OpIfSetFailed i _ => [i]
  | _ => []
  end.
Definition given_nodes (o : op) : list nat :=
  match o with OpNdToSrlg n _ _ | OpNdFromSrlg n _ | OpAddNode n | OpNdSetFailed n _ => [n] | _ => [] end.
Definition given_lsps (o : op) : list nat :=
  match o with OpSetMetric l _ | OpTrafficOnLsp l | OpEffectiveMetric l => [l] | _ => [] end.

(** [t] comes from [s] by changing objects of the model and the objects [gi],
    [gn], [gl], and by creating objects; no object leaves the model, and only
    objects created on the way and the nodes [gn] enter it. *)
Record touched (gi gn gl : list nat) (s t : st) : Prop := {
  tc_next : (s_next s <= s_next t)%nat;
  tc_m_ifs : incl (m_ifs s) (m_ifs t) /\ forall i, In i (m_ifs t) -> In i (m_ifs s) \/ (s_next s <= i)%nat;
  tc_m_nds : incl (m_nds s) (m_nds t) /\ forall n, In n (m_nds t) -> In n (m_nds s) \/ (s_next s <= n)%nat \/ In n gn;
  tc_m_dms : incl (m_dms s) (m_dms t) /\ forall d, In d (m_dms t) -> In d (m_dms s) \/ (s_next s <= d)%nat;
  tc_m_lsps : incl (m_lsps s) (m_lsps t) /\ forall l, In l (m_lsps t) -> In l (m_lsps s) \/ (s_next s <= l)%nat;
  tc_m_srs : incl (m_srs s) (m_srs t) /\ forall g, In g (m_srs t) -> In g (m_srs s) \/ (s_next s <= g)%nat;
  tc_if : forall i, (i < s_next s)%nat -> ~ In i (m_ifs s) -> ~ In i gi -> h_if t i = h_if s i;
  tc_nd : forall n, (n < s_next s)%nat -> ~ In n (m_nds s) -> ~ In n gn -> h_nd t n = h_nd s n;
  tc_dm : forall d, (d < s_next s)%nat -> ~ In d (m_dms s) -> h_dm t d = h_dm s d;
  tc_ls : forall l, (l < s_next s)%nat -> ~ In l (m_lsps s) -> ~ In l gl -> h_ls t l = h_ls s l;
  tc_sr : forall g, (g < s_next s)%nat -> ~ In g (m_srs s) -> h_sr t g = h_sr s g }.

(** The cached groups of LSPs hold LSPs of the model *)
Definition own_groups (s : st) : Prop := forall key ls l, In (key, ls) (m_groups s) -> In l ls -> In l (m_lsps s).

(** The same interfaces and nodes of model [s] are failed in [a] and [b]. *)
Definition same_outage (s a b : st) : Prop :=
  (forall i, In i (m_ifs s) -> i_failed (h_if b i) = i_failed (h_if a i)) /\
  (forall n, In n (m_nds s) -> n_failed (h_nd b n) = n_failed (h_nd a n)).

(** Of the nodes only failed flags differ. *)
Definition node_flags_only (s t : st) : Prop :=
  forall n, n_name (h_nd t n) = n_name (h_nd s n) /\ n_lat (h_nd t n) = n_lat (h_nd s n) /\ n_lon (h_nd t n) = n_lon (h_nd s n) /\
            n_srlgs (h_nd t n) = n_srlgs (h_nd s n) /\ n_shortcuts (h_nd t n) = n_shortcuts (h_nd s n).
