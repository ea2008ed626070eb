(** SpecRepair.v - definitions used to state what repairing a node or an SRLG
    does. *)
From Verif Require Import Base Spec SpecCkt SpecFail.

(** [s'] is [s] with the nodes in [N] repaired and the interfaces in [P] brought
    up without reservations, and nothing else changed but the circuits (SRLGs are
    left open).  With [q] also interfaces held down by a failed SRLG may have
    lost their reservations. *)
Record restored (k : kind) (q : Prop) (s s' : st) (P N : nat -> Prop) : Prop := {
  rs_sets : same_sets s s';
  rs_dm : h_dm s' = h_dm s;
  rs_ls : h_ls s' = h_ls s;
  rs_groups : m_groups s' = m_groups s;
  rs_nodes : forall n, N n -> n_failed (h_nd s' n) = false;
  rs_nodes_else : forall n, h_nd s' n = h_nd s n \/ (N n /\ h_nd s' n = nd_failed false (h_nd s n));
  rs_data : forall x, same_if_data (h_if s x) (h_if s' x) /\ i_traffic (h_if s' x) = i_traffic (h_if s x) /\
    (k = Flex -> i_cid (h_if s' x) = i_cid (h_if s x));
  rs_ifs : forall x, P x -> i_failed (h_if s' x) = false /\ i_res (h_if s' x) = 0%Q;
  rs_ifs_else : forall x,
    (i_failed (h_if s' x) = i_failed (h_if s x) /\ i_res (h_if s' x) = i_res (h_if s x)) \/
    (P x /\ i_failed (h_if s' x) = false /\ i_res (h_if s' x) = 0%Q) \/
    (q /\ in_failed_srlg s (i_srlgs (h_if s x)) /\ i_failed (h_if s x) = true /\ i_failed (h_if s' x) = true /\ i_res (h_if s' x) = 0%Q) }.

(** Interface [x] is at node [n], at either end, and its other end node is up
    (or is [n] too). *)
Definition at_node (s : st) (n x : nat) : Prop :=
  (i_node (h_if s x) = n \/ i_rem (h_if s x) = n) /\
  (i_node (h_if s x) = n \/ n_failed (h_nd s (i_node (h_if s x))) = false) /\
  (i_rem (h_if s x) = n \/ n_failed (h_nd s (i_rem (h_if s x))) = false).

(** Every interface has one other end, and (PerformanceModel) takes part in the
    circuits whether or not it carries reservations. *)
Definition all_paired (k : kind) (s : st) : Prop :=
  (forall i, In i (m_ifs s) -> has_other_end s i) /\
  (k = Perf -> forall i, In i (m_ifs s) -> available s i /\ (0 <= i_cap (h_if s i) * i_pct (h_if s i) / 100)%Q).

(** Interface [x] is at one of the nodes of SRLG [g]. *)
Definition at_member (s : st) (g x : nat) : Prop :=
  exists n, In n (m_nds s) /\ In g (n_srlgs (h_nd s n)) /\ (i_node (h_if s x) = n \/ i_rem (h_if s x) = n).

(** Interface [x] is at node [n], at either end. *)
Definition touches (s : st) (n x : nat) : Prop := i_node (h_if s x) = n \/ i_rem (h_if s x) = n.
