(** SpecFail.v - definitions used to state what failure and repair calls do. *)
From Verif Require Import Base Graph Objects Sim Api Spec SpecCkt.

(** The interfaces of the model in [P] and the other ends of their links. *)
Definition hit (s : st) (P : nat -> Prop) (x : nat) : Prop :=
  exists i, In i (m_ifs s) /\ P i /\ (x = i \/ other_end s i x).

(** [s'] is [s] with the nodes in [N] failed and the interfaces in [P] taken
    down together with another end of each of them, and nothing else changed
    (SRLGs are left open). *)
Record brought_down (s s' : st) (P N : nat -> Prop) : Prop := {
  bd_sets : same_sets s s';
  bd_dm : h_dm s' = h_dm s;
  bd_ls : h_ls s' = h_ls s;
  bd_ckts : m_ckts s' = m_ckts s;
  bd_groups : m_groups s' = m_groups s;
  bd_nodes : forall n, N n -> n_failed (h_nd s' n) = true;
  bd_nodes_else : forall n, h_nd s' n = h_nd s n \/ (N n /\ h_nd s' n = nd_failed true (h_nd s n));
  bd_ifs : forall i, In i (m_ifs s) -> P i ->
    downed (h_if s i) (h_if s' i) /\ exists j, other_end s i j /\ downed (h_if s j) (h_if s' j);
  bd_ifs_else : forall x, h_if s' x = h_if s x \/ (hit s P x /\ downed (h_if s x) (h_if s' x)) }.

(** Interface [i] sits on a node that belongs to SRLG [g]. *)
Definition on_failed (s : st) (g : nat) (i : nat) : Prop := exists n, In n (m_nds s) /\ In g (n_srlgs (h_nd s n)) /\ nd_name s n = loc s i.

(** The interface has an other end, and only one. *)
Definition has_other_end (s : st) (i : nat) : Prop := exists j, sole_other_end s i j.

(** The failure state of everything. *)
Definition same_failures_all (s s' : st) : Prop :=
  (forall i, In i (m_ifs s) -> i_failed (h_if s' i) = i_failed (h_if s i)) /\
  (forall n, In n (m_nds s) -> n_failed (h_nd s' n) = n_failed (h_nd s n)) /\
  (forall g, In g (m_srs s) -> sr_failed (h_sr s' g) = sr_failed (h_sr s g)).

(** Every interface has exactly one interface in the other direction. *)
Definition linked (k : kind) (s : st) : Prop :=
  forall i, In i (m_ifs s) -> exists j, In j (m_ifs s) /\ is_reverse k s i j /\
    forall x, In x (m_ifs s) -> is_reverse k s i x -> x = j.

(** A model whose objects fit together. *)
Definition wf_net (k : kind) (s : st) : Prop := keys_unique s /\ refs_ok s /\ cids_set k s /\ linked k s.

(** Both end nodes of an interface are up. *)
Definition ends_up (s : st) (i : nat) : Prop :=
  n_failed (h_nd s (i_node (h_if s i))) = false /\ n_failed (h_nd s (i_rem (h_if s i))) = false.

(** No unfailed interface touches a failed node, and the two ends of every link
    have the same state. *)
Definition consistent (k : kind) (s : st) : Prop :=
  (forall i, In i (m_ifs s) -> i_failed (h_if s i) = false -> ends_up s i) /\ ends_agree k s.

(** Members of failed SRLGs are failed, and both ends of a link are in the same
    SRLGs. *)
Definition srlg_sound (k : kind) (s : st) : Prop :=
  (forall i, In i (m_ifs s) -> in_failed_srlg s (i_srlgs (h_if s i)) -> i_failed (h_if s i) = true) /\
  (forall n, In n (m_nds s) -> in_failed_srlg s (n_srlgs (h_nd s n)) -> n_failed (h_nd s n) = true) /\
  (forall i j, In i (m_ifs s) -> In j (m_ifs s) -> is_reverse k s i j ->
     forall g, In g (i_srlgs (h_if s i)) <-> In g (i_srlgs (h_if s j))).

(** [r'] is [r] brought up: unfailed and without reservations, else the same. *)
Definition upped (r r' : iface) : Prop :=
  same_if_data r r' /\ i_cid r' = i_cid r /\ i_traffic r' = i_traffic r /\ i_inckt r' = i_inckt r /\
  i_failed r' = false /\ i_res r' = 0%Q.

(** Calls that simulate, validate, fail or repair something, or change metrics,
    costs or capacities. *)
Definition failure_op (s : st) (o : op) : Prop :=
  match o with
  | OpUpdate | OpValidate | OpFailIf _ _ | OpUnfailIf _ _ _ | OpFailNode _ | OpUnfailNode _ | OpFailSrlg _ | OpUnfailSrlg _ => True
  | OpIfFail i | OpIfUnfail i => In i (m_ifs s)
  | OpSetMetric _ _ | OpSetCost _ _ | OpSetCapacity _ _ | OpTrafficOnLsp _ | OpEffectiveMetric _ => True
  | _ => False
  end.

(** Calls that can lift the failure of the SRLG named [nm] off its members:
    unfail_srlg and remove_from_srlg of that SRLG. *)
Definition lifts (nm : string) (o : op) : Prop :=
  match o with
  | OpUnfailSrlg n | OpIfFromSrlg _ n | OpNdFromSrlg _ n => n = nm
  | _ => False
  end.
