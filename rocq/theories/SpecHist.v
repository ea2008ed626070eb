(** SpecHist.v - definitions used to state properties of histories of calls. *)
From Verif Require Import Base Graph Objects Sim Api Spec.

(** Every reference that is reachable from the model object is allocated. *)
Record wf_refs (s : st) : Prop := {
  wr_alloc : allocated s;
  wr_if : forall i, In i (m_ifs s) -> (i_node (h_if s i) < s_next s)%nat /\ (i_rem (h_if s i) < s_next s)%nat;
  wr_dm : forall d, In d (m_dms s) -> (d_src (h_dm s d) < s_next s)%nat /\ (d_dst (h_dm s d) < s_next s)%nat;
  wr_ls : forall l, In l (m_lsps s) -> (l_src (h_ls s l) < s_next s)%nat /\ (l_dst (h_ls s l) < s_next s)%nat }.

(** What the caller of a history of calls has to respect: Node objects passed to
    add_node and add_circuit exist, the two ends of a new circuit are not two
    different Node objects with one name and one interface name, and neither
    add_network_interfaces_from_list nor an assignment to Interface.name is used
    (C39 shows what these two can do). *)
Definition valid_op (o : op) (s : st) : Prop :=
  match o with
  | OpAddNode n => (n < s_next s)%nat
  | OpAddCircuit a b na nb _ _ _ _ =>
      (a < s_next s)%nat /\ (b < s_next s)%nat /\ ((na, nd_name s a) = (nb, nd_name s b) -> a = b)
  | OpAddInterfaces _ | OpRenameIf _ _ _ => False
  | _ => True
  end.

(** Every call of the history is valid in the state in which it is made. *)
Fixpoint valid_hist (E : env) (k : kind) (l : list op) (s : st) : Prop :=
  match l with
  | [] => True
  | o :: tl => valid_op o s /\ valid_hist E k tl (fst (run_op E k o s))
  end.

