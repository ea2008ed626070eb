(** SpecExn.v - definitions used to state what a call that raises leaves behind (C111). *)
From Verif Require Import Base Graph Objects Sim Api Spec SpecCkt.

(** The model is as it was: the same objects, circuits and groups, and every object that
    existed before has the same attributes. *)
Record untouched (s s' : st) : Prop := {
  un_sets : same_sets s s';
  un_kept : m_ckts s' = m_ckts s /\ m_groups s' = m_groups s;
  un_ifs : forall x, (x < s_next s)%nat -> h_if s' x = h_if s x;
  un_nds : forall x, (x < s_next s)%nat -> h_nd s' x = h_nd s x;
  un_dms : forall x, (x < s_next s)%nat -> h_dm s' x = h_dm s x;
  un_lsps : forall x, (x < s_next s)%nat -> h_ls s' x = h_ls s x;
  un_srs : forall x, (x < s_next s)%nat -> h_sr s' x = h_sr s x }.

(** Calls that look before they change anything *)
Definition looks_first (o : op) : Prop :=
  match o with
  | OpFailIf _ _ | OpIfFail _ | OpAddSrlg _ | OpNdToSrlg _ _ _ | OpNewNode _ | OpRenameIf _ _ _ | OpSetMetric _ _ | OpSetCost _ _ | OpSetCapacity _ _ => True
  | _ => False
  end.

(** A model whose objects exist, whose interfaces have circuit ids if it is a FlexModel, and
    whose LSPs are unrouted or routed over interfaces of the model *)
Record sound (k : kind) (s : st) : Prop := {
  so_once : NoDup (m_ifs s);
  so_alloc : allocated s;
  so_cids : cids_set k s;
  so_paths : forall l, In l (m_lsps s) -> match l_path (h_ls s l) with
                                          | PRouted p _ _ => (forall j, In j p -> In j (m_ifs s)) /\ exists q, l_res (h_ls s l) = RNum q
                                          | PEmpty => False
                                          | _ => True end }.

(** A circuit between nodes named [x] and [y] fits in: it joins two nodes, and in a
    PerformanceModel no interface has the text "source-dest" of one of its ends. *)
Definition fits (k : kind) (s : st) (x y : string) : Prop :=
  x <> y /\ (k = Perf -> ends_text x y <> ends_text y x /\
    forall i, In i (m_ifs s) -> ends_text (loc s i) (rem s i) <> ends_text x y /\ ends_text (loc s i) (rem s i) <> ends_text y x).
