(** SpecSteer.v - changes of the manual metric of an LSP (C118). *)
From Verif Require Import Base Graph Objects Sim Api Spec SpecCkt SpecSim SpecMetric SpecFlow SpecOrder SpecWhatIf SpecSig SpecTotal SpecMore.

(** [t] is [s] with, at most, another manual metric of LSP [l0]. *)
Record remetriced (l0 : nat) (s t : st) : Prop := {
  me_ifs : forall i, In i (m_ifs t) <-> In i (m_ifs s);
  me_if : forall i, In i (m_ifs s) -> loc t i = loc s i /\ rem t i = rem s i /\ i_cost (h_if t i) = i_cost (h_if s i) /\
                                      i_failed (h_if t i) = i_failed (h_if s i) /\ i_rsvp (h_if t i) = i_rsvp (h_if s i);
  me_dms : m_dms t = m_dms s;
  me_dm : forall d, In d (m_dms s) -> same_demand s t d;
  me_lsps : m_lsps t = m_lsps s;
  me_ls : forall l, In l (m_lsps s) -> lsp_from t l = lsp_from s l /\ lsp_to t l = lsp_to s l /\ l_cfg (h_ls t l) = l_cfg (h_ls s l);
  me_metric : forall l, In l (m_lsps s) -> l <> l0 -> same_metric_read s t l }.
(** Reading manual_metric of LSP [l] gives [v]. *)
Definition reads_metric (s : st) (l : nat) (v : Z) : Prop := snd (mstep (mstate_of (h_ls s l)) MRead) = OutValue (Some v).
(** The routed LSPs of demand [d] other than [l0] have metrics above [v]. *)
Definition others_above (s' : st) (d l0 : nat) (v : Z) : Prop :=
  forall l m, lsp_of s' d l -> routed_lsp s' l -> l <> l0 -> metric s' l m -> exists y, m = Some y /\ v < y.
