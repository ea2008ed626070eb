(** SpecLspCost.v - changes of interface costs in models with LSPs (C116). *)
From Verif Require Import Base Graph Objects Sim Api Spec SpecCkt SpecSim SpecFlow SpecOrder SpecWhatIf SpecTotal SpecMore SpecCost.

(** [t] is [s] with other costs; demands and LSPs are the same. *)
Record repriced_lsps (s t : st) : Prop := {
  rq_ifs : forall i, In i (m_ifs t) <-> In i (m_ifs s);
  rq_if : forall i, In i (m_ifs s) -> loc t i = loc s i /\ rem t i = rem s i /\ i_failed (h_if t i) = i_failed (h_if s i) /\ i_rsvp (h_if t i) = i_rsvp (h_if s i);
  rq_dms : m_dms t = m_dms s;
  rq_dm : forall d, In d (m_dms s) -> same_demand s t d;
  rq_lsps : m_lsps t = m_lsps s;
  rq_ls : forall l, In l (m_lsps s) -> lsp_from t l = lsp_from s l /\ lsp_to t l = lsp_to s l /\ l_cfg (h_ls t l) = l_cfg (h_ls s l) /\ same_metric_read s t l }.
(** LSP [l], demand [d] of the simulated model [s'] use only interfaces whose cost is the same in [t]. *)
Definition lsp_unpriced (s s' t : st) (l : nat) : Prop :=
  forall p c b i, l_path (h_ls s' l) = PRouted p c b -> In i p -> i_cost (h_if t i) = i_cost (h_if s i).
Definition demand_unpriced (s s' t : st) (d : nat) : Prop :=
  forall ps p i, d_path (h_dm s' d) = DPaths ps -> In p ps -> (0 < crossings s' i p)%nat -> i_cost (h_if t i) = i_cost (h_if s i).
(** Interface [i] is on every cheapest way of LSP [l]. *)
Definition on_every_road (s : st) (l i : nat) : Prop := forall p, least_cost s (rsvp_up s) (lsp_from s l) p (lsp_to s l) -> In i p.
