(** SpecWider.v - links added to a model without LSPs (C114) and with LSPs (C115). *)
From Verif Require Import Base Graph Objects Sim Api Spec SpecCkt SpecSim SpecFlow SpecOrder SpecWhatIf SpecTotal SpecMore SpecCost.

(** [t] is [s] with interfaces added. *)
Record wider (s t : st) : Prop := {
  wd_ifs : forall i, In i (m_ifs s) -> In i (m_ifs t);
  wd_loc : forall i, In i (m_ifs s) -> loc t i = loc s i;
  wd_rem : forall i, In i (m_ifs s) -> rem t i = rem s i;
  wd_cost : forall i, In i (m_ifs s) -> i_cost (h_if t i) = i_cost (h_if s i);
  wd_open : forall i, In i (m_ifs s) -> (available (unreserved t) i <-> available (unreserved s) i);
  wd_fail : same_failures s t;
  wd_dms : m_dms t = m_dms s;
  wd_dm : forall d, In d (m_dms s) -> same_demand s t d }.
Definition is_new (s t : st) (i : nat) : Prop := In i (m_ifs t) /\ ~ In i (m_ifs s).
(** The added interfaces are the two ends of one link, [i] from [a] to [b] and [j] back. *)
Record one_link (s t : st) (i j : nat) (a b : string) : Prop := {
  ol_new : forall x, is_new s t x <-> x = i \/ x = j;
  ol_ne : i <> j;
  ol_i : loc t i = a /\ rem t i = b;
  ol_j : loc t j = b /\ rem t j = a }.
(** A way and a cheapest way of the IGP in a model without LSPs, where nothing is reserved *)
Definition way (s : st) (u : string) (p : list nat) (v : string) : Prop := route (unreserved s) (usable (unreserved s)) u p v.
Definition best_way (s : st) (u : string) (p : list nat) (v : string) : Prop := way s u p v /\ forall q, way s u q v -> route_cost s p <= route_cost s q.

(** [t] is [s] with interfaces added; demands and LSPs are the same. *)
Record wider_lsps (s t : st) : Prop := {
  wl_ifs : forall i, In i (m_ifs s) -> In i (m_ifs t);
  wl_if : forall i, In i (m_ifs s) -> loc t i = loc s i /\ rem t i = rem s i /\ i_cost (h_if t i) = i_cost (h_if s i) /\
                                      i_failed (h_if t i) = i_failed (h_if s i) /\ i_rsvp (h_if t i) = i_rsvp (h_if s i);
  wl_dms : m_dms t = m_dms s;
  wl_dm : forall d, In d (m_dms s) -> same_demand s t d;
  wl_lsps : m_lsps t = m_lsps s;
  wl_ls : forall l, In l (m_lsps s) -> lsp_from t l = lsp_from s l /\ lsp_to t l = lsp_to s l /\ l_cfg (h_ls t l) = l_cfg (h_ls s l) /\ same_metric_read s t l }.
(** LSP [l], demand [d] of the simulated model [t'] use only interfaces of [s]. *)
Definition lsp_keeps (s t' : st) (l : nat) : Prop := forall p c b i, l_path (h_ls t' l) = PRouted p c b -> In i p -> In i (m_ifs s).
Definition demand_keeps (s t' : st) (d : nat) : Prop :=
  forall ps p i, d_path (h_dm t' d) = DPaths ps -> In p ps -> (0 < crossings t' i p)%nat -> In i (m_ifs s).
(** A way, and a cheapest way, over RSVP interfaces that are up *)
Definition rsvp_way (s : st) (u : string) (p : list nat) (v : string) : Prop := route s (rsvp_up s) u p v.
Definition best_rsvp_way (s : st) (u : string) (p : list nat) (v : string) : Prop :=
  rsvp_way s u p v /\ forall q, rsvp_way s u q v -> route_cost s p <= route_cost s q.
