(** SpecMore.v - comparing the simulations of two models with room for all LSPs:
    failures (C91), added demands and LSPs (C92). *)
From Verif Require Import Base Spec SpecCkt SpecSim SpecMetric SpecSig SpecFlow SpecOrder SpecShort SpecTotal SpecSame SpecFail SpecWhatIf.

(** A usual model (C88) in which every RSVP interface has room for all LSPs and no
    link is half failed; *)
Record usual_room (k : kind) (s : st) : Prop := {
  ur_posed : well_posed s;
  ur_known : ends_known s;
  ur_cids : cids_set k s;
  ur_usual : lsps_usual k s;
  ur_ample : ample s;
  ur_agree : ends_agree k s }.
(** ... and no node has IGP shortcuts. *)
Record with_room (k : kind) (s : st) : Prop := {
  rm_posed : well_posed s;
  rm_known : ends_known s;
  rm_cids : cids_set k s;
  rm_usual : lsps_usual k s;
  rm_ample : ample s;
  rm_agree : ends_agree k s;
  rm_off : shortcuts_off s }.

(** Reading the manual metric of LSP [l] gives the same in both models. *)
Definition same_metric_read (s t : st) (l : nat) : Prop :=
  snd (mstep (mstate_of (h_ls t l)) MRead) = snd (mstep (mstate_of (h_ls s l)) MRead).

(** [t] is [s] with more (or as many) interfaces down. *)
Record worse (k : kind) (s t : st) : Prop := {
  wo_config : same_config k s t;
  wo_down : forall i, In i (m_ifs s) -> i_failed (h_if s i) = true -> i_failed (h_if t i) = true;
  wo_metric : forall l, In l (m_lsps s) -> same_metric_read s t l }.

(** LSP [l], demand [d] of the simulated model [s'] use only interfaces that are up
    in [t]. *)
Definition lsp_spared (s' t : st) (l : nat) : Prop :=
  forall p c b i, l_path (h_ls s' l) = PRouted p c b -> In i p -> i_failed (h_if t i) = false.
Definition demand_spared (s' t : st) (d : nat) : Prop :=
  forall ps p i, d_path (h_dm s' d) = DPaths ps -> In p ps -> (0 < crossings s' i p)%nat -> i_failed (h_if t i) = false.

(** LSP [l] has at most one best way. *)
Definition sole_road (s : st) (l : nat) : Prop := forall p q, best_road s l p -> best_road s l q -> p = q.

(** [t] is [s] with the demands [D] and the LSPs [L] added. *)
Record grown (s t : st) (D L : list nat) : Prop := {
  gr_ifs : forall i, In i (m_ifs t) <-> In i (m_ifs s);
  gr_if : forall i, In i (m_ifs s) -> loc t i = loc s i /\ rem t i = rem s i /\ i_cost (h_if t i) = i_cost (h_if s i) /\
                                      i_failed (h_if t i) = i_failed (h_if s i) /\ i_rsvp (h_if t i) = i_rsvp (h_if s i);
  gr_dms : m_dms t = (m_dms s ++ D)%list;
  gr_lsps : m_lsps t = (m_lsps s ++ L)%list;
  gr_dm : forall d, In d (m_dms s) -> same_demand s t d;
  gr_ls : forall l, In l (m_lsps s) -> lsp_from t l = lsp_from s l /\ lsp_to t l = lsp_to s l /\ l_cfg (h_ls t l) = l_cfg (h_ls s l) /\ same_metric_read s t l }.

(** None of the added LSPs [L] (and none of the added demands [D]) has the ends [u] and [v]. *)
Definition no_new_lsp (t : st) (L : list nat) (u v : string) : Prop := forall l, In l L -> lsp_from t l = u -> lsp_to t l <> v.
Definition no_new_demand (t : st) (D : list nat) (u v : string) : Prop := forall d, In d D -> dmd_from t d = u -> dmd_to t d <> v.
