(** SpecFresh.v - input data and simulation results, to state that
    update_simulation does not depend on the results of earlier runs (C17). *)
From Verif Require Import Base Graph SpecMetric.

(** Two models hold the same objects with the same input data.  What an earlier
    run computes may differ: traffic, reservation and circuit mark of an
    interface, path and bandwidths of an LSP, path and path_detail of a demand,
    the circuits and the cached groups.  SRLGs may also differ in whether they are
    failed.  Objects outside the model are the same.
    The metric of an LSP is compared by what the next read of manual_metric
    shows, because such a read moves the value inside the object. *)
Record same_input (s t : st) : Prop := {
  si_nodes : forall n, h_nd t n = h_nd s n;
  si_m_ifs : m_ifs t = m_ifs s;
  si_m_nds : m_nds t = m_nds s;
  si_m_dms : m_dms t = m_dms s;
  si_m_lsps : m_lsps t = m_lsps s;
  si_m_srs : m_srs t = m_srs s;
  si_ifs : forall i, In i (m_ifs s) ->
    i_name (h_if t i) = i_name (h_if s i) /\ i_cost (h_if t i) = i_cost (h_if s i) /\
    i_cap (h_if t i) = i_cap (h_if s i) /\ i_node (h_if t i) = i_node (h_if s i) /\
    i_rem (h_if t i) = i_rem (h_if s i) /\ i_cid (h_if t i) = i_cid (h_if s i) /\
    i_failed (h_if t i) = i_failed (h_if s i) /\ i_srlgs (h_if t i) = i_srlgs (h_if s i) /\
    i_rsvp (h_if t i) = i_rsvp (h_if s i) /\ i_pct (h_if t i) = i_pct (h_if s i);
  si_dms : forall d, In d (m_dms s) ->
    d_src (h_dm t d) = d_src (h_dm s d) /\ d_dst (h_dm t d) = d_dst (h_dm s d) /\
    d_traffic (h_dm t d) = d_traffic (h_dm s d) /\ d_name (h_dm t d) = d_name (h_dm s d);
  si_lsps : forall l, In l (m_lsps s) ->
    l_src (h_ls t l) = l_src (h_ls s l) /\ l_dst (h_ls t l) = l_dst (h_ls s l) /\
    l_name (h_ls t l) = l_name (h_ls s l) /\ l_cfg (h_ls t l) = l_cfg (h_ls s l) /\
    snd (mstep (mstate_of (h_ls t l)) MRead) = snd (mstep (mstate_of (h_ls s l)) MRead);
  si_out_ifs : forall i, ~ In i (m_ifs s) -> h_if t i = h_if s i;
  si_out_dms : forall d, ~ In d (m_dms s) -> h_dm t d = h_dm s d;
  si_out_lsps : forall l, ~ In l (m_lsps s) -> h_ls t l = h_ls s l }.

(** The calls of random.choice made from here on have the same outcomes *)
Definition same_draws (E : env) (s t : st) : Prop := forall n, rng E (s_rng t + n)%nat = rng E (s_rng s + n)%nat.

(** What every run leaves, also one that raises: the results that reports read *)
Record same_results (s t : st) : Prop := {
  sr_ifs : forall i, In i (m_ifs s) ->
    i_traffic (h_if t i) = i_traffic (h_if s i) /\ i_res (h_if t i) = i_res (h_if s i) /\
    i_failed (h_if t i) = i_failed (h_if s i) /\ i_cid (h_if t i) = i_cid (h_if s i);
  sr_lsps : forall l, In l (m_lsps s) -> l_path (h_ls t l) = l_path (h_ls s l) /\
    (l_path (h_ls s l) <> PUnrouted -> l_res (h_ls t l) = l_res (h_ls s l) /\ l_setup (h_ls t l) = l_setup (h_ls s l));
  sr_dms : forall d, In d (m_dms s) -> d_path (h_dm t d) = d_path (h_dm s d) }.

(** What a successful run leaves besides: the path_detail of the routed demands,
    the circuits and the circuit marks *)
Record same_details (s t : st) : Prop := {
  sd_dms : forall d, In d (m_dms s) -> d_path (h_dm s d) <> DUnrouted -> d_detail (h_dm t d) = d_detail (h_dm s d);
  sd_marks : forall i, In i (m_ifs s) -> i_inckt (h_if t i) = i_inckt (h_if s i);
  sd_ckts : m_ckts t = m_ckts s }.

(** The bandwidths of all LSPs, routed or not *)
Definition same_bandwidths (s t : st) : Prop := forall l, In l (m_lsps s) ->
  l_res (h_ls t l) = l_res (h_ls s l) /\ l_setup (h_ls t l) = l_setup (h_ls s l).
