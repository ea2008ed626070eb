(** FloatQuery.v - get_shortest_path and reservable_bandwidth after a simulation in floating
    point arithmetic. *)
From Verif Require Import Base Graph Objects Sim Spec SpecCkt SpecOrder Float GraphProofs ObjProofs MonadProofs RoundProofs FloatProofs ResProofs PathProofs QuietProofs CircuitProofs RouteProofs TrafficProofs FloatLock FloatFree LeastProofs OrderProofs SpecSig SigProofs SigSeq ResigProofs SigUpdate LspSucceeds FloatSig FloatGroups GroupProofs IgpProofs MetricProofs UtilProofs SpecSim SpecFloat FloatMain FloatLsps ApiProofs.
From Verif Require FloatSim.
From Coq Require Import Lqa.

Lemma query_twin (tr : nat -> Q -> Q -> Prop) (sh : Q -> Q -> Prop) E k c s t u v bw : twin tr sh c s t ->
  (forall i, In i (m_ifs s) -> Qleb bw (FloatSim.reservable_bw fl t i) = Qleb bw (reservable_bw s i)) ->
  FloatSim.get_shortest_path fl E k t u v bw = get_shortest_path E k s u v bw.
Proof.
  intros H R. assert (G : FloatSim.make_graph fl k t false bw false = make_graph k s false bw false).
  { unfold FloatSim.make_graph, make_graph. rewrite (tw_names _ _ _ _ _ H), (tw_ifs _ _ _ _ _ H). f_equal. f_equal.
    rewrite (map_ext _ (edge_of s)) by (intros i; apply (tw_edge _ _ _ _ _ H)). f_equal. apply filter_ext_in. intros i Hi. unfold FloatSim.considered, considered.
    destruct (tw_idata _ _ _ _ _ H i) as (_ & _ & _ & _ & _ & _ & Fa & _ & Rs & _). rewrite Fa, Rs, (R i Hi). reflexivity. }
  unfold FloatSim.get_shortest_path, get_shortest_path. rewrite G. destruct (nx_asp E (make_graph k s false bw false) u v) as [ps| |]; try reflexivity. f_equal. destruct k.
  - apply flat_map_ext. intros p. unfold FloatSim.flex_model_paths, flex_model_paths. f_equal. apply map_ext. intros x. rewrite (tw_between _ _ _ _ _ H). apply filter_ext_in.
    intros i Hi. apply R. unfold ifaces_between in Hi. now apply filter_In in Hi.
  - apply map_ext. intros p. apply (tw_perf_path _ _ _ _ _ H).
Qed.

Section Halves.
Variables (E : env) (k : kind) (s s' : st) (B : Q).
Hypothesis HE : env_ok E.
Hypothesis WP : well_posed s.
Hypothesis NL : NoDup (m_lsps s).
Hypothesis HB : in_halves B s.
Hypothesis U : update_simulation E k s = (s', Ok tt).
Hypothesis St : same_failures s s'.
Lemma halves_small i : In i (m_ifs s) -> small (i_res (h_if s' i)).
Proof.
  intros Hi. destruct WP as (N & Cost & TD). destruct (both_start E k s) as (s1 & P1 & U1 & U2). assert (U' := U). rewrite U1 in U'.
  apply bind_ok in U' as (s2 & [] & R2 & U'). apply bind_ok in U' as (s4 & [] & R4 & V). unfold route_demands in R4. rewrite !bind_gets in R4.
  apply bind_ok in R4 as (s3 & [] & R3 & R4).
  assert (Sm : simulated E k s s1 s2 s3 s4 s') by (constructor; auto).
  destruct (lsps_twin E k HE s s1 s2 s3 s4 s' Sm N Cost TD B HB NL (fun _ _ _ => True) (fun _ _ => True) (fun _ => I)) as (t2 & RL & P2 & H2).
  destruct (hv_bound _ _ HB) as [B0 BB]. fold (nq (List.length (m_lsps s))) in BB. change (inject_Z (2 ^ 44)) with (pow2 44) in BB.
  destruct (sm_12 _ _ _ _ _ _ _ _ Sm) as (_ & I2 & _). rewrite (sm_ires E k HE _ _ _ _ _ _ Sm N St i). apply (res_small k (fun _ _ _ => True) (fun _ _ => True) _ _ s2 t2 BB P2 i). now rewrite I2.
Qed.
Lemma halves_room (tr : nat -> Q -> Q -> Prop) (sh : Q -> Q -> Prop) c t' i : twin tr sh c s' t' -> In i (m_ifs s) -> (FloatSim.reservable_bw fl t' i == reservable_bw s' i)%Q.
Proof.
  intros H Hi. destruct (halves_small i Hi) as [R1 R2]. destruct (hv_ifs _ _ HB i Hi) as (C1 & C2 & C3 & C4). change (inject_Z (2 ^ 44)) with (pow2 44) in C4. change (half (i_cap (h_if s i) * (i_pct (h_if s i) / 100))) in C3.
  assert (D : i_cap (h_if s' i) = i_cap (h_if s i) /\ i_pct (h_if s' i) = i_pct (h_if s i)).
  { assert (K := update_input E k s). cbv zeta in K. rewrite U in K. cbn [fst snd] in K. destruct K as ((_&_&_&X&_)&_). destruct (X i) as (_&_&->&_&_&_&_&->). auto. }
  destruct D as [D1 D2]. unfold FloatSim.reservable_bw, reservable_bw. destruct (tw_idata _ _ _ _ _ H i) as (_ & _ & -> & _ & _ & _ & _ & _ & -> & -> & _). destruct (i_rsvp (h_if s' i)); [|reflexivity].
  assert (A : (reserved_bw s' i == i_res (h_if s' i))%Q) by (apply half_round1; exact R1).
  assert (A' : (FloatSim.reserved_bw fl t' i == i_res (h_if s' i))%Q) by (rewrite (tw_reserved _ _ _ _ _ H i), (fl_ext _ _ A); apply small_fl; split; assumption).
  rewrite D1, D2. transitivity (i_cap (h_if s i) * (i_pct (h_if s i) / 100) - i_res (h_if s' i))%Q.
  - assert (X := room_float _ _ _ C1 C2 C3 R1 C4 R2). rewrite <- X. apply fl_ext. erewrite round1_ext; [reflexivity|]. apply fl_ext. rewrite A'. reflexivity.
  - symmetry. erewrite round1_ext; [|rewrite A; reflexivity]. apply half_round1. apply half_plus; [exact C3|now apply half_opp].
Qed.
Lemma halves_query : exists t', FloatSim.update_simulation fl E k s = (t', Ok tt) /\ same_routes s' t' /\
  (forall i, In i (m_ifs s) -> (FloatSim.reservable_bw fl t' i == reservable_bw s' i)%Q) /\
  forall F u v bw, FloatSim.get_shortest_path fl F k t' u v bw = get_shortest_path F k s' u v bw.
Proof.
  destruct (halves_twin E k s s' B HE WP NL HB U (fun _ _ _ => True) (fun _ _ => True) True (fun _ => True)) as (t' & R & H); auto.
  exists t'. split; [exact R|]. split; [eapply twin_routes; exact H|]. split; [intros i Hi; eapply halves_room; eauto|].
  intros F u v bw. apply (query_twin _ _ F k _ _ _ u v bw H). intros i Hi. apply Qleb_ext; [reflexivity|]. eapply halves_room; eauto.
  assert (K := update_input E k s). cbv zeta in K. rewrite U in K. cbn [fst snd] in K. destruct K as (((X&_)&_)&_). simpl in X. rewrite X in Hi. exact Hi.
Qed.
End Halves.

Section Free.
Variables (E : env) (k : kind) (s s' : st).
Hypothesis HE : env_ok E.
Hypothesis NL : m_lsps s = [].
Hypothesis WP : well_posed s.
Hypothesis EK : ends_known s.
Hypothesis CS : cids_set k s.
Hypothesis Pos : forall i, In i (m_ifs s) -> (0 <= i_cap (h_if s i))%Q /\ (0 <= i_pct (h_if s i))%Q.
Hypothesis U : update_simulation E k s = (s', Ok tt).
Hypothesis St : same_failures s s'.
Lemma free_res i : In i (m_ifs s) -> i_res (h_if s' i) = 0%Q.
Proof.
  intros Hi. assert (N := proj1 WP). destruct (both_start E k s) as (s1 & P1 & U1 & U2). assert (U' := U). rewrite U1 in U'.
  apply bind_ok in U' as (s2 & [] & R2 & U'). apply bind_ok in U' as (s4 & [] & R4 & V). unfold route_demands in R4. rewrite !bind_gets in R4.
  apply bind_ok in R4 as (s3 & [] & R3 & R4).
  assert (Sm : simulated E k s s1 s2 s3 s4 s') by (constructor; auto). destruct (start_of E k HE s NL s1 s2 _ P1 R2) as [S2 _].
  rewrite (sm_ires E k HE _ _ _ _ _ _ Sm N St i), (so_if _ _ _ S2 i Hi). reflexivity.
Qed.
Lemma free_query : exists t', FloatSim.update_simulation fl E k s = (t', Ok tt) /\ same_routes s' t' /\
  forall F u v, FloatSim.get_shortest_path fl F k t' u v 0 = get_shortest_path F k s' u v 0.
Proof.
  destruct (free_twin E k s s' HE NL WP EK CS Pos U (fun _ _ _ => True) (fun _ _ => True) True (fun _ => True)) as (t' & R & H); auto.
  exists t'. split; [exact R|]. split; [eapply twin_routes; exact H|]. intros F u v. apply (query_twin _ _ F k _ _ _ u v 0 H). intros i Hi.
  assert (K := update_input E k s). cbv zeta in K. rewrite U in K. cbn [fst snd] in K. destruct K as (((X&_)&_&_&D&_)&_). simpl in X. rewrite X in Hi. destruct (D i) as (_&_&Dc&_&_&_&_&Dp).
  unfold FloatSim.reservable_bw, reservable_bw. destruct (tw_idata _ _ _ _ _ H i) as (_ & _ & -> & _ & _ & _ & _ & _ & -> & -> & _). destruct (i_rsvp (h_if s' i)); [|reflexivity].
  rewrite Dc, Dp. destruct (Pos i Hi) as [Q1 Q2]. assert (A : (reserved_bw s' i == 0)%Q) by (unfold reserved_bw; rewrite (free_res i Hi); reflexivity).
  assert (A' : (FloatSim.reserved_bw fl t' i == 0)%Q) by (rewrite (tw_reserved _ _ _ _ _ H i), (fl_ext _ _ A); reflexivity).
  destruct (room_sign _ _ _ Q1 Q2 A') as [B1 _]. destruct (room_sign _ _ _ Q1 Q2 A) as [_ B2].
  assert (Y : forall x, (0 <= x)%Q -> Qleb 0 x = true) by (intros x; apply Qle_bool_iff). now rewrite !Y.
Qed.
End Free.
