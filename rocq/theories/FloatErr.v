(** FloatErr.v - errors of the float simulation of a network without LSPs. *)
From Verif Require Import Base Graph Objects Sim Spec SpecCkt SpecSim SpecOrder Float GraphProofs ObjProofs MonadProofs RoundProofs FloatProofs QuietProofs RouteProofs TrafficProofs OrderProofs FloatLock FloatFree FloatFail.
From Verif Require FloatSim AddProofs FloatMain.
From Coq Require Import Lqa.

Lemma empty_same s t : twin any_tr any_sh (fun _ => 0%nat) s t -> empty_ok s -> sums_same s t.
Proof.
  intros H [L Z].
  assert (X : forall i, In i (m_ifs s) -> FloatSim.reserved_bw fl t i = 0%Q /\ (reserved_bw s i == 0)%Q).
  { intros i Hi. unfold FloatSim.reserved_bw, reserved_bw. destruct (tw_if _ _ _ _ _ H i) as (_ & B & _). rewrite (Z i Hi) in B |- *.
    assert (Y : (round1 (i_res (h_if t i)) == 0)%Q) by (rewrite round1_roundd, (roundd_compat 10 _ _ B); reflexivity). rewrite (fl_zero _ Y). split; reflexivity. }
  split.
  - intros i Hi. unfold FloatSim.res_too_high, res_too_high. destruct (X i Hi) as [-> B]. destruct (tw_idata _ _ _ _ _ H i) as (_ & _ & -> & _).
    destruct (Qltb (i_cap (h_if s i)) (reserved_bw s i)) eqn:Y.
    + destruct (Qltb (i_cap (h_if s i)) 0) eqn:W; auto. apply AddProofs.Qltb_false in W. assert (V : Qltb (i_cap (h_if s i)) (reserved_bw s i) = false) by (apply AddProofs.Qltb_false; lra). congruence.
    + apply AddProofs.Qltb_false in Y. apply AddProofs.Qltb_false. lra.
  - unfold int_info, FloatSim.int_info. rewrite (tw_lsps _ _ _ _ _ H), L. simpl. intros i Hi.
    unfold FloatSim.res_sum_wrong, res_sum_wrong. destruct (X i Hi) as [-> Y].
    assert (R0 : (round1 (reserved_bw s i) == 0)%Q) by (rewrite round1_roundd, (roundd_compat 10 _ _ Y); reflexivity).
    replace (Qeqb (round1 (reserved_bw s i)) (round1 (info_sum [] (ikey s i)))) with true; [reflexivity|]. symmetry. unfold Qeqb. apply Qeq_bool_iff. rewrite R0. reflexivity.
Qed.

Lemma free_fails E k s s' e : env_ok E -> m_lsps s = [] ->
  (forall i, In i (m_ifs s) -> (0 <= i_cap (h_if s i))%Q /\ (0 <= i_pct (h_if s i))%Q) ->
  update_simulation E k s = (s', Err e) -> exists t', FloatSim.update_simulation fl E k s = (t', Err e).
Proof.
  intros HE NL Pos U. destruct (both_start E k s) as (s1 & P1 & U1 & U2). rewrite U1 in U. rewrite U2. clear U1 U2.
  assert (RL : exists s2, route_lsps E k s1 = (s2, Ok tt) /\ FloatSim.route_lsps fl E k s1 = (s2, Ok tt)).
  { unfold route_lsps, FloatSim.route_lsps. rewrite !bind_gets.
    destruct (mfor_upd_if (if_res 0%Q) (m_ifs s1) (fun r => eq_refl) s1) as (h & R1 & X1). rewrite !(bind_run _ _ _ _ _ R1).
    destruct (groups_run E (CircuitProofs.with_if s1 h)) as (sg & Rg & _).
    assert (EG : egroups E (CircuitProofs.with_if s1 h) = []).
    { unfold egroups. simpl. rewrite (pr_groups _ _ P1), (pr_lsps _ _ P1), NL. now apply no_groups. }
    rewrite EG in Rg. rewrite !(bind_run _ _ _ _ _ Rg), !bind_gets. eexists. split; reflexivity. }
  destruct RL as (s2 & R2 & R2'). destruct (start_of E k HE s NL s1 s2 _ P1 R2) as [S2 _]. rewrite (bind_run _ _ _ _ _ R2) in U. rewrite (bind_run _ _ _ _ _ R2'). clear R2 R2' P1 s1.
  assert (HT : tws any_tr any_sh (fun _ => 0%nat) s2 s2).
  { split.
    - apply twin_refl; [|exact (fun _ => I)]. rewrite (so_ifs _ _ _ S2). intros i Hi. now rewrite (so_if _ _ _ S2 i Hi).
    - intros i. rewrite (so_ifs _ _ _ S2). intros Hi. unfold FloatSim.reservable_bw, reservable_bw, FloatSim.reserved_bw, reserved_bw. rewrite (so_if _ _ _ S2 i Hi). simpl.
      destruct (i_rsvp (h_if s i)); [|reflexivity]. destruct (Pos i Hi) as [Q1 Q2].
      assert (R0 : (fl (round1 0) == 0)%Q) by reflexivity. assert (R0' : (round1 0 == 0)%Q) by reflexivity.
      destruct (room_sign _ _ _ Q1 Q2 R0) as [B1 _]. destruct (room_sign _ _ _ Q1 Q2 R0') as [_ B2].
      assert (X : forall x, (0 <= x)%Q -> Qleb 0 x = true) by (intros x; apply Qle_bool_iff). now rewrite !X. }
  apply bind_err in U as [U|(s4 & [] & R4 & U)].
  - destruct (proj2 (both_demands E k) s2 s2 s' e HT U) as (t' & X). exists t'. unfold bind. now rewrite X.
  - destruct (proj1 (both_demands E k) s2 s2 s4 tt HT R4) as (t4 & [] & R4' & HT4 & _). rewrite (bind_run _ _ _ _ _ R4').
    refine (validate_fails E k empty_ok empty_frame empty_same s4 t4 s' e (conj HT4 _) U).
    assert (R24 : rsame E s2 s4).
    { unfold route_demands in R4. rewrite !bind_gets in R4. apply bind_ok in R4 as (s3 & [] & R3 & R4).
      assert (TF : tframe E s3 s4) by (eapply pres_run; [apply tframe_util|exact R4]).
      eapply rsame_trans; [apply (route_demand_loop E k _ _ _ _ R3)|exact (tf_same _ _ _ TF)]. }
    split; [rewrite (rs_lsps _ _ _ R24); apply S2|]. intros i. rewrite (rs_ifs _ _ _ R24), (so_ifs _ _ _ S2). intros Hi.
    destruct (rs_idata _ _ _ R24 i) as (_ & _ & _ & _ & _ & _ & _ & -> & _). now rewrite (so_if _ _ _ S2 i Hi).
Qed.

Lemma free_errors E k s e : env_ok E -> m_lsps s = [] -> well_posed s -> ends_known s -> cids_set k s ->
  (forall i, In i (m_ifs s) -> (0 <= i_cap (h_if s i))%Q /\ (0 <= i_pct (h_if s i))%Q) ->
  ((exists s', update_simulation E k s = (s', Err e)) <-> (exists t', FloatSim.update_simulation fl E k s = (t', Err e))).
Proof.
  intros HE NL WP EK CS Pos. split.
  - intros (s' & U). exact (free_fails E k s s' e HE NL Pos U).
  - intros (t' & T). destruct (update_simulation E k s) as [s' [[]|e']] eqn:U.
    + destruct (FloatMain.free_routes E k s s' HE NL WP EK CS Pos U) as (t & X & _). congruence.
    + destruct (free_fails E k s s' e' HE NL Pos U) as (t & X). exists s'. congruence.
Qed.
