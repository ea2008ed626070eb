(** WhatIfApi.v - what-if comparisons over API calls, and models whose costs are
    scaled. *)
From Verif Require Import Base Graph Objects Sim Api Spec SpecCkt SpecSim SpecMetric SpecFlow SpecOrder SpecFail SpecHist GraphProofs MonadProofs Frames ApiFrames RoundProofs ResProofs ObjProofs CircuitProofs
  ValidateProofs GroupProofs PathProofs QuietProofs RouteProofs LeastProofs IgpProofs Ecmp TrafficProofs ShareProofs SpecSig SigUpdate MetricProofs FlowProofs UtilProofs HistProofs ApiProofs AddProofs QueryProofs FailProofs RepairProofs HeldProofs RepairCalls OrderProofs SpecWhatIf WhatIf WhatIfMore ShortLsp.
From Coq Require Import Lqa Permutation.

(** ** Costs scaled *)
Section Recost.
Variables (c : Z) (s t : st).
Hypothesis Hc : 0 < c.
Hypothesis R : recosted c s t.
Lemma recost_to u p v : route (unreserved s) (usable (unreserved s)) u p v -> route (unreserved t) (usable (unreserved t)) u p v /\ route_cost t p = c * route_cost s p.
Proof.
  induction 1 as [|i p v Hi [Hf Ha] Rt [IH1 IH2]]; [split; [constructor|simpl; lia]|]. simpl in Hi. split.
  - change (loc (unreserved s) i) with (loc s i). rewrite <- (rc_loc _ _ _ R i Hi). change (loc t i) with (loc (unreserved t) i). constructor.
    + simpl. now apply (rc_ifs _ _ _ R).
    + split; [change (i_failed (h_if t i) = false); rewrite (rc_fail _ _ _ R i Hi); exact Hf|]. now apply (rc_open _ _ _ R i Hi).
    + change (rem (unreserved t) i) with (rem t i). rewrite (rc_rem _ _ _ R i Hi). exact IH1.
  - simpl. rewrite IH2, (rc_cost _ _ _ R i Hi). ring.
Qed.
Lemma recost_back u p v : route (unreserved t) (usable (unreserved t)) u p v -> route (unreserved s) (usable (unreserved s)) u p v.
Proof.
  induction 1 as [|i p v Hi [Hf Ha] Rt IH]; [constructor|]. simpl in Hi. apply (rc_ifs _ _ _ R) in Hi. change (loc (unreserved t) i) with (loc t i). rewrite (rc_loc _ _ _ R i Hi).
  change (loc s i) with (loc (unreserved s) i). constructor.
  - exact Hi.
  - split; [change (i_failed (h_if s i) = false); rewrite <- (rc_fail _ _ _ R i Hi); exact Hf|]. now apply (rc_open _ _ _ R i Hi).
  - change (rem (unreserved s) i) with (rem s i). rewrite <- (rc_rem _ _ _ R i Hi). exact IH.
Qed.
Lemma recost_least u p v : least_cost (unreserved s) (usable (unreserved s)) u p v <-> least_cost (unreserved t) (usable (unreserved t)) u p v.
Proof.
  split; intros [R1 L1].
  - destruct (recost_to _ _ _ R1) as [R2 C2]. split; [exact R2|]. intros q Q. apply recost_back in Q. destruct (recost_to _ _ _ Q) as [_ C3]. specialize (L1 q Q). rewrite !un_cost in *. rewrite C2, C3. nia.
  - apply recost_back in R1. destruct (recost_to _ _ _ R1) as [_ C2]. split; [exact R1|]. intros q Q. destruct (recost_to _ _ _ Q) as [R3 C3]. specialize (L1 q R3). rewrite !un_cost in *. rewrite C2, C3 in L1. nia.
Qed.
Lemma recost_results E E' k s' t' : env_ok E -> env_ok E' -> plain k s -> plain k t -> update_simulation E k s = (s', Ok tt) -> update_simulation E' k t = (t', Ok tt) ->
  (forall d, In d (m_dms s) -> same_paths (d_path (h_dm s' d)) (d_path (h_dm t' d))) /\
  (forall i, In i (m_ifs s) -> same_traffic (i_traffic (h_if s' i)) (i_traffic (h_if t' i))).
Proof.
  intros HE HE' P P' U U'.
  assert (LC : forall d, In d (m_dms s) -> forall p, least_cost (unreserved s) (usable (unreserved s)) (dmd_from s d) p (dmd_to s d) <->
             least_cost (unreserved t) (usable (unreserved t)) (dmd_from t d) p (dmd_to t d)).
  { intros d Hd p. destruct (rc_dm _ _ _ R d Hd) as [[-> ->] _]. apply recost_least. }
  assert (Hd' : forall d, In d (m_dms s) -> In d (m_dms t)) by (intros d; now rewrite (rc_dms _ _ _ R)). split.
  - intros d Hd. exact (two_paths E E' k k s t s' t' HE HE' P P' U U' d Hd (Hd' d Hd) (LC d Hd)).
  - intros i Hi. assert (Hi' : In i (m_ifs t)) by (apply (rc_ifs _ _ _ R); exact Hi).
    assert (A := run_traffic E k s s' HE P U i Hi). assert (B := run_traffic E' k t t' HE' P' U' i Hi'). rewrite (rc_fail _ _ _ R i Hi) in B.
    destruct (i_failed (h_if s i)); [rewrite A, B; exact I|]. destruct A as (q & f & -> & A2 & A3), B as (r & g & -> & B2 & B3).
    simpl. rewrite A2, B2, (rc_dms _ _ _ R). rewrite (rc_dms _ _ _ R) in B3. apply sumq_ext. intros d Hd.
    exact (two_adds E E' k s t s' t' d i (f d) (g d) HE HE' P P' (rc_loc _ _ _ R) U U' Hd (Hd' d Hd) (LC d Hd) (proj2 (rc_dm _ _ _ R d Hd)) (A3 d Hd) (B3 d Hd)).
Qed.
End Recost.

(** ** Calls that take things down *)
Lemma down_preorder : preorder only_down.
Proof. constructor; unfold only_down; auto. Qed.
Lemma down_if i f s : (forall r, i_failed r = true -> i_failed (f r) = true) -> only_down s (upd_if i f s).
Proof. intros H x Hx. simpl. apply fupd_cases; intros; subst; auto. Qed.
Lemma down_set i : pres only_down (iface_set_failed i true).
Proof. apply pres_modify. intros s. apply down_if. reflexivity. Qed.
Lemma down_fail_interface a b : pres only_down (fail_interface a b).
Proof. unfold fail_interface. repeat (pres_step down_preorder); apply down_set. Qed.
Lemma down_fail_node a : pres only_down (fail_node a).
Proof. unfold fail_node. repeat (pres_step down_preorder); [apply down_fail_interface|]. apply pres_modify. intros s x Hx. exact Hx. Qed.
Lemma down_validate E k : pres only_down (validate_model E k).
Proof.
  apply pres_validate_model; try apply down_preorder.
  - intros i f s Hf. apply down_if. intros r. rewrite (Hf r). destruct r; auto.
  - intros _ i f s Hf. apply down_if. intros r. rewrite (Hf r). destruct r; auto.
  - intros c s x Hx. exact Hx.
  - intros i f s Hf. apply down_if. intros r. rewrite (Hf r). destruct r; auto.
Qed.
Lemma down_op E k o s : failing_op s o -> pres only_down (run_op E k o).
Proof.
  destruct o; simpl; try tauto; intros _.
  - intros s0. exact (proj2 (update_input E k s0)).
  - apply down_validate.
  - apply down_fail_interface.
  - apply down_fail_node.
  - unfold fail_srlg. repeat (pres_step down_preorder); auto using down_fail_interface, down_fail_node. apply pres_modify. intros s0 x Hx. exact Hx.
  - unfold iface_fail. repeat (pres_step down_preorder); apply down_set.
Qed.
Lemma failing_outage s o : failing_op s o -> outage_op s o.
Proof. destruct o; simpl; tauto. Qed.
Lemma failing_sets s s' o : same_sets s s' -> failing_op s o -> failing_op s' o.
Proof. intros (S & _). destruct o; simpl; auto; now rewrite S. Qed.
Lemma down_history E k l : forall s, (forall o, In o l -> failing_op s o) -> only_down s (run_ops E k l s).
Proof.
  induction l as [|o l IH]; intros s Hl; simpl; [apply down_preorder|].
  refine (po_trans _ down_preorder _ _ _ (down_op E k o s (Hl o (or_introl eq_refl)) s) (IH _ _)). intros o' Ho.
  apply (failing_sets s); [|apply Hl; right; auto]. apply (config_op E k o s (failing_outage _ _ (Hl o (or_introl eq_refl))) s).
Qed.

(** ** Two histories of one model *)
Section Histories.
Variables (E : env) (k : kind) (s : st) (l1 l2 : list op).
Hypothesis HE : env_ok E.
Hypothesis S : sound_net k s.
Hypothesis H1 : forall o, In o l1 -> outage_op s o.
Hypothesis H2 : forall o, In o l2 -> outage_op s o.
Let t1 := run_ops E k l1 s.
Let t2 := run_ops E k l2 s.
Let P1 : plain k t1 := sound_plain _ _ (sound_history E k l1 s HE H1 S).
Let P2 : plain k t2 := sound_plain _ _ (sound_history E k l2 s HE H2 S).
Let C1 : same_config k s t1 := config_history E k l1 s H1.
Let C2 : same_config k s t2 := config_history E k l2 s H2.
Lemma hist_config : same_config k t1 t2.
Proof. exact (po_trans _ (config_preorder k) _ _ _ (config_sym _ _ _ C1) C2). Qed.
Lemma hist_links : same_links t1 t2.
Proof. exact (config_links k t1 t2 hist_config). Qed.
Lemma hist_dms : m_dms t2 = m_dms t1.
Proof. apply (SpecWhatIf.cf_sets _ _ _ hist_config). Qed.
Lemma hist_dm d : same_demand t1 t2 d.
Proof.
  split; [split|]; [exact (cf_from k t1 t2 hist_config d)|exact (cf_to k t1 t2 hist_config d)|apply (SpecWhatIf.cf_dm _ _ _ hist_config d)].
Qed.
Lemma hist_degraded : (forall i, In i (m_ifs s) -> i_failed (h_if t1 i) = true -> i_failed (h_if t2 i) = true) -> degraded t1 t2.
Proof.
  intros D. constructor.
  - exact hist_links.
  - intros i Hi. apply D. now rewrite <- (cf_ifs _ _ _ C1).
  - intros d. now rewrite hist_dms.
  - intros d _. apply hist_dm.
Qed.
Lemma hist_plain : plain k t1 /\ plain k t2.
Proof. split; assumption. Qed.
Lemma hist_succeeds : (exists t', update_simulation E k t1 = (t', Ok tt)) <-> (exists t', update_simulation E k t2 = (t', Ok tt)).
Proof.
  split; [exact (config_succeeds E E k t1 t2 HE HE P1 P2 hist_config)|exact (config_succeeds E E k t2 t1 HE HE P2 P1 (config_sym _ _ _ hist_config))].
Qed.
Lemma hist_same t1' t2' : (forall i, In i (m_ifs s) -> i_failed (h_if t2 i) = i_failed (h_if t1 i)) ->
  update_simulation E k t1 = (t1', Ok tt) -> update_simulation E k t2 = (t2', Ok tt) ->
  (forall d, In d (m_dms s) -> same_paths (d_path (h_dm t1' d)) (d_path (h_dm t2' d))) /\
  (forall i, In i (m_ifs s) -> same_traffic (i_traffic (h_if t1' i)) (i_traffic (h_if t2' i))).
Proof.
  intros F U1 U2. rewrite <- (cf_ifs _ _ _ C1), <- (cf_dms _ _ _ C1).
  apply (WhatIf.same_results E E k t1 t2 t1' t2' HE HE P1 P2 hist_links); auto using hist_dms.
  - intros i Hi. apply F. now rewrite <- (cf_ifs _ _ _ C1).
  - intros d _. apply hist_dm.
Qed.
End Histories.

Section Degraded.
Variables (E E' : env) (k : kind) (s t s' t' : st).
Hypothesis HE : env_ok E.
Hypothesis HE' : env_ok E'.
Hypothesis D : degraded s t.
Hypothesis P : plain k s.
Hypothesis P' : plain k t.
Hypothesis U : update_simulation E k s = (s', Ok tt).
Hypothesis U' : update_simulation E' k t = (t', Ok tt).
Hypothesis M : m_dms t = m_dms s.
Let Hd' d (Hd : In d (m_dms s)) : In d (m_dms t) := proj2 (dg_dms _ _ D d) Hd.

Lemma all_spared i : (forall d, In d (m_dms s) -> spared s' t d) -> In i (m_ifs s) -> i_failed (h_if t i) = false -> same_traffic (i_traffic (h_if s' i)) (i_traffic (h_if t' i)).
Proof.
  intros Sp Hi Hf. assert (Hi' : In i (m_ifs t)) by (apply (sl_ifs _ _ (dg_links _ _ D)); exact Hi).
  assert (Fs : i_failed (h_if s i) = false). { destruct (i_failed (h_if s i)) eqn:X; [|reflexivity]. apply (dg_down _ _ D i Hi) in X. congruence. }
  assert (A := run_traffic E k s s' HE P U i Hi). assert (B := run_traffic E' k t t' HE' P' U' i Hi'). rewrite Hf in B. rewrite Fs in A.
  destruct A as (q & f & -> & A2 & A3), B as (r & g & -> & B2 & B3). simpl. rewrite A2, B2, M. rewrite M in B3. apply sumq_ext. intros d Hd.
  exact (proj2 (down_same s t D E E' k s' t' HE HE' P P' U U' d Hd (Sp d Hd)) i (f d) (g d) (A3 d Hd) (B3 d Hd)).
Qed.
Lemma delivered : (forall d, In d (m_dms s) -> (0 <= d_traffic (h_dm s d))%Q) -> (routed_total t' <= routed_total s')%Q.
Proof.
  intros Pos. unfold routed_total. 
  assert (Ms : m_dms s' = m_dms s) by (assert (C := config_update E k s); rewrite U in C; apply (SpecWhatIf.cf_sets _ _ _ C)).
  assert (Mt : m_dms t' = m_dms t) by (assert (C := config_update E' k t); rewrite U' in C; apply (SpecWhatIf.cf_sets _ _ _ C)).
  assert (Ts : forall d, d_traffic (h_dm s' d) = d_traffic (h_dm s d)) by (intros d; assert (C := config_update E k s); rewrite U in C; apply (SpecWhatIf.cf_dm _ _ _ C)).
  assert (Tt : forall d, d_traffic (h_dm t' d) = d_traffic (h_dm t d)) by (intros d; assert (C := config_update E' k t); rewrite U' in C; apply (SpecWhatIf.cf_dm _ _ _ C)).
  rewrite Mt, M, Ms. apply (sumq_le _ _ (m_dms s)). intros d Hd. unfold routed_traffic. rewrite Ts, Tt, (proj2 (dg_dm _ _ D d Hd)).
  assert (X := down_unrouted s t D E E' k s' t' HE HE' P P' U U' d Hd). destruct (d_path (h_dm s' d)).
  - rewrite X by reflexivity. apply Qle_refl.
  - destruct (d_path (h_dm t' d)); [apply Pos, Hd|apply Qle_refl].
Qed.
End Degraded.

(** ** Failing an unused link, and failing and repairing a link *)
Lemma run_alike E k s s' : env_ok E -> sound_net k s -> update_simulation E k s = (s', Ok tt) -> same_failures s s'.
Proof. intros HE S U i Hi. exact (run_fail E k s s' HE (sound_plain _ _ S) U i Hi). Qed.

Lemma unfail_flags E k s i j b s2 r : env_ok E -> wf_net k s -> ends_agree k s -> In i (m_ifs s) -> sole_other_end s i j -> ends_up s i ->
  ~ in_failed_srlg s (i_srlgs (h_if s i)) -> ~ in_failed_srlg s (i_srlgs (h_if s j)) ->
  unfail_interface E k (i_name (h_if s i)) (loc s i) b s = (s2, r) ->
  forall x, i_failed (h_if s2 x) = if (Nat.eqb x i || Nat.eqb x j)%bool then false else i_failed (h_if s x).
Proof.
  intros HE W A Hi SJ EU NFi NFj H. assert (W' := W). destruct W' as (U & R & CS & L). assert (J := proj1 SJ). assert (Hj := proj1 J).
  destruct (unfail_interface_run _ _ _ _ _ _ _ _ U R H) as [(e & _ & _ & [X|(x & Hx & Kx & X)])|(i' & j' & Hi1 & Ki1 & Gr & J1 & X)].
  { exfalso. apply (X i); auto. }
  { exfalso. assert (x = i) by (apply (NoDup_map_inj (if_key s) (m_ifs s)); auto; apply U). subst x. rewrite (get_remote_unique s i j) in X; [discriminate|auto|auto]. }
  assert (i' = i) by (apply (NoDup_map_inj (if_key s) (m_ifs s)); auto; apply U). subst i'. assert (j' = j) by (apply SJ; apply J1). subst j'.
  destruct X as [NU _ _|_ Fj1 _ _|s3 _ _ Fi1 _ _ _ _|s3 _ _ _ O3 _ _ X3 V]; try tauto.
  assert (S3 : stat k s s3) by (apply only_ifs_stat; auto; intros x; rewrite X3; destruct (_ || _); auto).
  assert (F3 : forall x, i_failed (h_if s3 x) = if (Nat.eqb x i || Nat.eqb x j)%bool then false else i_failed (h_if s x)).
  { intros x. rewrite X3. destruct (_ || _); reflexivity. }
  destruct (linked_pair k s i j L Hi Hj (other_rev k _ _ _ J)) as [Li Lj].
  assert (A3 : ends_agree k s3).
  { intros x y Hx Hy Rx. rewrite !F3. rewrite (stat_ifs _ _ _ S3) in Hx, Hy. apply (stat_rev _ _ _ S3) in Rx.
    destruct (Nat.eqb_spec x i) as [->|X1].
    { rewrite (Li y Hy Rx), Nat.eqb_refl, Bool.orb_true_r. reflexivity. }
    destruct (Nat.eqb_spec x j) as [->|X2].
    { rewrite (Lj y Hy Rx), Nat.eqb_refl. reflexivity. }
    destruct (Nat.eqb_spec y i) as [->|Y1]; [exfalso; apply X2, Li; auto using rev_sym|]. destruct (Nat.eqb_spec y j) as [->|Y2]; [exfalso; apply X1, Lj; auto using rev_sym|].
    simpl. now apply A. }
  assert (W3 := stat_wf _ _ _ S3 W).
  assert (CF := validate_agree E k s3 HE (wf_nodup _ _ W3) (proj1 (proj2 (proj2 W3))) A3). rewrite <- V in CF. cbn [fst] in CF.
  intros x. destruct (CircuitProofs.cf_data _ _ _ CF x) as (_&_&_&_&_&_&->&_). apply F3.
Qed.

Section Link.
Variables (E : env) (k : kind) (s s' : st) (i j : nat).
Hypothesis HE : env_ok E.
Hypothesis S : sound_net k s.
Hypothesis U : update_simulation E k s = (s', Ok tt).
Hypothesis Hi : In i (m_ifs s).
Hypothesis J : sole_other_end s' i j.
Let S' : sound_net k s' := proj1 (sound_update E k s s' _ HE S U).
Let C' : same_config k s s' := proj2 (sound_update E k s s' _ HE S U).
Let Mi : m_ifs s' = m_ifs s := cf_ifs _ _ _ C'.

Lemma link_fail : exists s1 t1, fail_interface (i_name (h_if s' i)) (loc s' i) s' = (s1, Ok tt) /\ update_simulation E k s1 = (t1, Ok tt) /\ sound_net k s1 /\
  same_config k s s1 /\ (forall n, h_nd s1 n = h_nd s n) /\ (forall g, h_sr s1 g = h_sr s g) /\
  forall x, In x (m_ifs s) -> i_failed (h_if s1 x) = if (Nat.eqb x i || Nat.eqb x j)%bool then true else i_failed (h_if s x).
Proof.
  destruct S' as (_ & _ & (K & R & _) & _). assert (Hi' : In i (m_ifs s')) by now rewrite Mi.
  destruct (fail_interface_total s' i j K R Hi' J) as [s1 H1]. exists s1.
  assert (O : forall o, In o [OpUpdate; OpFailIf (i_name (h_if s' i)) (loc s' i)] -> outage_op s o) by (intros o [<-|[<-|[]]]; exact I).
  assert (R1 : run_ops E k [OpUpdate; OpFailIf (i_name (h_if s' i)) (loc s' i)] s = s1).
  { cbn [run_ops run_op]. rewrite U. cbn [fst]. now rewrite H1. }
  assert (N : forall o, In o (@nil op) -> outage_op s o) by (intros o []).
  destruct (proj1 (hist_succeeds E k s [] _ HE S N O) (ex_intro _ s' U)) as [t1 U1]. rewrite R1 in U1. exists t1. split; [exact H1|]. split; [exact U1|].
  assert (S1 := sound_history E k _ s HE O S). rewrite R1 in S1. split; [exact S1|].
  assert (C1 := config_history E k _ s O). rewrite R1 in C1. split; [exact C1|].
  destruct (fail_interface_exact _ _ _ _ _ H1) as [(e & X & _)|(_ & i' & j' & Hi1 & Ki & J' & Oi & D & Else)]; [discriminate|].
  assert (i' = i) by (apply (NoDup_map_inj (if_key s') (m_ifs s')); auto; apply K). subst i'. assert (j' = j) by (apply J; apply J'). subst j'.
  assert (In1 := proj1 (update_input E k s)). rewrite U in In1. simpl in In1. destruct In1 as (_ & Nn & Ss & _). destruct Oi as (_ & Hn & Hs & _).
  split; [|split].
  - intros n. now rewrite Hn.
  - intros g. now rewrite Hs.
  - intros x Hx. destruct (Nat.eqb_spec x i) as [->|X1]; [apply D; auto|]. destruct (Nat.eqb_spec x j) as [->|X2]; [apply D; auto|].
    simpl. rewrite Else by auto. exact (run_alike E k s s' HE S U x Hx).
Qed.

(** a link that no path uses *)
Lemma unused_link : (forall d ps p, In d (m_dms s) -> d_path (h_dm s' d) = DPaths ps -> In p ps -> ~ In (IIf i) p /\ ~ In (IIf j) p) ->
  exists s1 t1, fail_interface (i_name (h_if s' i)) (loc s' i) s' = (s1, Ok tt) /\ update_simulation E k s1 = (t1, Ok tt) /\
    (forall d, In d (m_dms s) -> same_paths (d_path (h_dm s' d)) (d_path (h_dm t1 d))) /\
    (forall x, In x (m_ifs s) -> if (Nat.eqb x i || Nat.eqb x j)%bool then i_traffic (h_if t1 x) = TDown else same_traffic (i_traffic (h_if s' x)) (i_traffic (h_if t1 x))).
Proof.
  intros Un. destruct link_fail as (s1 & t1 & H1 & U1 & S1 & C1 & _ & _ & F). exists s1, t1. split; [exact H1|]. split; [exact U1|].
  assert (P := sound_plain _ _ S). assert (P1 := sound_plain _ _ S1).
  assert (D : degraded s s1).
  { constructor.
    - exact (config_links k s s1 C1).
    - intros x Hx X. rewrite (F x Hx), X. now destruct (_ || _).
    - intros d. now rewrite (cf_dms _ _ _ C1).
    - intros d _. exact (cf_demand k s s1 C1 d). }
  assert (Sp : forall d, In d (m_dms s) -> spared s' s1 d).
  { intros d Hd ps p x Hps Hp Hx. destruct (Un d ps p Hd Hps Hp) as [N1 N2].
    destruct (run_routes E k s s' HE P U d Hd) as [[A _]|(L & o & es & A & _ & _ & B & _)]; [congruence|]. assert (ps = map if_path L) by congruence. subst ps.
    apply in_map_iff in Hp as (q & <- & Hq). unfold if_path in Hx. apply in_map_iff in Hx as (y & Hy & Hx). injection Hy as ->.
    apply B in Hq as [Rt _]. destruct (route_all _ _ _ _ _ x Rt Hx) as [Hi0 [Hf _]]. simpl in Hi0. change (i_failed (h_if s x) = false) in Hf.
    rewrite (F x Hi0), Hf. destruct (Nat.eqb_spec x i) as [->|]; [exfalso; apply N1; unfold if_path; apply in_map_iff; eauto|].
    destruct (Nat.eqb_spec x j) as [->|]; [exfalso; apply N2; unfold if_path; apply in_map_iff; eauto|]. reflexivity. }
  split.
  - intros d Hd. exact (proj1 (down_same s s1 D E E k s' t1 HE HE P P1 U U1 d Hd (Sp d Hd))).
  - intros x Hx. assert (Fx := F x Hx). destruct (i_failed (h_if s1 x)) eqn:Fs1.
    + assert (B := run_traffic E k s1 t1 HE P1 U1 x). rewrite (cf_ifs _ _ _ C1), Fs1 in B. specialize (B Hx). destruct (_ || _); [exact B|].
      assert (A := run_traffic E k s s' HE P U x Hx). rewrite <- Fx in A. rewrite A, B. exact I.
    + destruct (_ || _); [discriminate|]. exact (all_spared E E k s s1 s' t1 HE HE D P P1 U U1 (cf_dms _ _ _ C1) x Sp Hx Fs1).
Qed.

(** a link that fails and is repaired *)
Lemma repaired_link : i_failed (h_if s i) = false -> exists s1 t1, fail_interface (i_name (h_if s' i)) (loc s' i) s' = (s1, Ok tt) /\ update_simulation E k s1 = (t1, Ok tt) /\
  (sole_other_end t1 i j -> forall b s2 r, unfail_interface E k (i_name (h_if t1 i)) (loc t1 i) b t1 = (s2, r) ->
   exists t2, update_simulation E k s2 = (t2, Ok tt) /\
     (forall d, In d (m_dms s) -> same_paths (d_path (h_dm s' d)) (d_path (h_dm t2 d))) /\
     (forall x, In x (m_ifs s) -> same_traffic (i_traffic (h_if s' x)) (i_traffic (h_if t2 x)))).
Proof.
  intros Up. destruct link_fail as (s1 & t1 & H1 & U1 & S1 & C1 & Hn & Hs & F). exists s1, t1. split; [exact H1|]. split; [exact U1|].
  intros J1 b s2 r H2. destruct (sound_update E k s1 t1 _ HE S1 U1) as [T1 CT]. assert (C2 := po_trans _ (config_preorder k) _ _ _ C1 CT).
  set (l := [OpUpdate; OpFailIf (i_name (h_if s' i)) (loc s' i); OpUpdate; OpUnfailIf (i_name (h_if t1 i)) (loc t1 i) b]).
  assert (O : forall o, In o l -> outage_op s o) by (intros o [<-|[<-|[<-|[<-|[]]]]]; exact I).
  assert (Rl : run_ops E k l s = s2).
  { unfold l. cbn [run_ops run_op]. rewrite U. cbn [fst]. rewrite H1. cbn [fst]. rewrite U1. cbn [fst]. now rewrite H2. }
  assert (N : forall o, In o (@nil op) -> outage_op s o) by (intros o []).
  destruct (proj1 (hist_succeeds E k s [] l HE S N O) (ex_intro _ s' U)) as [t2 U2]. rewrite Rl in U2. exists t2. split; [exact U2|].
  assert (In1 := proj1 (update_input E k s1)). rewrite U1 in In1. simpl in In1. destruct In1 as (_ & Nn & Ss & _).
  assert (Hj : In j (m_ifs s)) by (rewrite <- Mi; apply J).
  assert (Up' : ends_up s i /\ i_failed (h_if s j) = false /\ ~ in_failed_srlg s (i_srlgs (h_if s i)) /\ ~ in_failed_srlg s (i_srlgs (h_if s j))).
  { assert (S0 := S). destruct S0 as (_ & _ & _ & (SS & _) & (CU & EA)). assert (Rv : is_reverse k s i j).
    { assert (J0 := J). destruct J0 as [(_ & L1 & R1 & Cc) _]. rewrite !(cf_loc _ _ _ C'), !(cf_rem _ _ _ C') in *. split; [auto|]. split; [auto|]. destruct (kind_dec k) as [Hk|Hk]; [right|left; exact Hk].
      destruct (SpecWhatIf.cf_if _ _ _ C' i) as [_ X1], (SpecWhatIf.cf_if _ _ _ C' j) as [_ X2]. rewrite X1, X2 in Cc by exact Hk. congruence. }
    assert (Fj : i_failed (h_if s j) = false) by (rewrite <- (EA i j); auto).
    split; [now apply CU|]. split; [exact Fj|]. split; intros X; apply SS in X; congruence. }
  destruct Up' as (EU & Fj & NFi & NFj).
  assert (Da : forall x, same_if_data (h_if s x) (h_if t1 x)) by (intros x; apply (SpecWhatIf.cf_if _ _ _ C2 x)).
  assert (Sg : forall x, in_failed_srlg t1 (i_srlgs (h_if t1 x)) -> in_failed_srlg s (i_srlgs (h_if s x))).
  { intros x (g & G1 & G2). exists g. destruct (Da x) as (_&_&_&_&_&E1&_). rewrite E1 in G1. split; [exact G1|]. now rewrite Ss, Hs in G2. }
  assert (Fl : forall x, In x (m_ifs s) -> i_failed (h_if s2 x) = i_failed (h_if s x)).
  { intros x Hx. destruct T1 as (_ & _ & W1 & _ & (_ & A1)).
    assert (Hi1 : In i (m_ifs t1)) by now rewrite (cf_ifs _ _ _ C2).
    assert (EU1 : ends_up t1 i) by (unfold ends_up in *; destruct (Da i) as (_&_&_&->&->&_); now rewrite !Nn, !Hn).
    assert (N1 : ~ in_failed_srlg t1 (i_srlgs (h_if t1 i))) by (intros X; apply NFi, Sg, X).
    assert (N2 : ~ in_failed_srlg t1 (i_srlgs (h_if t1 j))) by (intros X; apply NFj, Sg, X).
    rewrite (unfail_flags E k t1 i j b s2 r HE W1 A1 Hi1 J1 EU1 N1 N2 H2 x).
    destruct (Nat.eqb_spec x i) as [->|X1]; [auto|]. destruct (Nat.eqb_spec x j) as [->|X2]; [auto|]. simpl.
    rewrite (run_alike E k s1 t1 HE S1 U1 x) by now rewrite (cf_ifs _ _ _ C1). rewrite (F x Hx). destruct (Nat.eqb_spec x i); [congruence|]. destruct (Nat.eqb_spec x j); [congruence|]. reflexivity. }
  assert (X := hist_same E k s [] l HE S N O s' t2). rewrite Rl in X. apply X; auto.
Qed.
End Link.

(** ** add_demand *)
Lemma add_demand_extends E k src dst x name s t : env_ok E -> allocated s -> plain k s -> add_demand E k src dst x name s = (t, Ok tt) ->
  exists d, ~ In d (m_dms s) /\ extended s t [d] /\ (0 <= x)%Q /\ dmd_from t d = src /\ dmd_to t d = dst /\ d_traffic (h_dm t d) = x /\ (well_posed t -> plain k t).
Proof.
  intros HE Al (NL & WP & EK & CS & EA & KU) H. assert (X := add_demand_exact E k src dst x name s t (Ok tt) Al H). cbv zeta in X.
  destruct X as [(e & Y & _)|(_ & _ & Hx & _ & d & a & b & Nd & Md & Ha & Na & Hb & Nb & Hd & Hold)]; [discriminate|]. exists d. split; [exact Nd|].
  apply add_demand_run in H as [(e & Y & _)|[(_ & Y & _)|(a' & b' & _ & _ & _ & [(_ & Y & _)|(_ & V)])]]; try discriminate.
  set (s1 := set_dms _ _) in V. assert (CF := validate_agree E k s1 HE (proj1 WP) CS EA). rewrite V in CF. cbn [fst] in CF.
  assert (Mi : m_ifs t = m_ifs s) by exact (CircuitProofs.cf_ifs _ _ _ CF). assert (Mn : m_nds t = m_nds s) by exact (CircuitProofs.cf_nds _ _ _ CF).
  assert (Hn : h_nd t = h_nd s) by exact (CircuitProofs.cf_nd _ _ _ CF).
  assert (Da : forall i, i_name (h_if t i) = i_name (h_if s i) /\ i_cost (h_if t i) = i_cost (h_if s i) /\
    i_cap (h_if t i) = i_cap (h_if s i) /\ i_node (h_if t i) = i_node (h_if s i) /\ i_rem (h_if t i) = i_rem (h_if s i) /\
    i_traffic (h_if t i) = i_traffic (h_if s i) /\ i_failed (h_if t i) = i_failed (h_if s i) /\
    i_res (h_if t i) = i_res (h_if s i) /\ i_srlgs (h_if t i) = i_srlgs (h_if s i) /\
    i_rsvp (h_if t i) = i_rsvp (h_if s i) /\ i_pct (h_if t i) = i_pct (h_if s i)) by exact (CircuitProofs.cf_data _ _ _ CF).
  assert (Lo : forall i, loc t i = loc s i) by (intros i; unfold loc; rewrite Hn; destruct (Da i) as (_&_&_&->&_); reflexivity).
  assert (Re : forall i, rem t i = rem s i) by (intros i; unfold rem; rewrite Hn; destruct (Da i) as (_&_&_&_&->&_); reflexivity).
  split; [|split; [exact Hx|split; [|split; [|split]]]].
  - constructor.
    + constructor; auto.
      * intros i. now rewrite Mi.
      * intros i _. apply Da.
      * intros i _. unfold available, reservable, reserved. simpl. destruct (Da i) as (_&_&->&_&_&_&_&_&_&->&->). reflexivity.
    + intros i _. apply Da.
    + exact Md.
    + intros d' Hd'. specialize (Hold d' Hd'). unfold same_demand, same_ends, dmd_from, dmd_to. rewrite Hn, Hold. auto.
  - unfold dmd_from. rewrite Hd, Hn. exact Na.
  - unfold dmd_to. rewrite Hd, Hn. exact Nb.
  - now rewrite Hd.
  - intros WP'. split; [exact (eq_trans (CircuitProofs.cf_lsps _ _ _ CF) NL)|]. split; [exact WP'|]. split; [|split; [|split]].
    + intros i. rewrite Mi, Lo, Re, Mn. intros Hi. rewrite (map_ext (nd_name t) (nd_name s)) by (intros n; unfold nd_name; now rewrite Hn). now apply EK.
    + intros Hk i. rewrite Mi. intros Hi. destruct (CircuitProofs.cf_if _ _ _ CF i) as (bb & c & -> & Hc). simpl. rewrite (Hc Hk). now apply CS.
    + intros i j. rewrite Mi. intros Hi Hj Rv. destruct (Da i) as (_&_&_&_&_&_&->&_), (Da j) as (_&_&_&_&_&_&->&_). apply EA; auto.
      destruct Rv as (R1 & R2 & R3). rewrite !Lo, !Re in *. split; [auto|]. split; [auto|]. destruct (kind_dec k) as [Hk|Hk]; [right|left; exact Hk].
      destruct (CircuitProofs.cf_if _ _ _ CF i) as (b1 & c1 & E1 & Hc1), (CircuitProofs.cf_if _ _ _ CF j) as (b2 & c2 & E2 & Hc2). rewrite E1, E2 in R3. simpl in R3. destruct R3 as [R3|R3]; [congruence|]. now rewrite (Hc1 Hk), (Hc2 Hk) in R3.
    + unfold if_keys_unique in *. rewrite Mi. rewrite (map_ext (if_key t) (if_key s)); [exact KU|]. intros i. unfold if_key. rewrite Lo. destruct (Da i) as (->&_). reflexivity.
Qed.
