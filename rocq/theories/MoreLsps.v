(** MoreLsps.v - two models with room for all LSPs: more failures (C91), added
    demands and LSPs (C92). *)
From Verif Require Import Base Graph Objects Sim Api Spec SpecCkt SpecSim SpecMetric SpecFlow SpecOrder SpecShort SpecTotal SpecWhatIf SpecSame SpecHist SpecFail SpecMore GraphProofs MonadProofs RoundProofs ResProofs ObjProofs CircuitProofs
  ValidateProofs GroupProofs PathProofs QuietProofs RouteProofs LeastProofs OrderProofs DemandProofs MetricProofs IgpProofs Ecmp TrafficProofs ShareProofs FlowProofs UtilProofs RepairProofs WhatIf OwnProofs OwnApi SpecSig SigProofs SigSeq SigEnd LspTotal SigTotal LspSucceeds LspExact
  OrderLsps PropertiesApi PropertiesRoute PropertiesTraffic PropertiesSignal.
From Coq Require Import Permutation Lqa.

Lemma room_with k s : usual_room k s -> shortcuts_off s -> with_room k s.
Proof. intros [A B C D F G] O. constructor; assumption. Qed.
Lemma room_usual k s : with_room k s -> usual_room k s.
Proof. intros [A B C D F G _]. constructor; assumption. Qed.
Coercion room_usual : with_room >-> usual_room.

Lemma omm_read a b : (forall e, omm a <> Err e) -> snd (mstep (mstate_of b) MRead) = snd (mstep (mstate_of a) MRead) -> omm b = omm a.
Proof.
  unfold omm, mstate_of. intros H. destruct (l_imm a) as [x|], (l_imm b) as [y|];
  repeat match goal with |- context [Z.eqb ?z 0] => destruct (Z.eqb z 0) end; simpl;
  repeat match goal with |- context [Z.ltb 0 ?z] => destruct (Z.ltb 0 z) end; simpl; intros X; try congruence.
  all: try (injection X as ->; reflexivity). all: destruct (H _ eq_refl).
Qed.
Lemma usual_omm k s l : lsps_usual k s -> In l (m_lsps s) -> forall e, omm (h_ls s l) <> Err e.
Proof.
  intros LU Hl e. assert (X := lu_metric _ _ LU l). unfold mstate_of, omm in *. destruct (l_imm (h_ls s l)) as [z|]; [|discriminate].
  destruct (Z.eqb z 0); [discriminate|]. assert (Y := X z Hl eq_refl). destruct (Z.ltb_spec 0 z); [discriminate|lia].
Qed.
Lemma least_unique s P u v p q : least_cost s P u p v -> least_cost s P u q v -> route_cost s p = route_cost s q.
Proof. intros [A B] [C D]. apply Z.le_antisymm; auto. Qed.
Lemma metric_unique s l a b : metric s l a -> metric s l b -> a = b.
Proof.
  unfold metric. destruct (mstate_of (h_ls s l)) as [c|[c|]]; [congruence|congruence|]. destruct a as [a|], b as [b|]; auto.
  - intros (p & A & ->) (q & B & ->). f_equal. eapply least_unique; eauto.
  - intros (p & A & ->) N. destruct (N p). apply A.
  - intros N (p & A & ->). destruct (N p). apply A.
Qed.
Lemma metric_trans a b c : metric_le a b -> metric_le b c -> metric_le a c.
Proof. destruct a, b, c; simpl; try tauto. lia. Qed.

Lemma in_crossings s i p : In i p -> (0 < crossings s i (if_path p))%nat.
Proof.
  unfold crossings, if_path. induction p as [|j p IH]; simpl; [tauto|]. intros [->|H]; [rewrite Nat.eqb_refl; lia|]. assert (X := IH H). lia.
Qed.
Lemma crossings_lsp s i l p c b : l_path (h_ls s l) = PRouted p c b -> crossings s i [ILsp l] = count_occ Nat.eq_dec p i.
Proof. intros P. unfold crossings, item_crossings. simpl. rewrite P. lia. Qed.
Lemma routed_has_metric E k : env_ok E -> forall s s', well_posed s -> ends_known s -> cids_set k s -> lsps_usual k s -> ample s -> ends_agree k s -> update_simulation E k s = (s', Ok tt) ->
  forall l, In l (m_lsps s) -> routed_lsp s' l -> exists m, metric s' l m.
Proof.
  intros HE s s' WP EK CS LU Am EA Up l Hl (p & c & b & P). assert (Ne := fin_metric_ok E k s s' LU Up l Hl).
  destruct (placed E k HE s s' WP LU EK Up l Am Hl) as [(q & b1 & r & Q & B & X & Y)|(Q & _)]; [|congruence].
  destruct (omm (h_ls s' l)) as [[z|]|e] eqn:O; [| |destruct (Ne e eq_refl)].
  - exists (Some z). apply metric_omm; rewrite O; congruence.
  - exists (Some (route_cost s' q)). apply metric_omm; rewrite O; [congruence|]. exists q. split; [|reflexivity]. destruct (fin_ls E k s s' Up l) as [-> ->].
    apply (like_least _ _ _ _ _ _ _ (fin_like E k HE s s' WP EK CS LU Am EA Up)). apply B.
Qed.

(** ** One demand in two simulations *)
Section Pair.
Variables (E E' : env) (k : kind).
Hypothesis HE : env_ok E.
Hypothesis HE' : env_ok E'.
Variables s t s' t' : st.
Hypothesis Rs : with_room k s.
Hypothesis Rt : with_room k t.
Hypothesis Up : update_simulation E k s = (s', Ok tt).
Hypothesis Up' : update_simulation E' k t = (t', Ok tt).
Let WP := rm_posed _ _ Rs. Let EK := rm_known _ _ Rs. Let CS := rm_cids _ _ Rs. Let LU := rm_usual _ _ Rs. Let Am := rm_ample _ _ Rs. Let EA := rm_agree _ _ Rs. Let Off := rm_off _ _ Rs.
Let WPt := rm_posed _ _ Rt. Let EKt := rm_known _ _ Rt. Let CSt := rm_cids _ _ Rt. Let LUt := rm_usual _ _ Rt. Let Amt := rm_ample _ _ Rt. Let EAt := rm_agree _ _ Rt. Let Offt := rm_off _ _ Rt.
Let Fs := fin_fail E k HE s s' WP CS EA Up.
Let Ft := fin_fail E' k HE' t t' WPt CSt EAt Up'.
Let KUs : if_keys_unique s := lu_ifs _ _ LU.
Let KUt : if_keys_unique t := lu_ifs _ _ LUt.
Let Ls := fin_like E k HE s s' WP EK CS LU Am EA Up.
Let Lt := fin_like E' k HE' t t' WPt EKt CSt LUt Amt EAt Up'.

Section Demand.
Variable d : nat.
Hypothesis Hd : In d (m_dms s).
Hypothesis Hd' : In d (m_dms t).
Hypothesis De : same_demand s t d.
Hypothesis Lo : forall i, In i (m_ifs s) -> loc t i = loc s i.
Hypothesis PF : forall l, preferred s' d l <-> preferred t' d l.
Hypothesis LC : no_lsp_for s' d -> forall p, least_cost s (rsvp_up s) (dmd_from s d) p (dmd_to s d) <-> least_cost t (rsvp_up t) (dmd_from t d) p (dmd_to t d).

Lemma pair_end : dmd_from t' d = dmd_from s' d /\ dmd_to t' d = dmd_to s' d /\ d_traffic (h_dm t' d) = d_traffic (h_dm s' d).
Proof. destruct (fin_dm E k s s' Up d) as (->&->&->), (fin_dm E' k t t' Up' d) as (->&->&->). destruct De as ((->&->)&->). auto. Qed.
Lemma rides_pref F a b : env_ok F -> well_posed a -> NoDup (m_lsps a) -> update_simulation F k a = (b, Ok tt) -> same_failures a b -> In d (m_dms a) ->
  (exists l, lsp_of b d l /\ routed_lsp b l) -> exists l, preferred b d l.
Proof.
  intros HF Wa Na Ua Fa Ha H. destruct (C07_ride F k a b d HF Wa Na Ua Fa Ha H) as (ls & es & Ne & _ & X & _). destruct ls as [|l ls]; [contradiction|]. exists l. apply X. left; auto.
Qed.
Lemma pref_rides a : (exists l, preferred a d l) -> exists l, lsp_of a d l /\ routed_lsp a l.
Proof. intros (l & A & B & _). eauto. Qed.
Lemma pair_case : ((exists l, lsp_of s' d l /\ routed_lsp s' l) /\ exists l, lsp_of t' d l /\ routed_lsp t' l) \/ (no_lsp_for s' d /\ no_lsp_for t' d).
Proof.
  destruct (routed_or E k HE s s' WP EK LU Am Up d) as [H|N], (routed_or E' k HE' t t' WPt EKt LUt Amt Up' d) as [H'|N']; auto.
  - destruct (rides_pref E s s' HE WP (lu_once _ _ LU) Up Fs Hd H) as (l & Hl). apply PF in Hl. left. split; [exact H|]. apply pref_rides. eauto.
  - destruct (rides_pref E' t t' HE' WPt (lu_once _ _ LUt) Up' Ft Hd' H') as (l & Hl). apply PF in Hl. left. split; [|exact H']. apply pref_rides. eauto.
Qed.
Lemma pair_least : no_lsp_for s' d -> forall p, least_cost s' (usable s') (dmd_from s' d) p (dmd_to s' d) <-> least_cost t' (usable t') (dmd_from s' d) p (dmd_to s' d).
Proof.
  intros N p. destruct pair_end as (<- & <- & _). rewrite <- (like_least _ _ _ _ _ _ _ Lt). destruct (fin_dm E' k t t' Up' d) as (->&->&_). rewrite <- (LC N).
  destruct De as ((->&->)&_). symmetry. apply like_least. exact Ls.
Qed.
Lemma pair_paths : same_paths (d_path (h_dm s' d)) (d_path (h_dm t' d)).
Proof.
  destruct pair_case as [[H H']|[N N']].
  - destruct (C07_ride E k s s' d HE WP (lu_once _ _ LU) Up Fs Hd H) as (ls & es & _ & _ & X & -> & _).
    destruct (C07_ride E' k t t' d HE' WPt (lu_once _ _ LUt) Up' Ft Hd' H') as (ls' & es' & _ & _ & X' & -> & _).
    simpl. intros q. rewrite !in_map_iff. split; intros (l & <- & Hl); exists l; (split; [reflexivity|]).
    + apply X', PF, X, Hl.
    + apply X, PF, X', Hl.
  - assert (A := C01_igp_paths E k s s' d HE WP Up Fs Hd N (off_s E k s s' Up Off d)). assert (B := C01_igp_paths E' k t t' d HE' WPt Up' Ft Hd' N' (off_s E' k t t' Up' Offt d)).
    assert (L := pair_least N). destruct pair_end as (D1 & D2 & _). rewrite D1, D2 in B.
    destruct (d_path (h_dm s' d)) as [|ps], (d_path (h_dm t' d)) as [|qs]; simpl; auto.
    + destruct B as (M & _ & Ne & _ & I). destruct M as [|p M]; [contradiction|]. apply (A p). apply L. apply I. left; auto.
    + destruct A as (M & _ & Ne & _ & I). destruct M as [|p M]; [contradiction|]. apply (B p). apply L. apply I. left; auto.
    + destruct A as (M & -> & _ & _ & I), B as (M' & -> & _ & _ & I'). intros q. rewrite !in_map_iff. split; intros (p & <- & Hp); exists p; (split; [reflexivity|]).
      * apply I', L, I, Hp.
      * apply I, L, I', Hp.
Qed.
Lemma pair_igp i ps qs fs gs : no_lsp_for s' d -> no_lsp_for t' d -> d_path (h_dm s' d) = DPaths ps -> d_path (h_dm t' d) = DPaths qs ->
  d_detail (h_dm s' d) = PDInfo fs -> d_detail (h_dm t' d) = PDInfo gs -> (carried s' i fs == carried t' i gs)%Q.
Proof.
  intros A1 B1 P Q F G. assert (A2 := off_s E k s s' Up Off d). assert (B2 := off_s E' k t t' Up' Offt d).
  destruct (igp_shares E k HE s s' WP Up Fs KUs d ps Hd A1 A2 P) as (L & e1 & o1 & -> & _ & N1 & I1 & _ & D1 & O1 & X1 & S1 & _).
  destruct (igp_shares E' k HE' t t' WPt Up' Ft KUt d qs Hd' B1 B2 Q) as (M & e2 & o2 & -> & _ & N2 & I2 & _ & D2 & O2 & X2 & S2 & _).
  assert (e1 = fs) by congruence. assert (e2 = gs) by congruence. subst e1 e2.
  assert (Al := pair_least A1). destruct pair_end as (Fr & To & T).
  assert (LM : forall p, In p L <-> In p M). { intros p. rewrite I1, I2, Fr, To. apply Al. }
  assert (Lc : forall p j, In p L -> In j p -> loc t' j = loc s' j).
  { intros p j Hp Hj. apply I1 in Hp as [Rr _]. destruct (route_all _ _ _ _ _ j Rr Hj) as [Hi _]. rewrite (proj1 (fin_sets E k s s' Up)) in Hi.
    destruct (fin_loc E k s s' Up j) as [-> _], (fin_loc E' k t t' Up' j) as [-> _]. now apply Lo. }
  assert (OO : forall n, List.length (o1 n) = List.length (o2 n)).
  { intros n. apply same_count; auto. intros j. rewrite X1, X2. split; intros [H (p & Hp & Hj)].
    - split; [rewrite <- H; eapply Lc; eauto|]. exists p. split; [now apply LM|auto].
    - apply LM in Hp. split; [rewrite <- H; symmetry; eapply Lc; eauto|]. exists p. auto. }
  rewrite (carried_shares k s' _ _ _ _ i S1), (carried_shares k t' _ _ _ _ i S2), T.
  rewrite (sumq_perm _ _ _ (NoDup_Permutation N1 N2 LM)). apply sumq_ext. intros p Hp. apply LM in Hp. rewrite (crossings_if s' t').
  rewrite (same_w (loc s') (loc t') o1 o2 p); [reflexivity| |auto]. intros j Hj. symmetry. eapply Lc; eauto.
Qed.
Hypothesis CR : forall l i, preferred s' d l -> crossings s' i [ILsp l] = crossings t' i [ILsp l].
Lemma pair_adds i x y : adds k s' d i x -> adds k t' d i y -> (x == y)%Q.
Proof.
  intros A B. destruct pair_case as [[H H']|[N N']].
  - destruct (adds_ride k E s s' d i x HE WP (lu_once _ _ LU) Up Fs Hd H A) as (ls & N1 & I1 & ->).
    destruct (adds_ride k E' t t' d i y HE' WPt (lu_once _ _ LUt) Up' Ft Hd' H' B) as (ls' & N2 & I2 & ->).
    assert (LM : forall l, In l ls <-> In l ls') by (intros l; rewrite I1, I2; apply PF).
    assert (PM := NoDup_Permutation N1 N2 LM). unfold ridden. destruct pair_end as (_ & _ & ->). unfold count. rewrite (Permutation_length PM).
    rewrite (Qsum_perm _ _ (Permutation_map _ PM)).
    change (sumq (fun l => d_traffic (h_dm s' d) / inject_Z (Z.of_nat (List.length ls')) * inject_Z (Z.of_nat (crossings s' i [ILsp l])))%Q ls' ==
            sumq (fun l => d_traffic (h_dm s' d) / inject_Z (Z.of_nat (List.length ls')) * inject_Z (Z.of_nat (crossings t' i [ILsp l])))%Q ls')%Q.
    apply sumq_ext. intros l Hl. rewrite (CR l i); [reflexivity|]. now apply I1, LM.
  - assert (A' := adds_igp k E s s' d i x HE WP KUs Up Fs Hd N (off_s E k s s' Up Off d) A). assert (B' := adds_igp k E' t t' d i y HE' WPt KUt Up' Ft Hd' N' (off_s E' k t t' Up' Offt d) B).
    assert (SP := pair_paths). destruct (d_path (h_dm s' d)) as [|ps] eqn:P, (d_path (h_dm t' d)) as [|qs] eqn:Q; try contradiction.
    + now rewrite A', B'.
    + destruct A' as (fs & F & X), B' as (gs & G & Y). assert (C := pair_igp i ps qs fs gs N N' P Q F G). clear -C X Y. destruct k.
      * now rewrite X, Y.
      * apply rounds_unique in X. apply (rounds_compat _ _ _ _ _ (Qeq_sym _ _ C) (Qeq_refl _)) in Y. apply rounds_unique in Y. now rewrite X, Y.
Qed.
End Demand.

Lemma pair_sum i : In i (m_ifs s) ->
  if i_failed (h_if s i) then i_traffic (h_if s' i) = TDown
  else exists q f, i_traffic (h_if s' i) = TNum q /\ (forall d, In d (m_dms s) -> adds k s' d i (f d)) /\ (q == sumq f (m_dms s))%Q.
Proof.
  intros Hi. assert (A := adds_sum k E s s' i HE WP KUs (lu_once _ _ LU) Up Fs (off_s E k s s' Up Off) Hi). rewrite (Fs i Hi) in A.
  destruct (fin_sets E k s s' Up) as (_&_&<-&_). exact A.
Qed.
(** a demand is unrouted exactly when there is no way over RSVP interfaces that are up *)
Lemma pair_unrouted d : In d (m_dms s) -> (d_path (h_dm s' d) = DUnrouted <-> forall p, ~ route s (rsvp_up s) (dmd_from s d) p (dmd_to s d)).
Proof.
  intros Hd. destruct (fin_dm E k s s' Up d) as (D1&D2&_). destruct (routed_or E k HE s s' WP EK LU Am Up d) as [H|N].
  - destruct (C07_ride E k s s' d HE WP (lu_once _ _ LU) Up Fs Hd H) as (ls & es & _ & _ & X & -> & _). split; [discriminate|]. intros NR. exfalso.
    destruct H as (l & Hl & Rl). assert (Il := in_lsp E k s s' Up d l Hl). apply (fin_routed E k HE s s' WP EK LU Am Up l Il) in Rl as (p & Rp). apply (NR p).
    destruct Hl as (_ & F & T), (fin_ls E k s s' Up l) as [F1 T1]. unfold road in Rp. rewrite <- F1, <- T1, F, T, D1, D2 in Rp. exact Rp.
  - assert (A := C01_igp_paths E k s s' d HE WP Up Fs Hd N (off_s E k s s' Up Off d)). rewrite D1, D2 in A. destruct (d_path (h_dm s' d)) as [|ps].
    + split; [|reflexivity]. intros _ p Rp. assert (X := like_route _ _ _ _ _ _ _ Ls Rp).
      assert (W : well_posed s) by exact WP. destruct W as (ND & Co & _).
      destruct (route_least_ex Flex s (fun i => negb (i_failed (h_if s i)) && i_rsvp (h_if s i)) [] ND Co (fun H => ltac:(discriminate H)) _ _ _
        (route_weaken s (rsvp_up s) (fun i => (fun i => negb (i_failed (h_if s i)) && i_rsvp (h_if s i)) i = true) _ p _ (fun i _ H => ltac:(destruct H as [-> ->]; reflexivity)) Rp)) as (q & Lq & Mq).
      apply (A q). apply (like_least _ _ _ _ _ _ _ Ls). split.
      * revert Lq. apply route_weaken. intros i _ H. apply andb_prop in H as [H1 H2]. split; [now destruct (i_failed (h_if s i))|exact H2].
      * intros r Hr. apply Mq. revert Hr. apply route_weaken. intros i _ [-> ->]. reflexivity.
    + split; [discriminate|]. intros NR. exfalso. destruct A as (M & _ & Ne & _ & I). destruct M as [|p M]; [contradiction|]. apply (NR p).
      apply (like_route _ _ _ _ _ _ _ (like_sym _ _ _ _ Ls)). apply I. left; auto.
Qed.
End Pair.
