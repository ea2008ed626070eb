(** DownLsps.v - failures in a model with room for all LSPs (C91). *)
From Verif Require Import Base Graph Objects Sim Api Spec SpecCkt SpecSim SpecMetric SpecFlow SpecOrder SpecShort SpecTotal SpecWhatIf SpecSame SpecHist SpecFail SpecMore GraphProofs MonadProofs RoundProofs ResProofs ObjProofs CircuitProofs
  ValidateProofs GroupProofs PathProofs QuietProofs RouteProofs LeastProofs OrderProofs DemandProofs MetricProofs IgpProofs Ecmp TrafficProofs ShareProofs FlowProofs UtilProofs RepairProofs WhatIf WhatIfApi OwnProofs OwnApi SpecSig SigProofs SigSeq SigEnd LspTotal SigTotal LspSucceeds LspExact
  OrderLsps PropertiesApi PropertiesRoute PropertiesTraffic PropertiesSignal MoreLsps.
From Coq Require Import Permutation Lqa.

Section Worse.
Variables (k : kind) (s t : st).
Hypothesis W : worse k s t.
Let C := wo_config _ _ _ W.
Lemma wo_from l : lsp_from t l = lsp_from s l.
Proof. unfold lsp_from. destruct (SpecWhatIf.cf_ls _ _ _ C l) as (->&_). apply (cf_name _ _ _ C). Qed.
Lemma wo_to l : lsp_to t l = lsp_to s l.
Proof. unfold lsp_to. destruct (SpecWhatIf.cf_ls _ _ _ C l) as (_&->&_). apply (cf_name _ _ _ C). Qed.
Lemma wo_wanted l : wanted t l (equal_share t l) = wanted s l (equal_share s l).
Proof.
  unfold wanted. destruct (SpecWhatIf.cf_ls _ _ _ C l) as (_&_&_&->). destruct (l_cfg (h_ls s l)); [reflexivity|]. unfold equal_share, traffic_of, dmds_of, lsps_of.
  rewrite (cf_dms _ _ _ C), (cf_lsps _ _ _ C), wo_from, wo_to.
  rewrite (filter_ext (fun d => String.eqb (dmd_from t d) (lsp_from s l) && String.eqb (dmd_to t d) (lsp_to s l)) (fun d => String.eqb (dmd_from s d) (lsp_from s l) && String.eqb (dmd_to s d) (lsp_to s l)))
    by (intros d; now rewrite (cf_from _ _ _ C), (cf_to _ _ _ C)).
  rewrite (filter_ext (fun m => String.eqb (lsp_from t m) (lsp_from s l) && String.eqb (lsp_to t m) (lsp_to s l)) (fun m => String.eqb (lsp_from s m) (lsp_from s l) && String.eqb (lsp_to s m) (lsp_to s l)))
    by (intros d; now rewrite wo_from, wo_to).
  rewrite (map_ext (fun d => d_traffic (h_dm t d)) (fun d => d_traffic (h_dm s d))); [reflexivity|]. intros d. apply (SpecWhatIf.cf_dm _ _ _ C d).
Qed.
Lemma wo_up i : In i (m_ifs s) -> rsvp_up t i -> rsvp_up s i.
Proof.
  intros Hi [A B]. destruct (SpecWhatIf.cf_if _ _ _ C i) as [(_&_&_&_&_&_&Rv&_) _]. split; [|congruence].
  destruct (i_failed (h_if s i)) eqn:F; [|reflexivity]. now rewrite (wo_down _ _ _ W i Hi F) in A.
Qed.
Lemma wo_up' i : In i (m_ifs s) -> rsvp_up s i -> i_failed (h_if t i) = false -> rsvp_up t i.
Proof. intros Hi [A B] F. destruct (SpecWhatIf.cf_if _ _ _ C i) as [(_&_&_&_&_&_&Rv&_) _]. split; congruence. Qed.
Lemma wo_cost p : route_cost t p = route_cost s p.
Proof. induction p as [|i p IH]; simpl; [reflexivity|]. rewrite IH. f_equal. apply (SpecWhatIf.cf_if _ _ _ C i). Qed.
Lemma wo_posed : well_posed s -> well_posed t.
Proof.
  intros (A & B & D). split; [now rewrite (cf_ifs _ _ _ C)|]. split.
  - intros i Hi. rewrite (cf_ifs _ _ _ C) in Hi. destruct (SpecWhatIf.cf_if _ _ _ C i) as [(_&->&_) _]. auto.
  - unfold texts_distinct, from_names, to_names in *. rewrite (cf_lsps _ _ _ C), (cf_dms _ _ _ C).
    rewrite (map_ext _ _ (cf_from _ _ _ C)), (map_ext _ _ (cf_to _ _ _ C)), (map_ext _ _ wo_from), (map_ext _ _ wo_to). exact D.
Qed.
Lemma wo_usual : ends_agree k t -> usual_room k s -> usual_room k t.
Proof.
  intros EA R. constructor.
  - exact (wo_posed (ur_posed _ _ R)).
  - exact (cf_known _ _ _ C (ur_known _ _ R)).
  - intros Hk i Hi. rewrite (cf_ifs _ _ _ C) in Hi. rewrite (proj2 (SpecWhatIf.cf_if _ _ _ C i) Hk). exact (ur_cids _ _ R Hk i Hi).
  - assert (LU := ur_usual _ _ R). constructor.
    + rewrite (cf_lsps _ _ _ C). apply LU.
    + rewrite (cf_ifs _ _ _ C). rewrite (map_ext (if_key t) (if_key s)); [apply LU|]. intros i. unfold if_key. f_equal; [|exact (cf_loc _ _ _ C i)]. apply (SpecWhatIf.cf_if _ _ _ C i).
    + intros d Hd. rewrite (cf_dms _ _ _ C) in Hd. destruct (SpecWhatIf.cf_dm _ _ _ C d) as (_&_&->&_). exact (lu_traffic _ _ LU d Hd).
    + intros l c Hl. rewrite (cf_lsps _ _ _ C) in Hl. destruct (SpecWhatIf.cf_ls _ _ _ C l) as (_&_&_&->). exact (lu_cfg _ _ LU l c Hl).
    + intros l Hl. rewrite (cf_lsps _ _ _ C) in Hl. rewrite wo_wanted. exact (lu_tenths _ _ LU l Hl).
    + intros i Hi. rewrite (cf_ifs _ _ _ C) in Hi. destruct (SpecWhatIf.cf_if _ _ _ C i) as [(_&_&->&_&_&_&_&->) _]. exact (lu_caps _ _ LU i Hi).
    + intros l c Hl Pc. rewrite (cf_lsps _ _ _ C) in Hl. assert (O := omm_read (h_ls s l) (h_ls t l) (usual_omm k s l LU Hl) (wo_metric _ _ _ W l Hl)).
      assert (Ne := usual_omm k s l LU Hl). rewrite <- O in Ne. revert Pc Ne. unfold mstate_of, omm. destruct (l_imm (h_ls t l)) as [z|]; [|discriminate]. destruct (Z.eqb z 0); [discriminate|].
      intros [= ->]. destruct (Z.ltb_spec 0 c); auto. intros Ne. destruct (Ne _ eq_refl).
    + intros Hk (n & Hn & Sn). rewrite (cf_nds _ _ _ C) in Hn. destruct (SpecWhatIf.cf_nd _ _ _ C n) as (_&_&X). rewrite X in Sn. assert (NT := lu_texts _ _ LU Hk (ex_intro _ n (conj Hn Sn))). unfold node_texts in *.
      rewrite (cf_names _ _ _ C), (cf_lsps _ _ _ C), (map_ext _ _ wo_from), (map_ext _ _ wo_to). exact NT.
  - intros i Hi Fi Ri. rewrite (cf_ifs _ _ _ C) in Hi. destruct (wo_up i Hi (conj Fi Ri)) as [Fs Rs]. rewrite (cf_lsps _ _ _ C), (map_ext _ _ wo_wanted).
    destruct (SpecWhatIf.cf_if _ _ _ C i) as [(_&_&->&_&_&_&_&->) _]. exact (ur_ample _ _ R i Hi Fs Rs).
  - exact EA.
Qed.
Lemma wo_room : ends_agree k t -> with_room k s -> with_room k t.
Proof.
  intros EA R. apply room_with; [exact (wo_usual EA R)|]. intros n Hn. rewrite (cf_nds _ _ _ C) in Hn. destruct (SpecWhatIf.cf_nd _ _ _ C n) as (_&_&->). exact (rm_off _ _ R n Hn).
Qed.

(** ways *)
Lemma wo_back u p v : route t (rsvp_up t) u p v -> route s (rsvp_up s) u p v.
Proof.
  induction 1 as [|i p v Hi Ui R IH]; [constructor|]. rewrite (cf_ifs _ _ _ C) in Hi. rewrite (cf_loc _ _ _ C). constructor; auto.
  - now apply wo_up.
  - now rewrite <- (cf_rem _ _ _ C).
Qed.
Lemma wo_fore u p v : route s (rsvp_up s) u p v -> (forall i, In i p -> i_failed (h_if t i) = false) -> route t (rsvp_up t) u p v.
Proof.
  induction 1 as [|i p v Hi Ui R IH]; intros F; [constructor|]. rewrite <- (cf_loc _ _ _ C). constructor.
  - now rewrite (cf_ifs _ _ _ C).
  - apply wo_up'; auto. apply F. left; auto.
  - rewrite (cf_rem _ _ _ C). apply IH. intros j Hj. apply F. right; auto.
Qed.
Lemma wo_least_fore u p v : least_cost s (rsvp_up s) u p v -> (forall i, In i p -> i_failed (h_if t i) = false) -> least_cost t (rsvp_up t) u p v.
Proof. intros [A B] F. split; [now apply wo_fore|]. intros q Hq. rewrite !wo_cost. apply B. now apply wo_back. Qed.
Lemma wo_least_back u p v p0 : least_cost s (rsvp_up s) u p0 v -> (forall i, In i p0 -> i_failed (h_if t i) = false) -> least_cost t (rsvp_up t) u p v -> least_cost s (rsvp_up s) u p v.
Proof.
  intros A F [B D]. split; [now apply wo_back|]. intros q Hq. assert (X := D p0 (wo_fore _ _ _ (proj1 A) F)). rewrite !wo_cost in X. assert (Y := proj2 A q Hq). lia.
Qed.
Lemma wo_best_fore l p : best_road s l p -> (forall i, In i p -> i_failed (h_if t i) = false) -> best_road t l p.
Proof.
  intros [A B] F. unfold best_road. rewrite wo_from, wo_to. split; [now apply wo_least_fore|]. intros q Hq. apply B. exact (wo_least_back _ _ _ p A F Hq).
Qed.
Lemma wo_best_back l p p0 : best_road s l p0 -> (forall i, In i p0 -> i_failed (h_if t i) = false) -> best_road t l p -> best_road s l p.
Proof.
  intros A F B. assert (A' := wo_best_fore l p0 A F). unfold best_road in B, A'. rewrite wo_from, wo_to in B, A'. destruct A as [A1 A2], B as [B1 B2]. split; [exact (wo_least_back _ _ _ p0 A1 F B1)|].
  intros q Hq. assert (X := B2 p0 (proj1 A')). assert (Y := A2 q Hq). lia.
Qed.
End Worse.

Section Down.
Variables (E E' : env) (k : kind).
Hypothesis HE : env_ok E.
Hypothesis HE' : env_ok E'.
Variables s t s' t' : st.
Hypothesis Rs : with_room k s.
Hypothesis W : worse k s t.
Hypothesis EA' : ends_agree k t.
Hypothesis Up : update_simulation E k s = (s', Ok tt).
Hypothesis Up' : update_simulation E' k t = (t', Ok tt).
Let C := wo_config _ _ _ W.
Let Rt := wo_room k s t W EA' Rs.
Let WP := rm_posed _ _ Rs. Let EK := rm_known _ _ Rs. Let CS := rm_cids _ _ Rs. Let LU := rm_usual _ _ Rs. Let Am := rm_ample _ _ Rs. Let EA := rm_agree _ _ Rs. Let Off := rm_off _ _ Rs.
Let WPt := rm_posed _ _ Rt. Let EKt := rm_known _ _ Rt. Let CSt := rm_cids _ _ Rt. Let LUt := rm_usual _ _ Rt. Let Amt := rm_ample _ _ Rt. Let Offt := rm_off _ _ Rt.
Let Fs := fin_fail E k HE s s' WP CS EA Up.
Let Ft := fin_fail E' k HE' t t' WPt CSt EA' Up'.
Let Ls := fin_like E k HE s s' WP EK CS LU Am EA Up.
Let Lt := fin_like E' k HE' t t' WPt EKt CSt LUt Amt EA' Up'.
Let lt l : In l (m_lsps s) -> In l (m_lsps t). Proof. now rewrite (cf_lsps _ _ _ C). Qed.

Lemma down_road l p : road t l p -> road s l p.
Proof. unfold road. rewrite (wo_from _ _ _ W), (wo_to _ _ _ W). apply (wo_back _ _ _ W). Qed.
Lemma down_lost l : In l (m_lsps s) -> l_path (h_ls s' l) = PUnrouted -> l_path (h_ls t' l) = PUnrouted.
Proof.
  intros Hl U. destruct (placed E k HE s s' WP LU EK Up l Am Hl) as [(p & b & q & P & _)|(_ & _ & N)]; [congruence|].
  destruct (placed E' k HE' t t' WPt LUt EKt Up' l Amt (lt l Hl)) as [(p & b & q & P & B & _)|(P & _)]; [|exact P].
  destruct (N p). apply down_road. apply B.
Qed.
Lemma down_routed l : In l (m_lsps s) -> routed_lsp t' l -> routed_lsp s' l.
Proof.
  intros Hl. rewrite (fin_routed E k HE s s' WP EK LU Am Up l Hl), (fin_routed E' k HE' t t' WPt EKt LUt Amt Up' l (lt l Hl)). intros (p & Hp). exists p. now apply down_road.
Qed.
Lemma down_cost l p c b p' c' b' : In l (m_lsps s) -> l_path (h_ls s' l) = PRouted p c b -> l_path (h_ls t' l) = PRouted p' c' b' -> c <= c'.
Proof.
  intros Hl P P'. destruct (placed E k HE s s' WP LU EK Up l Am Hl) as [(q & b1 & r & Q & B & _)|(Q & _)]; [|congruence].
  destruct (placed E' k HE' t t' WPt LUt EKt Up' l Amt (lt l Hl)) as [(q' & b1' & r' & Q' & B' & _)|(Q' & _)]; [|congruence].
  rewrite P in Q. rewrite P' in Q'. injection Q as -> -> ->. injection Q' as -> -> ->. rewrite (wo_cost _ _ _ W). apply (proj1 B). apply down_road. apply B'.
Qed.
Lemma down_spared_lsp l p c b : In l (m_lsps s) -> l_path (h_ls s' l) = PRouted p c b -> lsp_spared s' t l ->
  exists q b', l_path (h_ls t' l) = PRouted q c b' /\ same_amount (l_res (h_ls s' l)) (l_res (h_ls t' l)) /\ best_road s l q /\ (sole_road s l -> q = p).
Proof.
  intros Hl P Sp. destruct (placed E k HE s s' WP LU EK Up l Am Hl) as [(q & b1 & r & Q & B & X & Y)|(Q & _)]; [|congruence]. rewrite P in Q. injection Q as -> -> ->.
  assert (F : forall i, In i q -> i_failed (h_if t i) = false) by (intros i Hi; exact (Sp _ _ _ i P Hi)). assert (B2 := wo_best_fore _ _ _ W l q B F).
  destruct (placed E' k HE' t t' WPt LUt EKt Up' l Amt (lt l Hl)) as [(q' & b1' & r' & Q' & B' & X' & Y')|(_ & _ & N)]; [|destruct (N q); apply B2].
  assert (B1 := wo_best_back _ _ _ W l q' q B F B'). exists q', b1'. split; [|split; [|split]].
  - rewrite Q'. f_equal. rewrite (wo_cost _ _ _ W). eapply least_unique; [apply B1|apply B].
  - rewrite X, X'. simpl. rewrite Y, Y', (wo_wanted _ _ _ W). reflexivity.
  - exact B1.
  - intros So. apply So; auto.
Qed.

(** metrics *)
Lemma down_omm l : In l (m_lsps s) -> omm (h_ls t' l) = omm (h_ls s' l) /\ forall e, omm (h_ls s' l) <> Err e.
Proof.
  intros Hl. assert (Ne := usual_omm k s l LU Hl). rewrite (fin_omm E k s s' Up), (fin_omm E' k t t' Up'). split; [|exact Ne]. exact (omm_read _ _ Ne (wo_metric _ _ _ W l Hl)).
Qed.
Lemma down_metric_le l a b : In l (m_lsps s) -> routed_lsp t' l -> metric s' l a -> metric t' l b -> metric_le a b.
Proof.
  intros Hl Rl A B. destruct (down_omm l Hl) as [O Ne]. assert (Ne' := Ne). rewrite <- O in Ne'. apply (metric_omm s' l a Ne) in A. apply (metric_omm t' l b Ne') in B.
  rewrite O in B. destruct (omm (h_ls s' l)) as [[c|]|e]; [subst; simpl; lia| |destruct (Ne e eq_refl)].
  apply (fin_routed E' k HE' t t' WPt EKt LUt Amt Up' l (lt l Hl)) in Rl as (p & Rp).
  destruct (fin_ls E k s s' Up l) as [F1 T1], (fin_ls E' k t t' Up' l) as [F2 T2]. rewrite F1, T1 in A. rewrite F2, T2 in B.
  assert (Sp := down_road l p Rp). unfold road in Rp, Sp.
  destruct b as [b|]; [|destruct (B p); now apply (like_route _ _ _ _ _ _ _ Lt)].
  destruct a as [a|]; [|destruct (A p); now apply (like_route _ _ _ _ _ _ _ Ls)].
  destruct A as (x & Ax & ->), B as (y & By & ->). simpl. apply (like_least _ _ _ _ _ _ _ Ls) in Ax. apply (like_least _ _ _ _ _ _ _ Lt) in By.
  rewrite (like_cost _ _ _ _ _ _ _ Ls (proj1 Ax)), (like_cost _ _ _ _ _ _ _ Lt (proj1 By)), (wo_cost _ _ _ W). apply Ax. rewrite <- (wo_from _ _ _ W), <- (wo_to _ _ _ W). apply (wo_back _ _ _ W). apply By.
Qed.
Lemma down_metric_eq l a : In l (m_lsps s) -> routed_lsp s' l -> lsp_spared s' t l -> metric s' l a -> metric t' l a.
Proof.
  intros Hl (p & c & b & P) Sp A. destruct (down_omm l Hl) as [O Ne]. assert (Ne' := Ne). rewrite <- O in Ne'. apply (metric_omm s' l a Ne) in A. apply (metric_omm t' l a Ne').
  rewrite O. destruct (omm (h_ls s' l)) as [[z|]|e]; [exact A| |destruct (Ne e eq_refl)].
  destruct (placed E k HE s s' WP LU EK Up l Am Hl) as [(q & b1 & r & Q & B & X & Y)|(Q & _)]; [|congruence]. rewrite P in Q. injection Q as -> -> ->.
  assert (F : forall i, In i q -> i_failed (h_if t i) = false) by (intros i Hi; exact (Sp _ _ _ i P Hi)). assert (B2 := wo_best_fore _ _ _ W l q B F).
  destruct (fin_ls E k s s' Up l) as [F1 T1], (fin_ls E' k t t' Up' l) as [F2 T2]. rewrite F1, T1 in A. rewrite F2, T2.
  destruct a as [a|]; [|destruct (A q); apply (like_route _ _ _ _ _ _ _ Ls); apply B].
  destruct A as (x & Ax & ->). exists q. split; [apply (like_least _ _ _ _ _ _ _ Lt); apply B2|].
  apply (like_least _ _ _ _ _ _ _ Ls) in Ax. rewrite (like_cost _ _ _ _ _ _ _ Ls (proj1 Ax)), (like_cost _ _ _ _ _ _ _ Lt (proj1 (proj1 B2))), (wo_cost _ _ _ W).
  eapply least_unique; [exact Ax|apply B].
Qed.

Section Demand.
Variable d : nat.
Hypothesis Hd : In d (m_dms s).
Let Hd' : In d (m_dms t). Proof. now rewrite (cf_dms _ _ _ C). Qed.
Let De := cf_demand _ _ _ C d.
Lemma down_of l : lsp_of s' d l <-> lsp_of t' d l.
Proof.
  unfold lsp_of. destruct (fin_sets E k s s' Up) as (_&_&_&->), (fin_sets E' k t t' Up') as (_&_&_&->). rewrite (cf_lsps _ _ _ C).
  destruct (fin_ls E k s s' Up l) as [-> ->], (fin_ls E' k t t' Up' l) as [-> ->]. destruct (fin_dm E k s s' Up d) as (->&->&_), (fin_dm E' k t t' Up' d) as (->&->&_).
  destruct De as ((->&->)&_). rewrite (wo_from _ _ _ W), (wo_to _ _ _ W). reflexivity.
Qed.
Lemma down_unrouted : d_path (h_dm s' d) = DUnrouted -> d_path (h_dm t' d) = DUnrouted.
Proof.
  rewrite (pair_unrouted E k HE s s' Rs Up d Hd), (pair_unrouted E' k HE' t t' Rt Up' d Hd'). intros N p Hp. destruct De as ((F&T)&_). rewrite F, T in Hp. apply (N p). now apply (wo_back _ _ _ W).
Qed.
Hypothesis Sp : demand_spared s' t d.
Lemma down_ridden l : preferred s' d l -> lsp_spared s' t l.
Proof.
  intros Pl p c b i P Hi. assert (H : exists l, lsp_of s' d l /\ routed_lsp s' l) by (destruct Pl as (? & ? & _); eauto).
  destruct (C07_ride E k s s' d HE WP (lu_once _ _ LU) Up Fs Hd H) as (ls & es & _ & _ & X & Y & _). apply X in Pl.
  apply (Sp _ [ILsp l] i Y); [apply in_map_iff; eauto|]. unfold crossings, item_crossings. simpl. rewrite P. assert (Z := proj1 (count_occ_In Nat.eq_dec p i) Hi). lia.
Qed.
Lemma down_preferred l : preferred s' d l <-> preferred t' d l.
Proof.
  split.
  - intros Pl. assert (Sl := down_ridden l Pl). destruct Pl as (A & B & m & M & D). assert (Hl := in_lsp E k s s' Up d l A). split; [now apply down_of|]. split.
    + destruct B as (p & c & b & P). destruct (down_spared_lsp l p c b Hl P Sl) as (q & b' & Q & _). unfold routed_lsp. eauto.
    + exists m. split; [exact (down_metric_eq l m Hl B Sl M)|]. intros l' A' B'. apply down_of in A'. assert (Hl' := in_lsp E k s s' Up d l' A').
      destruct (D l' A' (down_routed l' Hl' B')) as (m' & X & Y).
      destruct (routed_has_metric E' k HE' t t' WPt EKt CSt LUt Amt EA' Up' l' (lt l' Hl') B') as (m2 & Z). exists m2. split; [exact Z|]. exact (metric_trans _ _ _ Y (down_metric_le l' m' m2 Hl' B' X Z)).
  - intros (A & B & m & M & D). apply down_of in A. assert (Hl := in_lsp E k s s' Up d l A). assert (Bs := down_routed l Hl B).
    destruct (rides_pref k d E s s' HE WP (lu_once _ _ LU) Up Fs Hd (ex_intro _ l (conj A Bs))) as (l0 & P0). assert (S0 := down_ridden l0 P0). destruct P0 as (A0 & B0 & m0 & M0 & D0).
    assert (Hl0 := in_lsp E k s s' Up d l0 A0).
    split; [exact A|]. split; [exact Bs|]. destruct (D0 l A Bs) as (ms & Ms & _). exists ms. split; [exact Ms|]. intros l' A' B'. destruct (D0 l' A' B') as (m' & M' & L'). exists m'. split; [exact M'|].
    refine (metric_trans _ _ _ (metric_trans _ _ _ (down_metric_le l ms m Hl B Ms M) _) L').
    assert (R0 : routed_lsp t' l0). { destruct B0 as (p & c & b & P). destruct (down_spared_lsp l0 p c b Hl0 P S0) as (q & b' & Q & _). unfold routed_lsp. eauto. }
    destruct (D l0 (proj1 (down_of l0) A0) R0) as (m1 & M1 & L1). rewrite (metric_unique _ _ _ _ (down_metric_eq l0 m0 Hl0 B0 S0 M0) M1). exact L1.
Qed.
Lemma down_least : no_lsp_for s' d -> forall p, least_cost s (rsvp_up s) (dmd_from s d) p (dmd_to s d) <-> least_cost t (rsvp_up t) (dmd_from t d) p (dmd_to t d).
Proof.
  intros N p. destruct De as ((->&->)&_).
  assert (A := C01_igp_paths E k s s' d HE WP Up Fs Hd N (off_s E k s s' Up Off d)). destruct (fin_dm E k s s' Up d) as (D1&D2&_). rewrite D1, D2 in A.
  destruct (d_path (h_dm s' d)) as [|ps] eqn:P.
  - assert (NR := proj1 (pair_unrouted E k HE s s' Rs Up d Hd) P p). split; intros [Z _]; exfalso; apply NR; [exact Z|now apply (wo_back _ _ _ W)].
  - destruct A as (M & -> & Ne & _ & I).
    assert (F : forall q, In q M -> forall i, In i q -> i_failed (h_if t i) = false).
    { intros q Hq i Hi. apply (Sp _ (if_path q) i P); [now apply in_map|]. now apply in_crossings. }
    assert (J : forall q, In q M <-> least_cost s (rsvp_up s) (dmd_from s d) q (dmd_to s d)) by (intros q; rewrite I; symmetry; apply like_least; exact Ls).
    split; intros Z.
    + apply (wo_least_fore _ _ _ W); auto. apply F. now apply J.
    + destruct M as [|q M]; [contradiction|]. apply (wo_least_back _ _ _ W _ _ _ q); auto; [apply J; left; auto|apply F; left; auto].
Qed.
Lemma down_paths : same_paths (d_path (h_dm s' d)) (d_path (h_dm t' d)).
Proof. exact (pair_paths E E' k HE HE' s t s' t' Rs Rt Up Up' d Hd Hd' De down_preferred down_least). Qed.
Lemma down_adds i x y : (forall l, preferred s' d l -> sole_road s l) -> adds k s' d i x -> adds k t' d i y -> (x == y)%Q.
Proof.
  intros So. apply (pair_adds E E' k HE HE' s t s' t' Rs Rt Up Up' d Hd Hd' De); auto using down_preferred, down_least.
  - intros j _. exact (cf_loc _ _ _ C j).
  - intros l j Pl. assert (Sl := down_ridden l Pl). assert (Hl := in_lsp E k s s' Up d l (proj1 Pl)). destruct Pl as (A & (p & c & b & P) & M).
    destruct (down_spared_lsp l p c b Hl P Sl) as (q & b' & Q & _ & _ & X). unfold crossings, item_crossings. simpl. rewrite P, Q, X; auto. apply So. split; [exact A|]. split; [unfold routed_lsp; eauto|exact M].
Qed.
End Demand.

Lemma down_delivered : (routed_total t' <= routed_total s')%Q.
Proof.
  unfold routed_total. destruct (fin_sets E k s s' Up) as (_&_&->&_), (fin_sets E' k t t' Up') as (_&_&->&_). rewrite (cf_dms _ _ _ C).
  assert (X : forall d, In d (m_dms s) -> (routed_traffic t' d <= routed_traffic s' d)%Q).
  { intros d Hd. assert (U := down_unrouted d Hd). assert (T := lu_traffic _ _ LU d Hd). unfold routed_traffic. destruct (fin_dm E k s s' Up d) as (_&_&->), (fin_dm E' k t t' Up' d) as (_&_&->).
    destruct (SpecWhatIf.cf_dm _ _ _ C d) as (_&_&->&_). destruct (d_path (h_dm s' d)) as [|ps]; [rewrite U; [apply Qle_refl|reflexivity]|]. destruct (d_path (h_dm t' d)); [exact T|apply Qle_refl]. }
  clear -X. induction (m_dms s) as [|d ds IH]; simpl; [apply Qle_refl|]. apply Qplus_le_compat; [apply X; left; auto|]. apply IH. intros e He. apply X. right; auto.
Qed.
Lemma down_traffic i : In i (m_ifs s) -> (forall d, In d (m_dms s) -> demand_spared s' t d) -> (forall d l, In d (m_dms s) -> preferred s' d l -> sole_road s l) ->
  if i_failed (h_if t i) then i_traffic (h_if t' i) = TDown else same_traffic (i_traffic (h_if s' i)) (i_traffic (h_if t' i)).
Proof.
  intros Hi Sp So. assert (Hi' : In i (m_ifs t)) by now rewrite (cf_ifs _ _ _ C). assert (A := pair_sum E k HE s s' Rs Up i Hi). assert (B := pair_sum E' k HE' t t' Rt Up' i Hi').
  destruct (i_failed (h_if t i)) eqn:F'; [exact B|]. destruct (i_failed (h_if s i)) eqn:F; [now rewrite (wo_down _ _ _ W i Hi F) in F'|].
  destruct A as (q & f & -> & A1 & A2), B as (r & g & -> & B1 & B2). simpl. rewrite A2, B2, (cf_dms _ _ _ C). apply sumq_ext. intros d Hd.
  apply (down_adds d Hd (Sp d Hd) i); [intros l; now apply So|now apply A1|apply B1; now rewrite (cf_dms _ _ _ C)].
Qed.
End Down.
