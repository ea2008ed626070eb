(** GrownLsps.v - added demands and LSPs in a model with room for all LSPs (C92), and
    the calls that lead to the models of C91 and C92. *)
From Verif Require Import Base Graph Objects Sim Api Spec SpecCkt SpecSim SpecMetric SpecFlow SpecOrder SpecShort SpecTotal SpecWhatIf SpecSame SpecHist SpecFail SpecMore GraphProofs MonadProofs RoundProofs ResProofs ObjProofs CircuitProofs
  ValidateProofs GroupProofs PathProofs QuietProofs RouteProofs LeastProofs OrderProofs DemandProofs MetricProofs IgpProofs Ecmp TrafficProofs ShareProofs FlowProofs UtilProofs RepairProofs WhatIf WhatIfApi OwnProofs OwnApi Frames ApiFrames ApiProofs AddProofs SpecSig SigProofs SigSeq SigEnd LspTotal SigTotal LspSucceeds LspExact
  OrderLsps PropertiesApi PropertiesRoute PropertiesTraffic PropertiesSignal MoreLsps DownLsps.
From Coq Require Import Permutation Lqa.

Section Grown.
Variables (E E' : env) (k : kind).
Hypothesis HE : env_ok E.
Hypothesis HE' : env_ok E'.
Variables s t s' t' : st.
Variables D L : list nat.
Hypothesis Rs : with_room k s.
Hypothesis Rt : with_room k t.
Hypothesis G : grown s t D L.
Hypothesis Up : update_simulation E k s = (s', Ok tt).
Hypothesis Up' : update_simulation E' k t = (t', Ok tt).
Let WP := rm_posed _ _ Rs. Let EK := rm_known _ _ Rs. Let CS := rm_cids _ _ Rs. Let LU := rm_usual _ _ Rs. Let Am := rm_ample _ _ Rs. Let EA := rm_agree _ _ Rs. Let Off := rm_off _ _ Rs.
Let WPt := rm_posed _ _ Rt. Let EKt := rm_known _ _ Rt. Let CSt := rm_cids _ _ Rt. Let LUt := rm_usual _ _ Rt. Let Amt := rm_ample _ _ Rt. Let EAt := rm_agree _ _ Rt. Let Offt := rm_off _ _ Rt.
Let Ls := fin_like E k HE s s' WP EK CS LU Am EA Up.
Let Lt := fin_like E' k HE' t t' WPt EKt CSt LUt Amt EAt Up'.

Lemma gr_like : like (rsvp_up s) (rsvp_up t) s t.
Proof.
  constructor; [intros i; symmetry; apply (gr_ifs _ _ _ _ G)|]. intros i Hi. destruct (gr_if _ _ _ _ G i Hi) as (A & B & C & F & R). unfold rsvp_up. rewrite F, R. tauto.
Qed.
Lemma gr_in l : In l (m_lsps s) -> In l (m_lsps t).
Proof. rewrite (gr_lsps _ _ _ _ G), in_app_iff. auto. Qed.
Lemma gr_best l p : In l (m_lsps s) -> (best_road s l p <-> best_road t l p).
Proof. intros Hl. destruct (gr_ls _ _ _ _ G l Hl) as (A & B & _). apply like_best; auto using gr_like. Qed.
Lemma gr_road l p : In l (m_lsps s) -> (road s l p <-> road t l p).
Proof.
  intros Hl. destruct (gr_ls _ _ _ _ G l Hl) as (A & B & _). unfold road. rewrite A, B. split; apply like_route; [|apply like_sym]; apply gr_like.
Qed.
Lemma gr_fate l : In l (m_lsps s) -> same_fate (l_path (h_ls s' l)) (l_path (h_ls t' l)) /\ (sole_road s l -> same_way (l_path (h_ls s' l)) (l_path (h_ls t' l))).
Proof.
  intros Hl. destruct (placed E k HE s s' WP LU EK Up l Am Hl) as [(p & b & q & P & B & Q & W)|(P & Q & N)];
  destruct (placed E' k HE' t t' WPt LUt EKt Up' l Amt (gr_in l Hl)) as [(p' & b' & q' & P' & B' & Q' & W')|(P' & Q' & N')]; rewrite P, P'; simpl.
  - apply (gr_best l p' Hl) in B'. assert (X : route_cost s p = route_cost t p').
    { rewrite (like_cost _ _ _ _ _ _ _ gr_like (proj1 (proj1 B'))). eapply least_unique; [apply B|apply B']. }
    split; [exact X|]. intros So. split; [apply So; auto|exact X].
  - destruct (N' p). apply gr_road; auto. apply B.
  - destruct (N p'). apply gr_road; auto. apply B'.
  - auto.
Qed.
Lemma gr_wanted l : In l (m_lsps s) -> l_cfg (h_ls s l) <> None \/ (no_new_demand t D (lsp_from s l) (lsp_to s l) /\ no_new_lsp t L (lsp_from s l) (lsp_to s l)) ->
  wanted t l (equal_share t l) = wanted s l (equal_share s l).
Proof.
  intros Hl H. destruct (gr_ls _ _ _ _ G l Hl) as (A & B & Cg & _). unfold wanted. rewrite Cg. destruct (l_cfg (h_ls s l)) as [c|]; [reflexivity|]. destruct H as [H|[ND NL]]; [destruct (H eq_refl)|].
  unfold equal_share, traffic_of, dmds_of, lsps_of. rewrite A, B, (gr_dms _ _ _ _ G), (gr_lsps _ _ _ _ G), !filter_app.
  assert (X : filter (fun d => String.eqb (dmd_from t d) (lsp_from s l) && String.eqb (dmd_to t d) (lsp_to s l)) D = []).
  { clear -ND. induction D as [|d ds IH]; [reflexivity|]. simpl. destruct (String.eqb_spec (dmd_from t d) (lsp_from s l)), (String.eqb_spec (dmd_to t d) (lsp_to s l)); simpl;
    try exact (IH (fun e He => ND e (or_intror He))). destruct (ND d (or_introl eq_refl)); auto. }
  assert (Y : filter (fun m => String.eqb (lsp_from t m) (lsp_from s l) && String.eqb (lsp_to t m) (lsp_to s l)) L = []).
  { clear -NL. induction L as [|d ds IH]; [reflexivity|]. simpl. destruct (String.eqb_spec (lsp_from t d) (lsp_from s l)), (String.eqb_spec (lsp_to t d) (lsp_to s l)); simpl;
    try exact (IH (fun e He => NL e (or_intror He))). destruct (NL d (or_introl eq_refl)); auto. }
  rewrite X, Y, !app_nil_r.
  rewrite (filter_ext_in (fun d => String.eqb (dmd_from t d) (lsp_from s l) && String.eqb (dmd_to t d) (lsp_to s l)) (fun d => String.eqb (dmd_from s d) (lsp_from s l) && String.eqb (dmd_to s d) (lsp_to s l)))
    by (intros d Hd; destruct (gr_dm _ _ _ _ G d Hd) as ((->&->)&_); reflexivity).
  rewrite (filter_ext_in (fun m => String.eqb (lsp_from t m) (lsp_from s l) && String.eqb (lsp_to t m) (lsp_to s l)) (fun m => String.eqb (lsp_from s m) (lsp_from s l) && String.eqb (lsp_to s m) (lsp_to s l)))
    by (intros m Hm; destruct (gr_ls _ _ _ _ G m Hm) as (->&->&_); reflexivity).
  f_equal. f_equal. apply map_ext_in. intros d Hd. apply filter_In in Hd as [Hd _]. apply (gr_dm _ _ _ _ G d Hd).
Qed.
Lemma gr_amount l : In l (m_lsps s) -> l_cfg (h_ls s l) <> None \/ (no_new_demand t D (lsp_from s l) (lsp_to s l) /\ no_new_lsp t L (lsp_from s l) (lsp_to s l)) ->
  same_amount (l_res (h_ls s' l)) (l_res (h_ls t' l)).
Proof.
  intros Hl H. destruct (placed E k HE s s' WP LU EK Up l Am Hl) as [(p & b & q & P & B & Q & W)|(P & Q & N)];
  destruct (placed E' k HE' t t' WPt LUt EKt Up' l Amt (gr_in l Hl)) as [(p' & b' & q' & P' & B' & Q' & W')|(P' & Q' & N')]; rewrite Q, Q'; simpl.
  - rewrite W, W', (gr_wanted l Hl H). reflexivity.
  - destruct (N' p). apply gr_road; auto. apply B.
  - destruct (N p'). apply gr_road; auto. apply B'.
  - auto.
Qed.
Lemma gr_alike : like (usable s') (usable t') s' t'.
Proof.
  destruct Ls as [A1 A2], Lt as [B1 B2], gr_like as [C1 C2]. constructor; [intros i; rewrite <- A1, C1; apply B1|]. intros i Hi. apply A1 in Hi.
  destruct (A2 i Hi) as (->&->&->&X), (B2 i (proj1 (C1 i) Hi)) as (->&->&->&Y), (C2 i Hi) as (->&->&->&Z). do 3 (split; [reflexivity|]). tauto.
Qed.
Lemma gr_routed l : In l (m_lsps s) -> (routed_lsp s' l <-> routed_lsp t' l).
Proof.
  intros Hl. rewrite (fin_routed E k HE s s' WP EK LU Am Up l Hl), (fin_routed E' k HE' t t' WPt EKt LUt Amt Up' l (gr_in l Hl)).
  split; intros (p & H); exists p; now apply gr_road.
Qed.
Lemma gr_metric l m : In l (m_lsps s) -> (metric s' l m <-> metric t' l m).
Proof.
  intros Hl. rewrite (metric_omm s' l m (fin_metric_ok E k s s' LU Up l Hl)), (metric_omm t' l m (fin_metric_ok E' k t t' LUt Up' l (gr_in l Hl))).
  destruct (gr_ls _ _ _ _ G l Hl) as (F & T & _ & R). rewrite (fin_omm E k s s' Up l), (fin_omm E' k t t' Up' l), (omm_read _ _ (usual_omm k s l LU Hl) R). destruct (omm (h_ls s l)) as [[c|]|e]; try tauto.
  destruct (fin_ls E k s s' Up l) as [-> ->], (fin_ls E' k t t' Up' l) as [-> ->]. rewrite F, T. assert (LL := gr_alike). destruct m as [c|].
  - split; intros (p & A & ->); exists p.
    + split; [now apply (like_least _ _ _ _ _ _ _ LL)|]. symmetry. exact (like_cost _ _ _ _ _ _ _ LL (proj1 A)).
    + apply (like_least _ _ _ _ _ _ _ LL) in A. split; [exact A|]. exact (like_cost _ _ _ _ _ _ _ LL (proj1 A)).
  - split; intros H p Hp; apply (H p); revert Hp; apply like_route; [now apply like_sym|exact LL].
Qed.

Section Demand.
Variable d : nat.
Hypothesis Hd : In d (m_dms s).
Lemma gr_hd : In d (m_dms t).
Proof. rewrite (gr_dms _ _ _ _ G), in_app_iff. auto. Qed.
Let De := gr_dm _ _ _ _ G d Hd.
Lemma gr_unrouted : d_path (h_dm s' d) = DUnrouted <-> d_path (h_dm t' d) = DUnrouted.
Proof.
  rewrite (pair_unrouted E k HE s s' Rs Up d Hd), (pair_unrouted E' k HE' t t' Rt Up' d gr_hd). destruct De as ((->&->)&_).
  split; intros N p Hp; apply (N p); revert Hp; apply like_route; [apply like_sym|]; apply gr_like.
Qed.
Hypothesis NL : no_new_lsp t L (dmd_from s d) (dmd_to s d).
Lemma gr_of l : lsp_of s' d l <-> lsp_of t' d l.
Proof.
  unfold lsp_of. destruct (fin_sets E k s s' Up) as (_&_&_&->), (fin_sets E' k t t' Up') as (_&_&_&->).
  destruct (fin_ls E k s s' Up l) as [-> ->], (fin_ls E' k t t' Up' l) as [-> ->]. destruct (fin_dm E k s s' Up d) as (->&->&_), (fin_dm E' k t t' Up' d) as (->&->&_).
  destruct De as ((->&->)&_). rewrite (gr_lsps _ _ _ _ G), in_app_iff. split.
  - intros (Hl & F & T). destruct (gr_ls _ _ _ _ G l Hl) as (->&->&_). auto.
  - intros ([Hl|Hl] & F & T); [destruct (gr_ls _ _ _ _ G l Hl) as (<-&<-&_); auto|]. destruct (NL l Hl F T).
Qed.
Lemma gr_preferred l : preferred s' d l <-> preferred t' d l.
Proof.
  unfold preferred. split; intros (A & B & m & M & Le).
  - assert (Hl := in_lsp E k s s' Up d l A). split; [now apply gr_of|]. split; [now apply gr_routed|]. exists m. split; [now apply gr_metric|]. intros l' A' B'. apply gr_of in A'.
    assert (Hl' := in_lsp E k s s' Up d l' A'). apply gr_routed in B'; auto. destruct (Le l' A' B') as (m' & X & Y). exists m'. split; [now apply gr_metric|exact Y].
  - apply gr_of in A. assert (Hl := in_lsp E k s s' Up d l A). split; [exact A|]. split; [now apply gr_routed|]. exists m. split; [now apply gr_metric|]. intros l' A' B'.
    assert (Hl' := in_lsp E k s s' Up d l' A'). apply gr_of in A'. apply gr_routed in B'; auto. destruct (Le l' A' B') as (m' & X & Y). exists m'. split; [now apply gr_metric|exact Y].
Qed.
Lemma gr_least : forall p, least_cost s (rsvp_up s) (dmd_from s d) p (dmd_to s d) <-> least_cost t (rsvp_up t) (dmd_from t d) p (dmd_to t d).
Proof. intros p. destruct De as ((->&->)&_). apply like_least, gr_like. Qed.
Lemma gr_paths : same_paths (d_path (h_dm s' d)) (d_path (h_dm t' d)).
Proof. exact (pair_paths E E' k HE HE' s t s' t' Rs Rt Up Up' d Hd gr_hd De gr_preferred (fun _ => gr_least)). Qed.
Lemma gr_adds i x y : (forall l, preferred s' d l -> sole_road s l) -> adds k s' d i x -> adds k t' d i y -> (x == y)%Q.
Proof.
  intros So. apply (pair_adds E E' k HE HE' s t s' t' Rs Rt Up Up' d Hd gr_hd De); auto using gr_preferred, gr_least.
  - intros j Hj. apply (gr_if _ _ _ _ G j Hj).
  - intros l j Pl. assert (Hl := in_lsp E k s s' Up d l (proj1 Pl)). assert (X := proj2 (gr_fate l Hl) (So l Pl)). destruct Pl as (_ & (p & c & b & P) & _). unfold crossings, item_crossings. simpl. rewrite P in *.
    destruct (l_path (h_ls t' l)); simpl in X; try contradiction. destruct X as [-> _]. reflexivity.
Qed.
End Demand.
Lemma gr_traffic i : In i (m_ifs s) -> (forall d, In d (m_dms s) -> no_new_lsp t L (dmd_from s d) (dmd_to s d)) -> (forall d l, In d (m_dms s) -> preferred s' d l -> sole_road s l) ->
  if i_failed (h_if s i) then i_traffic (h_if s' i) = TDown /\ i_traffic (h_if t' i) = TDown
  else exists q r f, i_traffic (h_if s' i) = TNum q /\ i_traffic (h_if t' i) = TNum r /\ (forall d, In d D -> adds k t' d i (f d)) /\ (r == q + Qsum (map f D))%Q.
Proof.
  intros Hi NL So. assert (Hi' : In i (m_ifs t)) by now apply (gr_ifs _ _ _ _ G). assert (A := pair_sum E k HE s s' Rs Up i Hi). assert (B := pair_sum E' k HE' t t' Rt Up' i Hi').
  destruct (gr_if _ _ _ _ G i Hi) as (_&_&_&F&_). rewrite F in B. destruct (i_failed (h_if s i)); [auto|].
  destruct A as (q & f & A0 & A1 & A2), B as (r & g & B0 & B1 & B2). exists q, r, g. split; [exact A0|]. split; [exact B0|]. rewrite (gr_dms _ _ _ _ G) in B1, B2. split.
  - intros d Hd. apply B1. apply in_app_iff. auto.
  - rewrite A2, B2. change (Qsum (map g D)) with (sumq g D). rewrite sumq_app. rewrite (sumq_ext f g (m_dms s)); [reflexivity|]. intros d Hd.
    apply (gr_adds d Hd (NL d Hd) i); [intros l; now apply So|now apply A1|apply B1; apply in_app_iff; auto].
Qed.
End Grown.

(** ** The calls *)
Lemma down_worse E k s l : (forall o, In o l -> failing_op s o) -> worse k s (run_ops E k l s).
Proof.
  intros H. assert (O : forall o, In o l -> outage_op s o) by (intros o Ho; now apply failing_outage, H).
  constructor; [exact (config_history E k l s O)|intros i _; exact (down_history E k l s H i)|].
  intros x _. apply read_omm. exact (sy_mm _ _ (steady_history E k s l s O (steady_refl s)) x).
Qed.
Lemma down_calls E k s l : env_ok E -> with_room k s -> wf_net k s -> srlg_sound k s -> consistent k s -> (forall o, In o l -> failing_op s o) ->
  let t := run_ops E k l s in worse k s t /\ ends_agree k t /\
    ((exists s', update_simulation E k s = (s', Ok tt)) <-> (exists t', update_simulation E k t = (t', Ok tt))).
Proof.
  intros HE R Wf Sr Co H t. assert (O : forall o, In o l -> outage_op s o) by (intros o Ho; now apply failing_outage, H).
  assert (C : same_config k s t) by exact (config_history E k l s O).
  assert (W : worse k s t) by exact (down_worse E k s l H).
  assert (EA : ends_agree k t). { assert (I := history_inv E k HE l s (fun o Ho => outage_failure s o (O o Ho)) (conj Wf (conj Sr Co))). apply I. }
  split; [exact W|]. split; [exact EA|]. assert (R' := wo_room k s t W EA R).
  rewrite (succeeds_ample E k s HE (rm_posed _ _ R) (rm_known _ _ R) (rm_cids _ _ R) (rm_usual _ _ R) (rm_ample _ _ R)), (succeeds_ample E k t HE (rm_posed _ _ R') (rm_known _ _ R') (rm_cids _ _ R') (rm_usual _ _ R') (rm_ample _ _ R')).
  assert (C' := config_sym _ _ _ C). split; intros (A & B & F).
  - split; [exact (WhatIf.cf_fine _ _ _ C A)|]. split; [|exact (config_fit _ _ _ C F)].
    intros x Hx. rewrite (WhatIf.cf_lsps _ _ _ C) in Hx. rewrite (wo_from _ _ _ W), (wo_to _ _ _ W), (WhatIf.cf_names _ _ _ C). exact (B x Hx).
  - split; [exact (WhatIf.cf_fine _ _ _ C' A)|]. split; [|exact (config_fit _ _ _ C' F)].
    intros x Hx. rewrite <- (wo_from _ _ _ W), <- (wo_to _ _ _ W), <- (WhatIf.cf_names _ _ _ C). apply B. now rewrite (WhatIf.cf_lsps _ _ _ C).
Qed.

Lemma validated_grown E k s s1 t r D L : env_ok E -> NoDup (m_ifs s) -> cids_set k s -> ends_agree k s -> m_ifs s1 = m_ifs s -> h_if s1 = h_if s -> h_nd s1 = h_nd s ->
  m_dms s1 = (m_dms s ++ D)%list -> m_lsps s1 = (m_lsps s ++ L)%list -> (forall d, In d (m_dms s) -> h_dm s1 d = h_dm s d) -> (forall l, In l (m_lsps s) -> h_ls s1 l = h_ls s l) ->
  validate_model E k s1 = (t, r) -> grown s t D L.
Proof.
  intros HE N CS EA I1 I2 I3 Dm Lm Dh Lh V.
  assert (N1 : NoDup (m_ifs s1)) by now rewrite I1. assert (CS1 : cids_set k s1) by (intros Hk i; rewrite I1, I2; now apply CS).
  assert (Lo1 : forall i, loc s1 i = loc s i) by (intros i; unfold loc; now rewrite I2, I3). assert (Re1 : forall i, rem s1 i = rem s i) by (intros i; unfold rem; now rewrite I2, I3).
  assert (EA1 : ends_agree k s1). { intros i j. unfold is_reverse. rewrite I1, I2, !Lo1, !Re1. exact (EA i j). }
  assert (CF := validate_agree E k s1 HE N1 CS1 EA1). rewrite V in CF. cbn [fst] in CF.
  assert (Da := CircuitProofs.cf_data _ _ _ CF). rewrite I2 in Da.
  assert (VF := pres_run _ _ _ _ _ (val_frame_validate E k) V). destruct VF as [Vn _ Vd Vl (V1 & V2 & V3 & V4 & V5) _ _ _ _ _ _ _ _].
  assert (Hn : h_nd t = h_nd s) by congruence.
  constructor.
  - intros i. rewrite V1, I1. reflexivity.
  - intros i _. unfold loc, rem. rewrite Hn. destruct (Da i) as (_&->&_&->&->&_&->&_&_&->&_). auto.
  - congruence.
  - congruence.
  - intros d Hd. unfold same_demand, same_ends, dmd_from, dmd_to. rewrite Hn, Vd, (Dh d Hd). auto.
  - intros l Hl. unfold same_metric_read, lsp_from, lsp_to. rewrite Hn, Vl, (Lh l Hl). auto.
Qed.
Lemma add_lsp_grown E k src dst name s t : env_ok E -> allocated s -> with_room k s -> add_rsvp_lsp E k src dst name s = (t, Ok tt) ->
  exists l, ~ In l (m_lsps s) /\ grown s t [] [l] /\ lsp_from t l = src /\ lsp_to t l = dst /\ l_cfg (h_ls t l) = None.
Proof.
  intros HE Al R H. assert (X := add_lsp_exact E k src dst name s t (Ok tt) Al H). cbv zeta in X.
  destruct X as [(e & Y & _)|(_ & _ & _ & _ & l & a & b & Nl & Ml & Ha & Na & Hb & Nb & Hl & Hold)]; [discriminate|]. exists l. split; [exact Nl|].
  assert (Fr := add_lsp_rest E k src dst name s). cbv zeta in Fr. rewrite H in Fr. cbn [fst] in Fr. destruct Fr as (_&_&_&_&Hn&_).
  split; [|unfold lsp_from, lsp_to; rewrite Hl, Hn; auto].
  unfold add_rsvp_lsp, lsp_new, bind, reads, gets, modify, ret, raise in H. destruct (get_node s src) as [a'|e]; [|discriminate]. destruct (get_node s dst) as [b'|e]; [|discriminate].
  match type of H with context [existsb ?f ?x] => destruct (existsb f x) end; [discriminate|].
  assert (Fre : forall x, In x (m_lsps s) -> s_next s <> x). { intros x Hx C. apply alloc_lsps in Hx; auto. lia. }
  refine (validated_grown E k s _ t (Ok tt) [] [l] HE (proj1 (rm_posed _ _ R)) (rm_cids _ _ R) (rm_agree _ _ R) _ _ _ _ _ _ _ H); try reflexivity.
  - simpl. now rewrite app_nil_r.
  - assert (VF := pres_run _ _ _ _ _ (val_frame_validate E k) H). destruct VF as [_ _ _ _ (_ & _ & _ & V4 & _) _ _ _ _ _ _ _ _]. now rewrite <- V4.
  - intros x Hx. simpl. apply fupd_other. auto.
Qed.
Lemma add_demand_grown E k src dst x name s t : env_ok E -> allocated s -> with_room k s -> add_demand E k src dst x name s = (t, Ok tt) ->
  exists d, ~ In d (m_dms s) /\ grown s t [d] [] /\ dmd_from t d = src /\ dmd_to t d = dst /\ d_traffic (h_dm t d) = x.
Proof.
  intros HE Al R H. assert (X := add_demand_exact E k src dst x name s t (Ok tt) Al H). cbv zeta in X.
  destruct X as [(e & Y & _)|(_ & _ & _ & _ & d & a & b & Nd & Md & Ha & Na & Hb & Nb & Hd & Hold)]; [discriminate|]. exists d. split; [exact Nd|].
  assert (Fr := add_demand_rest E k src dst x name s). cbv zeta in Fr. rewrite H in Fr. cbn [fst] in Fr. destruct Fr as (_&_&_&_&Hn&_).
  split; [|unfold dmd_from, dmd_to; rewrite Hd, Hn; auto].
  apply add_demand_run in H as [(e & Y & _)|[(_ & Y & _)|(a' & b' & _ & _ & _ & [(_ & Y & _)|(_ & V)])]]; try discriminate.
  assert (Fre : forall x, In x (m_dms s) -> s_next s <> x). { intros y Hy C. apply alloc_dms in Hy; auto. lia. }
  refine (validated_grown E k s _ t (Ok tt) [d] [] HE (proj1 (rm_posed _ _ R)) (rm_cids _ _ R) (rm_agree _ _ R) _ _ _ _ _ _ _ V); try reflexivity.
  - assert (VF := pres_run _ _ _ _ _ (val_frame_validate E k) V). destruct VF as [_ _ _ _ (_ & _ & V3 & _) _ _ _ _ _ _ _ _]. now rewrite <- V3.
  - simpl. now rewrite app_nil_r.
  - intros y Hy. simpl. apply fupd_other. auto.
Qed.
