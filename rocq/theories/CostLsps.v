(** CostLsps.v - simulations of models with LSPs that differ in costs. *)
From Verif Require Import Base Graph Objects Sim Api Spec SpecCkt SpecSim SpecMetric SpecFlow SpecOrder SpecShort SpecTotal SpecWhatIf SpecSame SpecHist SpecFail SpecMore GraphProofs MonadProofs RoundProofs ResProofs ObjProofs CircuitProofs
  ValidateProofs GroupProofs PathProofs QuietProofs RouteProofs LeastProofs OrderProofs DemandProofs MetricProofs IgpProofs Ecmp TrafficProofs ShareProofs FlowProofs UtilProofs RepairProofs WhatIf WhatIfApi OwnProofs OwnApi SpecSig SigProofs SigSeq SigEnd LspTotal SigTotal LspSucceeds LspExact
  OrderLsps PropertiesApi PropertiesRoute PropertiesTraffic PropertiesSignal MoreLsps AddProofs WhatIfMore ShortLsp SpecExn SpecCost SpecLspCost WhatCost DownLsps.
From Coq Require Import Permutation Lqa.

(** [s] and [t] differ in costs *)
Section Ways.
Variables (s t : st).
Hypothesis W : repriced_lsps s t.
Notation kept i := (i_cost (h_if t i) = i_cost (h_if s i)).
Lemma wi_up i : In i (m_ifs s) -> (rsvp_up t i <-> rsvp_up s i).
Proof. intros Hi. destruct (rq_if _ _ W i Hi) as (_&_&F&R). unfold rsvp_up. now rewrite F, R. Qed.
Lemma wi_from l : In l (m_lsps s) -> lsp_from t l = lsp_from s l. Proof. intros H. apply (rq_ls _ _ W l H). Qed.
Lemma wi_to l : In l (m_lsps s) -> lsp_to t l = lsp_to s l. Proof. intros H. apply (rq_ls _ _ W l H). Qed.
Lemma wi_wanted l : In l (m_lsps s) -> wanted t l (equal_share t l) = wanted s l (equal_share s l).
Proof.
  intros Hl. destruct (rq_ls _ _ W l Hl) as (F & T & Cf & _). unfold wanted. rewrite Cf. destruct (l_cfg (h_ls s l)); [reflexivity|]. unfold equal_share, traffic_of, dmds_of, lsps_of.
  rewrite (rq_dms _ _ W), (rq_lsps _ _ W), F, T.
  rewrite (filter_ext_in (fun d => String.eqb (dmd_from t d) (lsp_from s l) && String.eqb (dmd_to t d) (lsp_to s l)) (fun d => String.eqb (dmd_from s d) (lsp_from s l) && String.eqb (dmd_to s d) (lsp_to s l)))
    by (intros d Hd; destruct (rq_dm _ _ W d Hd) as ((->&->)&_); reflexivity).
  rewrite (filter_ext_in (fun m => String.eqb (lsp_from t m) (lsp_from s l) && String.eqb (lsp_to t m) (lsp_to s l)) (fun m => String.eqb (lsp_from s m) (lsp_from s l) && String.eqb (lsp_to s m) (lsp_to s l)))
    by (intros m Hm; now rewrite (wi_from m Hm), (wi_to m Hm)).
  f_equal. f_equal. apply map_ext_in. intros d Hd. apply filter_In in Hd as [Hd _]. apply (rq_dm _ _ W d Hd).
Qed.
Lemma wi_back u p v : route s (rsvp_up s) u p v -> route t (rsvp_up t) u p v.
Proof.
  induction 1 as [|i p v Hi Ui R IH]; [constructor|]. destruct (rq_if _ _ W i Hi) as (L & Re & _). rewrite <- L. constructor.
  - now apply (rq_ifs _ _ W).
  - now apply wi_up.
  - now rewrite Re.
Qed.
Lemma wi_fore u p v : route t (rsvp_up t) u p v -> route s (rsvp_up s) u p v.
Proof.
  induction 1 as [|i p v Hi Ui R IH]; [constructor|]. apply (rq_ifs _ _ W) in Hi. destruct (rq_if _ _ W i Hi) as (L & Re & _). rewrite L. constructor.
  - exact Hi.
  - now apply wi_up.
  - now rewrite <- Re.
Qed.
Lemma wi_cost p : (forall i, In i p -> kept i) -> route_cost t p = route_cost s p.
Proof. induction p as [|i p IH]; intros F; simpl; [reflexivity|]. rewrite IH by (intros; apply F; now right). f_equal. apply F. now left. Qed.
Hypothesis NC : no_cheaper s t.
Lemma wi_le u p v : route s (rsvp_up s) u p v -> route_cost s p <= route_cost t p.
Proof. induction 1 as [|i p v Hi Ui R IH]; simpl; [lia|]. assert (A := NC i Hi). lia. Qed.
Lemma wi_least_back u p v : least_cost s (rsvp_up s) u p v -> (forall i, In i p -> kept i) -> least_cost t (rsvp_up t) u p v.
Proof.
  intros [A B] F. split; [now apply wi_back|]. intros q Hq. apply wi_fore in Hq. assert (X := B q Hq). assert (Y := wi_le _ _ _ Hq). rewrite (wi_cost p F). lia.
Qed.
Lemma wi_least_fore u p v p0 : least_cost s (rsvp_up s) u p0 v -> (forall i, In i p0 -> kept i) -> least_cost t (rsvp_up t) u p v -> least_cost s (rsvp_up s) u p v.
Proof.
  intros A F [B D]. apply wi_fore in B. split; [exact B|]. intros q Hq. assert (X := D p0 (wi_back _ _ _ (proj1 A))). assert (Y := proj2 A q Hq). assert (Z := wi_le _ _ _ B).
  rewrite (wi_cost p0 F) in X. lia.
Qed.
Lemma wi_best_back l p : In l (m_lsps s) -> best_road s l p -> (forall i, In i p -> kept i) -> best_road t l p.
Proof.
  intros Hl [A B] F. unfold best_road. rewrite (wi_from l Hl), (wi_to l Hl). split; [now apply wi_least_back|]. intros q Hq. apply B. exact (wi_least_fore _ _ _ p A F Hq).
Qed.
Lemma wi_best_fore l p p0 : In l (m_lsps s) -> best_road s l p0 -> (forall i, In i p0 -> kept i) -> best_road t l p -> best_road s l p.
Proof.
  intros Hl A F B. assert (A' := wi_best_back l p0 Hl A F). destruct A as [A1 A2], B as [B1 B2], A' as [A3 A4]. rewrite (wi_from l Hl), (wi_to l Hl) in *. split; [exact (wi_least_fore _ _ _ p0 A1 F B1)|].
  intros q Hq. assert (X := B2 p0 A3). assert (Y := A2 q Hq). lia.
Qed.
End Ways.

Section Up.
Variables (E E' : env) (k : kind).
Hypothesis HE : env_ok E.
Hypothesis HE' : env_ok E'.
Variables s t s' t' : st.
Hypothesis W : repriced_lsps s t.
Hypothesis Rs : with_room k s.
Hypothesis Rt : with_room k t.
Hypothesis Up : update_simulation E k s = (s', Ok tt).
Hypothesis Up' : update_simulation E' k t = (t', Ok tt).
Let WP := rm_posed _ _ Rs. Let EK := rm_known _ _ Rs. Let CS := rm_cids _ _ Rs. Let LU := rm_usual _ _ Rs. Let Am := rm_ample _ _ Rs. Let EA := rm_agree _ _ Rs. Let Off := rm_off _ _ Rs.
Let WPt := rm_posed _ _ Rt. Let EKt := rm_known _ _ Rt. Let CSt := rm_cids _ _ Rt. Let LUt := rm_usual _ _ Rt. Let Amt := rm_ample _ _ Rt. Let EA' := rm_agree _ _ Rt. Let Offt := rm_off _ _ Rt.
Let Fs := fin_fail E k HE s s' WP CS EA Up.
Let Ft := fin_fail E' k HE' t t' WPt CSt EA' Up'.
Let Ls := fin_like E k HE s s' WP EK CS LU Am EA Up.
Let Lt := fin_like E' k HE' t t' WPt EKt CSt LUt Amt EA' Up'.
Let lt l : In l (m_lsps s) -> In l (m_lsps t). Proof. now rewrite (rq_lsps _ _ W). Qed.

Lemma up_road l p : In l (m_lsps s) -> (road t l p <-> road s l p).
Proof. intros Hl. unfold road. rewrite (wi_from _ _ W l Hl), (wi_to _ _ W l Hl). split; [apply (wi_fore _ _ W)|apply (wi_back _ _ W)]. Qed.
Lemma up_routed l : In l (m_lsps s) -> (routed_lsp t' l <-> routed_lsp s' l).
Proof.
  intros Hl. rewrite (fin_routed E k HE s s' WP EK LU Am Up l Hl), (fin_routed E' k HE' t t' WPt EKt LUt Amt Up' l (lt l Hl)). split; intros (p & Hp); exists p; now apply up_road.
Qed.
Lemma up_setup l : In l (m_lsps s) -> same_amount (l_setup (h_ls s' l)) (l_setup (h_ls t' l)).
Proof.
  intros Hl. destruct (fin_setup E k HE s s' WP EK LU Am Up l Hl) as (b & -> & B), (fin_setup E' k HE' t t' WPt EKt LUt Amt Up' l (lt l Hl)) as (b' & -> & B').
  simpl. rewrite B, B', (wi_wanted _ _ W l Hl). reflexivity.
Qed.
Lemma up_res l : In l (m_lsps s) -> same_amount (l_res (h_ls s' l)) (l_res (h_ls t' l)).
Proof.
  intros Hl. destruct (placed E k HE s s' WP LU EK Up l Am Hl) as [(q & b1 & r & Q & B & X & Y)|(Q & X & N)], (placed E' k HE' t t' WPt LUt EKt Up' l Amt (lt l Hl)) as [(q' & b1' & r' & Q' & B' & X' & Y')|(Q' & X' & N')].
  - rewrite X, X'. simpl. rewrite Y, Y', (wi_wanted _ _ W l Hl). reflexivity.
  - destruct (N' q). apply up_road; [exact Hl|]. apply B.
  - destruct (N q'). apply up_road; [exact Hl|]. apply B'.
  - rewrite X, X'. exact I.
Qed.
Lemma up_unrouted d : In d (m_dms s) -> (d_path (h_dm t' d) = DUnrouted <-> d_path (h_dm s' d) = DUnrouted).
Proof.
  intros Hs. assert (Hd : In d (m_dms t)) by now rewrite (rq_dms _ _ W). rewrite (pair_unrouted E k HE s s' Rs Up d Hs), (pair_unrouted E' k HE' t t' Rt Up' d Hd). destruct (rq_dm _ _ W d Hs) as ((F&T)&_). rewrite F, T.
  split; intros N p Hp; apply (N p); [now apply (wi_back _ _ W)|now apply (wi_fore _ _ W)].
Qed.
Lemma up_delivered : (routed_total t' == routed_total s')%Q.
Proof.
  unfold routed_total. destruct (fin_sets E k s s' Up) as (_&_&->&_), (fin_sets E' k t t' Up') as (_&_&->&_). rewrite (rq_dms _ _ W).
  assert (X : forall d, In d (m_dms s) -> (routed_traffic t' d == routed_traffic s' d)%Q).
  { intros d Hd. assert (U := up_unrouted d Hd). unfold routed_traffic. destruct (fin_dm E k s s' Up d) as (_&_&->), (fin_dm E' k t t' Up' d) as (_&_&->).
    destruct (rq_dm _ _ W d Hd) as (_&->). destruct (d_path (h_dm s' d)) as [|ps]; destruct (d_path (h_dm t' d)) as [|qs]; try reflexivity; [discriminate (proj2 U eq_refl)|discriminate (proj1 U eq_refl)]. }
  clear -X. induction (m_dms s) as [|d ds IH]; simpl; [reflexivity|]. rewrite (X d (or_introl eq_refl)), IH; [reflexivity|]. intros e He. apply X. right; auto.
Qed.
Hypothesis NC : no_cheaper s t.
Lemma up_cost l p c b p' c' b' : In l (m_lsps s) -> l_path (h_ls s' l) = PRouted p c b -> l_path (h_ls t' l) = PRouted p' c' b' -> c <= c'.
Proof.
  intros Hl P P'. destruct (placed E k HE s s' WP LU EK Up l Am Hl) as [(q & b1 & r & Q & B & X & Y)|(Q & _)]; [|congruence].
  destruct (placed E' k HE' t t' WPt LUt EKt Up' l Amt (lt l Hl)) as [(q' & b1' & r' & Q' & B' & X' & Y')|(Q' & _)]; [|congruence].
  rewrite P in Q. rewrite P' in Q'. injection Q as -> -> ->. injection Q' as -> -> ->. assert (R' := proj1 (up_road l q' Hl) (proj1 (proj1 B'))). assert (Z := wi_le _ _ NC _ _ _ R'). assert (V := proj2 (proj1 B) q' R'). lia.
Qed.
Lemma up_kept_lsp l p c b : In l (m_lsps s) -> l_path (h_ls s' l) = PRouted p c b -> lsp_unpriced s s' t l ->
  exists q b', l_path (h_ls t' l) = PRouted q c b' /\ best_road t l p /\ (sole_road s l -> q = p).
Proof.
  intros Hl P Sp. destruct (placed E k HE s s' WP LU EK Up l Am Hl) as [(q & b1 & r & Q & B & X & Y)|(Q & _)]; [|congruence]. assert (P0 := P). rewrite P in Q. injection Q as -> -> ->.
  assert (F : forall i, In i q -> i_cost (h_if t i) = i_cost (h_if s i)) by (intros i Hi; exact (Sp _ _ _ i P Hi)). assert (B2 := wi_best_back _ _ W NC l q Hl B F).
  destruct (placed E' k HE' t t' WPt LUt EKt Up' l Amt (lt l Hl)) as [(q' & b1' & r' & Q' & B' & X' & Y')|(_ & _ & N)]; [|destruct (N q); apply B2].
  exists q', b1'. split; [|split].
  - rewrite Q'. f_equal. rewrite <- (wi_cost s t q F). eapply least_unique; [apply B'|apply B2].
  - exact B2.
  - intros So. apply So; [|exact B]. exact (wi_best_fore _ _ W NC l q' q Hl B F B').
Qed.

(** metrics *)
Lemma up_omm l : In l (m_lsps s) -> omm (h_ls t' l) = omm (h_ls s' l) /\ forall e, omm (h_ls s' l) <> Err e.
Proof.
  intros Hl. assert (Ne := usual_omm k s l LU Hl). rewrite (fin_omm E k s s' Up), (fin_omm E' k t t' Up'). split; [|exact Ne]. destruct (rq_ls _ _ W l Hl) as (_&_&_&M). exact (omm_read _ _ Ne M).
Qed.
Lemma up_metric_le l a b : In l (m_lsps s) -> routed_lsp t' l -> metric s' l a -> metric t' l b -> metric_le a b.
Proof.
  intros Hl Rl A B. destruct (up_omm l Hl) as [O Ne]. assert (Ne' := Ne). rewrite <- O in Ne'. apply (metric_omm s' l a Ne) in A. apply (metric_omm t' l b Ne') in B.
  rewrite O in B. destruct (omm (h_ls s' l)) as [[c|]|e]; [subst; simpl; lia| |destruct (Ne e eq_refl)].
  apply (fin_routed E' k HE' t t' WPt EKt LUt Amt Up' l (lt l Hl)) in Rl as (p & Rp).
  destruct (fin_ls E k s s' Up l) as [F1 T1], (fin_ls E' k t t' Up' l) as [F2 T2]. rewrite F1, T1 in A. rewrite F2, T2 in B.
  assert (Sp := proj1 (up_road l p Hl) Rp). unfold road in Rp, Sp.
  destruct b as [b|]; [|destruct (B p); now apply (like_route _ _ _ _ _ _ _ Lt)].
  destruct a as [a|]; [|destruct (A p); now apply (like_route _ _ _ _ _ _ _ Ls)].
  destruct A as (x & Ax & ->), B as (y & By & ->). simpl. apply (like_least _ _ _ _ _ _ _ Ls) in Ax. apply (like_least _ _ _ _ _ _ _ Lt) in By.
  rewrite (like_cost _ _ _ _ _ _ _ Ls (proj1 Ax)), (like_cost _ _ _ _ _ _ _ Lt (proj1 By)).
  rewrite (wi_from _ _ W l Hl), (wi_to _ _ W l Hl) in By. assert (Ry := wi_fore _ _ W _ _ _ (proj1 By)). assert (Z := wi_le _ _ NC _ _ _ Ry). assert (V := proj2 Ax y Ry). lia.
Qed.
Lemma up_metric_eq l a : In l (m_lsps s) -> routed_lsp s' l -> lsp_unpriced s s' t l -> metric s' l a -> metric t' l a.
Proof.
  intros Hl (p & c & b & P) Sp A. destruct (up_omm l Hl) as [O Ne]. assert (Ne' := Ne). rewrite <- O in Ne'. apply (metric_omm s' l a Ne) in A. apply (metric_omm t' l a Ne').
  rewrite O. destruct (omm (h_ls s' l)) as [[z|]|e]; [exact A| |destruct (Ne e eq_refl)].
  destruct (placed E k HE s s' WP LU EK Up l Am Hl) as [(q & b1 & r & Q & B & X & Y)|(Q & _)]; [|congruence]. assert (P0 := P). rewrite P in Q. injection Q as -> -> ->.
  assert (F : forall i, In i q -> i_cost (h_if t i) = i_cost (h_if s i)) by (intros i Hi; exact (Sp _ _ _ i P Hi)). assert (B2 := wi_best_back _ _ W NC l q Hl B F).
  destruct (fin_ls E k s s' Up l) as [F1 T1], (fin_ls E' k t t' Up' l) as [F2 T2]. rewrite F1, T1 in A. rewrite F2, T2.
  destruct a as [a|]; [|destruct (A q); apply (like_route _ _ _ _ _ _ _ Ls); apply B].
  destruct A as (x & Ax & ->). exists q. split; [apply (like_least _ _ _ _ _ _ _ Lt); apply B2|].
  apply (like_least _ _ _ _ _ _ _ Ls) in Ax. rewrite (like_cost _ _ _ _ _ _ _ Ls (proj1 Ax)), (like_cost _ _ _ _ _ _ _ Lt (proj1 (proj1 B2))), (wi_cost s t q F).
  eapply least_unique; [exact Ax|apply B].
Qed.

Section Demand.
Variable d : nat.
Hypothesis Hs : In d (m_dms s).
Let Hd : In d (m_dms t). Proof. now rewrite (rq_dms _ _ W). Qed.
Let De : same_demand s t d := rq_dm _ _ W d Hs.
Lemma up_of l : lsp_of s' d l <-> lsp_of t' d l.
Proof.
  unfold lsp_of. destruct (fin_sets E k s s' Up) as (_&_&_&->), (fin_sets E' k t t' Up') as (_&_&_&->). rewrite (rq_lsps _ _ W).
  destruct (fin_ls E k s s' Up l) as [-> ->], (fin_ls E' k t t' Up' l) as [-> ->]. destruct (fin_dm E k s s' Up d) as (->&->&_), (fin_dm E' k t t' Up' d) as (->&->&_).
  destruct De as ((->&->)&_). split; intros (A & B & D); (split; [exact A|]); rewrite (wi_from _ _ W l A), (wi_to _ _ W l A) in *; auto.
Qed.
Lemma up_in l : lsp_of s' d l -> In l (m_lsps s). Proof. intros H. exact (in_lsp E k s s' Up d l H). Qed.
Hypothesis Sp : demand_unpriced s s' t d.
Lemma up_ridden l : preferred s' d l -> lsp_unpriced s s' t l.
Proof.
  intros Pl p c b i P Hi. assert (H : exists l, lsp_of s' d l /\ routed_lsp s' l) by (destruct Pl as (? & ? & _); eauto).
  destruct (C07_ride E k s s' d HE WP (lu_once _ _ LU) Up Fs Hs H) as (rs & es & _ & _ & X & Y & _). apply X in Pl.
  apply (Sp _ [ILsp l] i Y); [apply in_map_iff; eauto|]. unfold crossings, item_crossings. simpl. rewrite P. assert (Z := proj1 (count_occ_In Nat.eq_dec p i) Hi). lia.
Qed.
Lemma up_preferred l : preferred s' d l <-> preferred t' d l.
Proof.
  split.
  - intros Pl. assert (Sl := up_ridden l Pl). destruct Pl as (A & B & m & M & D). assert (Hl := up_in l A). split; [now apply up_of|]. split; [now apply up_routed|].
    exists m. split; [exact (up_metric_eq l m Hl B Sl M)|]. intros l' A' B'. apply up_of in A'. assert (Hl' := up_in l' A').
    destruct (D l' A' (proj1 (up_routed l' Hl') B')) as (m' & X & Y).
    destruct (routed_has_metric E' k HE' t t' WPt EKt CSt LUt Amt EA' Up' l' (lt l' Hl') B') as (m2 & Z). exists m2. split; [exact Z|]. exact (metric_trans _ _ _ Y (up_metric_le l' m' m2 Hl' B' X Z)).
  - intros (A & B & m & M & D). apply up_of in A. assert (Hl := up_in l A). assert (Bs := proj1 (up_routed l Hl) B).
    destruct (rides_pref k d E s s' HE WP (lu_once _ _ LU) Up Fs Hs (ex_intro _ l (conj A Bs))) as (l0 & P0). assert (S0 := up_ridden l0 P0). destruct P0 as (A0 & B0 & m0 & M0 & D0).
    assert (Hl0 := up_in l0 A0).
    split; [exact A|]. split; [exact Bs|]. destruct (D0 l A Bs) as (ms & Ms & _). exists ms. split; [exact Ms|]. intros l' A' B'. destruct (D0 l' A' B') as (m' & M' & L'). exists m'. split; [exact M'|].
    refine (metric_trans _ _ _ (metric_trans _ _ _ (up_metric_le l ms m Hl B Ms M) _) L').
    destruct (D l0 (proj1 (up_of l0) A0) (proj2 (up_routed l0 Hl0) B0)) as (m1 & M1 & L1). rewrite (metric_unique _ _ _ _ (up_metric_eq l0 m0 Hl0 B0 S0 M0) M1). exact L1.
Qed.
Lemma up_least : no_lsp_for s' d -> forall p, least_cost s (rsvp_up s) (dmd_from s d) p (dmd_to s d) <-> least_cost t (rsvp_up t) (dmd_from t d) p (dmd_to t d).
Proof.
  intros N p. destruct De as ((D1'&D2')&_). rewrite D1', D2'.
  assert (A := C01_igp_paths E k s s' d HE WP Up Fs Hs N (off_s E k s s' Up Off d)). destruct (fin_dm E k s s' Up d) as (D1&D2&_). rewrite D1, D2 in A.
  destruct (d_path (h_dm s' d)) as [|ps] eqn:P.
  - assert (NR := proj1 (pair_unrouted E k HE s s' Rs Up d Hs) P p). split; intros [Z _]; exfalso; apply NR; [exact Z|]. now apply (wi_fore _ _ W).
  - destruct A as (M & -> & Ne & _ & I).
    assert (F : forall q, In q M -> forall i, In i q -> i_cost (h_if t i) = i_cost (h_if s i)).
    { intros q Hq i Hi. apply (Sp _ (if_path q) i P); [now apply in_map|]. now apply in_crossings. }
    assert (J : forall q, In q M <-> least_cost s (rsvp_up s) (dmd_from s d) q (dmd_to s d)) by (intros q; rewrite I; symmetry; apply like_least; exact Ls).
    split; intros Z.
    + apply (wi_least_back _ _ W NC); auto. apply F. now apply J.
    + destruct M as [|q M]; [contradiction|]. apply (wi_least_fore _ _ W NC _ _ _ q); auto; [apply J; left; auto|apply F; left; auto].
Qed.
Lemma up_paths : same_paths (d_path (h_dm s' d)) (d_path (h_dm t' d)).
Proof. exact (pair_paths E E' k HE HE' s t s' t' Rs Rt Up Up' d Hs Hd De up_preferred up_least). Qed.
Lemma up_adds i x y : (forall l, preferred s' d l -> sole_road s l) -> adds k s' d i x -> adds k t' d i y -> (x == y)%Q.
Proof.
  intros So. apply (pair_adds E E' k HE HE' s t s' t' Rs Rt Up Up' d Hs Hd De); auto using up_preferred, up_least.
  - intros j Hj. apply (rq_if _ _ W j Hj).
  - intros l j Pl. assert (Sl := up_ridden l Pl). assert (Hl := up_in l (proj1 Pl)). assert (Pl0 := Pl). destruct Pl as (A & (p & c & b & P) & M).
    destruct (up_kept_lsp l p c b Hl P Sl) as (q & b' & Q & _ & X). unfold crossings, item_crossings. simpl. rewrite P, Q, X; auto.
Qed.
End Demand.

Lemma up_traffic i : In i (m_ifs s) -> (forall d, In d (m_dms s) -> demand_unpriced s s' t d) -> (forall d l, In d (m_dms s) -> preferred s' d l -> sole_road s l) ->
  same_traffic (i_traffic (h_if s' i)) (i_traffic (h_if t' i)).
Proof.
  intros Hi Sp So. assert (Hi' := proj2 (rq_ifs _ _ W i) Hi). assert (A := pair_sum E k HE s s' Rs Up i Hi). assert (B := pair_sum E' k HE' t t' Rt Up' i Hi').
  destruct (rq_if _ _ W i Hi) as (_&_&F&_). rewrite F in B. destruct (i_failed (h_if s i)); [rewrite A, B; exact I|].
  destruct A as (q & f & -> & A1 & A2), B as (r & g & -> & B1 & B2). simpl. rewrite A2, B2, (rq_dms _ _ W). apply sumq_ext. intros d Hd.
  apply (up_adds d Hd (Sp d Hd) i); [intros l; now apply So|now apply A1|apply B1; now rewrite (rq_dms _ _ W)].
Qed.
End Up.

(** ** The cost setter *)
Lemma cost_room i c k s : 1 <= c -> with_room k s -> with_room k (upd_if i (if_cost c) s).
Proof.
  intros Hc R. assert (LU := rm_usual _ _ R). destruct (rm_posed _ _ R) as (N & Co & T). constructor.
  - split; [exact N|]. split; [|exact T]. intros j Hj. rewrite sc_cost. destruct (Nat.eqb j i); [exact Hc|apply Co, Hj].
  - intros j Hj. rewrite sc_loc, sc_rem. exact (rm_known _ _ R j Hj).
  - intros Hk j Hj. rewrite (sc_field i c s i_cid) by reflexivity. exact (rm_cids _ _ R Hk j Hj).
  - constructor.
    + exact (lu_once _ _ LU).
    + rewrite (map_ext _ _ (sc_key i c s)). exact (lu_ifs _ _ LU).
    + exact (lu_traffic _ _ LU).
    + exact (lu_cfg _ _ LU).
    + exact (lu_tenths _ _ LU).
    + intros j Hj. rewrite !(sc_field i c s i_cap), !(sc_field i c s i_pct) by reflexivity. exact (lu_caps _ _ LU j Hj).
    + exact (lu_metric _ _ LU).
    + exact (lu_texts _ _ LU).
  - intros j Hj. rewrite (sc_field i c s i_failed), (sc_field i c s i_rsvp), (sc_field i c s i_cap), (sc_field i c s i_pct) by reflexivity. exact (rm_ample _ _ R j Hj).
  - intros a b Ha Hb X. rewrite !(sc_field i c s i_failed) by reflexivity. apply sc_reverse in X. exact (rm_agree _ _ R a b Ha Hb X).
  - exact (rm_off _ _ R).
Qed.
Section Again.
Variables (E : env) (k : kind) (s s' : st).
Hypothesis HE : env_ok E.
Hypothesis R : with_room k s.
Hypothesis U : update_simulation E k s = (s', Ok tt).
Let Ho : forall o, In o [OpUpdate] -> outage_op s o. Proof. intros o [<-|[]]; exact I. Qed.
Let Es : run_ops E k [OpUpdate] s = s'. Proof. simpl. now rewrite U. Qed.
Let C : same_config k s s'. Proof. rewrite <- Es. exact (config_history E k _ s Ho). Qed.
Let Fa := fin_fail E k HE s s' (rm_posed _ _ R) (rm_cids _ _ R) (rm_agree _ _ R) U.
Lemma again_room : with_room k s'.
Proof.
  apply (wo_room k s s').
  - constructor; [exact C| |].
    + intros i Hi F. rewrite (Fa i Hi). exact F.
    + intros l _. apply read_omm. exact (fin_omm E k s s' U l).
  - intros i j Hi Hj X. rewrite (cf_ifs _ _ _ C) in Hi, Hj. rewrite (Fa i Hi), (Fa j Hj). apply (rm_agree _ _ R i j Hi Hj).
    unfold is_reverse in *. rewrite !(cf_loc _ _ _ C), !(cf_rem _ _ _ C) in X. destruct X as (A & B & D). split; [exact A|]. split; [exact B|]. destruct k; [right|now left].
    destruct D as [D|D]; [discriminate D|]. now rewrite (proj2 (SpecWhatIf.cf_if _ _ _ C i) eq_refl), (proj2 (SpecWhatIf.cf_if _ _ _ C j) eq_refl) in D.
  - exact R.
Qed.
Lemma set_cost_lsps i c : 1 <= c -> exists s1 t1, iface_set_cost i c s' = (s1, Ok tt) /\ update_simulation E k s1 = (t1, Ok tt) /\ with_room k s1 /\ repriced_lsps s s1 /\
  i_cost (h_if s1 i) = c /\ only_cost_of i s s1.
Proof.
  intros Hc. assert (R' := again_room). assert (R1 := cost_room i c k s' Hc R'). exists (upd_if i (if_cost c) s').
  assert (X : exists t1, update_simulation E k (upd_if i (if_cost c) s') = (t1, Ok tt)).
  { apply (succeeds_ample E k _ HE (rm_posed _ _ R1) (rm_known _ _ R1) (rm_cids _ _ R1) (rm_usual _ _ R1) (rm_ample _ _ R1)).
    destruct (proj1 (succeeds_ample E k s HE (rm_posed _ _ R) (rm_known _ _ R) (rm_cids _ _ R) (rm_usual _ _ R) (rm_ample _ _ R)) (ex_intro _ s' U)) as (A & B & D).
    assert (A' := WhatIf.cf_fine _ _ _ C A). assert (D' := sc_fit i c s' k (config_fit _ _ _ C D)). split; [exact A'|]. split; [|exact D'].
    intros x Hx. change (In x (m_lsps s')) in Hx. rewrite (WhatIf.cf_lsps _ _ _ C) in Hx. destruct (fin_ls E k s s' U x) as [F T].
    change (In (lsp_from s' x) (map (nd_name s') (m_nds s')) /\ lsp_from s' x <> lsp_to s' x). rewrite F, T, (WhatIf.cf_names _ _ _ C). exact (B x Hx). }
  destruct X as [t1 U1]. exists t1. split; [unfold iface_set_cost; destruct (Z.ltb_spec c 1); [lia|reflexivity]|]. split; [exact U1|]. split; [exact R1|]. split; [|split].
  - constructor.
    + intros j. change (In j (m_ifs s') <-> In j (m_ifs s)). now rewrite (cf_ifs _ _ _ C).
    + intros j Hj. rewrite sc_loc, sc_rem, (sc_field i c s' i_failed), (sc_field i c s' i_rsvp), (cf_loc _ _ _ C), (cf_rem _ _ _ C), (Fa j Hj) by reflexivity. repeat split. apply (SpecWhatIf.cf_if _ _ _ C j).
    + exact (cf_dms _ _ _ C).
    + intros d _. exact (cf_demand k s s' C d).
    + exact (cf_lsps _ _ _ C).
    + intros l _. destruct (fin_ls E k s s' U l) as [F T]. split; [exact F|]. split; [exact T|]. split; [apply (SpecWhatIf.cf_ls _ _ _ C l)|]. apply read_omm. exact (fin_omm E k s s' U l).
  - rewrite sc_cost, Nat.eqb_refl. reflexivity.
  - intros j Hj Ne. rewrite sc_cost. destruct (Nat.eqb_spec j i); [congruence|]. apply (SpecWhatIf.cf_if _ _ _ C j).
Qed.
End Again.

(** ** One interface cheaper *)
Section Cheaper.
Variables (s t : st).
Hypothesis W : repriced_lsps s t.
Hypothesis ND : NoDup (m_ifs s).
Hypothesis ND' : NoDup (m_ifs t).
Hypothesis Cost : forall i, In i (m_ifs s) -> 1 <= i_cost (h_if s i).
Hypothesis Cost' : forall i, In i (m_ifs t) -> 1 <= i_cost (h_if t i).
Notation RS := (route s (rsvp_up s)).
Notation LS := (least_cost s (rsvp_up s)).
Notation LT := (least_cost t (rsvp_up t)).
Lemma low_least u v i p1 : only_cost_of i s t -> i_cost (h_if t i) <= i_cost (h_if s i) -> LS u p1 v -> (forall p, LS u p v -> In i p) ->
  (forall q, LT u q v -> LS u q v) /\ (forall q, LS u q v -> route_cost t q = route_cost s q - (i_cost (h_if s i) - i_cost (h_if t i))) /\ ((exists q, LT u q v) -> forall q, LS u q v -> LT u q v).
Proof.
  intros O C L1 H.
  assert (NDt : forall q, LT u q v -> NoDup q) by (intros q Q; refine (least_nodup t (rsvp_up t) _ u q v Q); exact Cost').
  assert (NDs : forall q, LS u q v -> NoDup q) by (intros q Q; refine (least_nodup s (rsvp_up s) _ u q v Q); exact Cost).
  assert (Pr : forall q, RS u q v -> route_cost t q = route_cost s q - (i_cost (h_if s i) - i_cost (h_if t i)) * times i q).
  { intros q Q. apply price_one; [exact O|]. intros j Hj. exact (proj1 (route_all _ _ _ _ _ j Q Hj)). }
  assert (One : forall q, LS u q v -> times i q = 1) by (intros q Q; apply times_once; [exact (NDs q Q)|exact (H q Q)]).
  assert (Y : forall q, LT u q v -> LS u q v).
  { intros q Q. assert (Rq := wi_fore _ _ W _ _ _ (proj1 Q)). split; [exact Rq|]. intros r Rr. assert (A := proj2 Q p1 (wi_back _ _ W _ _ _ (proj1 L1))). assert (B := proj2 L1 r Rr).
    rewrite (Pr q Rq), (Pr p1 (proj1 L1)), (One p1 L1) in A. assert (D := times_le i q (NDt q Q)). nia. }
  split; [exact Y|]. split; [intros q Q; rewrite (Pr q (proj1 Q)), (One q Q); lia|]. intros [q Q] p Lp. assert (Lq := Y q Q). split; [apply (wi_back _ _ W), Lp|]. intros r Rr. assert (A := proj2 Q r Rr).
  assert (B := proj2 Lp q (proj1 Lq)). rewrite (Pr p (proj1 Lp)), (One p Lp). rewrite (Pr q (proj1 Lq)), (One q Lq) in A. lia.
Qed.
End Cheaper.
Lemma low_lsp E E' k s t s' t' l p c b i : env_ok E -> env_ok E' -> with_room k s -> with_room k t -> repriced_lsps s t -> only_cost_of i s t -> i_cost (h_if t i) <= i_cost (h_if s i) ->
  update_simulation E k s = (s', Ok tt) -> update_simulation E' k t = (t', Ok tt) -> In l (m_lsps s) -> l_path (h_ls s' l) = PRouted p c b -> on_every_road s l i ->
  exists q b', l_path (h_ls t' l) = PRouted q (c - (i_cost (h_if s i) - i_cost (h_if t i))) b' /\ best_road s l q /\ (sole_road s l -> q = p).
Proof.
  intros HE HE' Rs Rt W O C U U' Hl P H. assert (Hl' : In l (m_lsps t)) by now rewrite (rq_lsps _ _ W).
  destruct (placed E k HE s s' (rm_posed _ _ Rs) (rm_usual _ _ Rs) (rm_known _ _ Rs) U l (rm_ample _ _ Rs) Hl) as [(q & b1 & r & Q & B & X & Y)|(Q & _)]; [|congruence]. rewrite P in Q. injection Q as -> -> ->.
  destruct (placed E' k HE' t t' (rm_posed _ _ Rt) (rm_usual _ _ Rt) (rm_known _ _ Rt) U' l (rm_ample _ _ Rt) Hl') as [(q' & b1' & r' & Q' & B' & X' & Y')|(_ & _ & N)].
  2: { destruct (N q). apply (up_road s t W l q Hl). apply B. }
  destruct B' as [B1 B2]. rewrite (wi_from _ _ W l Hl), (wi_to _ _ W l Hl) in B1, B2.
  destruct (low_least s t W (proj1 (proj2 (rm_posed _ _ Rs))) (proj1 (proj2 (rm_posed _ _ Rt))) _ _ i q O C (proj1 B) H) as (D1 & D2 & D3). specialize (D3 (ex_intro _ q' B1)).
  assert (Bq : best_road s l q') by (split; [exact (D1 q' B1)|intros z Hz; exact (B2 z (D3 z Hz))]).
  exists q', b1'. split; [|split; [exact Bq|]].
  - rewrite Q'. f_equal. rewrite (D2 q' (D1 q' B1)). f_equal. eapply least_unique; [exact (D1 q' B1)|apply B].
  - intros So. exact (So _ _ Bq B).
Qed.

(** What demands cross *)
Lemma crossed_in E k : env_ok E -> forall s s', with_room k s -> update_simulation E k s = (s', Ok tt) ->
  forall d ps p i, In d (m_dms s) -> d_path (h_dm s' d) = DPaths ps -> In p ps -> (0 < crossings s' i p)%nat -> In i (m_ifs s).
Proof.
  intros HE s s' R U d ps p i Hd P Hp Hi. assert (WP := rm_posed _ _ R). assert (LU := rm_usual _ _ R). assert (Fs := fin_fail E k HE s s' WP (rm_cids _ _ R) (rm_agree _ _ R) U).
  assert (Ls := fin_like E k HE s s' WP (rm_known _ _ R) (rm_cids _ _ R) LU (rm_ample _ _ R) (rm_agree _ _ R) U).
  destruct (routed_or E k HE s s' WP (rm_known _ _ R) LU (rm_ample _ _ R) U d) as [H|Z].
  - destruct (C07_ride E k s s' d HE WP (lu_once _ _ LU) U Fs Hd H) as (rs & es & _ & _ & X & Y & _). rewrite P in Y. injection Y as ->. apply in_map_iff in Hp as (l & <- & Hl). apply X in Hl.
    assert (Il := in_lsp E k s s' U d l (proj1 Hl)). destruct Hl as (_ & (q & c & b & Q) & _). rewrite (crossings_lsp _ _ _ _ _ _ Q) in Hi. apply (count_occ_In Nat.eq_dec) in Hi.
    destruct (placed E k HE s s' WP LU (rm_known _ _ R) U l (rm_ample _ _ R) Il) as [(q1 & b1 & r & Q1 & B & _)|(Q1 & _)]; [|congruence]. rewrite Q in Q1. injection Q1 as -> _ _. exact (proj1 (route_all _ _ _ _ _ i (proj1 (proj1 B)) Hi)).
  - assert (A := C01_igp_paths E k s s' d HE WP U Fs Hd Z (off_s E k s s' U (rm_off _ _ R) d)). rewrite P in A. destruct A as (M & -> & _ & _ & I). apply in_map_iff in Hp as (q & <- & Hq). apply I in Hq.
    apply (like_least _ _ _ _ _ _ _ Ls) in Hq. rewrite crossings_occ in Hi. apply (count_occ_In Nat.eq_dec) in Hi. exact (proj1 (route_all _ _ _ _ _ i (proj1 Hq) Hi)).
Qed.
