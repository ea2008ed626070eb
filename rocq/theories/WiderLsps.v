(** WiderLsps.v - simulations of models with LSPs and added links. *)
From Verif Require Import Base Graph Objects Sim Api Spec SpecCkt SpecSim SpecMetric SpecFlow SpecOrder SpecShort SpecTotal SpecWhatIf SpecSame SpecHist SpecFail SpecMore GraphProofs MonadProofs RoundProofs ResProofs ObjProofs CircuitProofs
  ValidateProofs GroupProofs PathProofs QuietProofs RouteProofs LeastProofs OrderProofs DemandProofs MetricProofs IgpProofs Ecmp TrafficProofs ShareProofs FlowProofs UtilProofs RepairProofs WhatIf WhatIfApi OwnProofs OwnApi SpecSig SigProofs SigSeq SigEnd LspTotal SigTotal LspSucceeds LspExact
  OrderLsps PropertiesApi PropertiesRoute PropertiesTraffic PropertiesSignal MoreLsps AddProofs WhatIfMore ShortLsp SpecExn SpecWider.
From Coq Require Import Permutation Lqa.

(** [t] the smaller, [s] the larger model *)
Section Ways.
Variables (t s : st).
Hypothesis W : wider_lsps t s.
Lemma wi_up i : In i (m_ifs t) -> (rsvp_up t i <-> rsvp_up s i).
Proof. intros Hi. destruct (wl_if _ _ W i Hi) as (_&_&_&F&R). unfold rsvp_up. now rewrite F, R. Qed.
Lemma wi_from l : In l (m_lsps t) -> lsp_from s l = lsp_from t l. Proof. intros H. apply (wl_ls _ _ W l H). Qed.
Lemma wi_to l : In l (m_lsps t) -> lsp_to s l = lsp_to t l. Proof. intros H. apply (wl_ls _ _ W l H). Qed.
Lemma wi_wanted l : In l (m_lsps t) -> wanted s l (equal_share s l) = wanted t l (equal_share t l).
Proof.
  intros Hl. destruct (wl_ls _ _ W l Hl) as (F & T & Cf & _). unfold wanted. rewrite Cf. destruct (l_cfg (h_ls t l)); [reflexivity|]. unfold equal_share, traffic_of, dmds_of, lsps_of.
  rewrite (wl_dms _ _ W), (wl_lsps _ _ W), F, T.
  rewrite (filter_ext_in (fun d => String.eqb (dmd_from s d) (lsp_from t l) && String.eqb (dmd_to s d) (lsp_to t l)) (fun d => String.eqb (dmd_from t d) (lsp_from t l) && String.eqb (dmd_to t d) (lsp_to t l)))
    by (intros d Hd; destruct (wl_dm _ _ W d Hd) as ((->&->)&_); reflexivity).
  rewrite (filter_ext_in (fun m => String.eqb (lsp_from s m) (lsp_from t l) && String.eqb (lsp_to s m) (lsp_to t l)) (fun m => String.eqb (lsp_from t m) (lsp_from t l) && String.eqb (lsp_to t m) (lsp_to t l)))
    by (intros m Hm; now rewrite (wi_from m Hm), (wi_to m Hm)).
  f_equal. f_equal. apply map_ext_in. intros d Hd. apply filter_In in Hd as [Hd _]. apply (wl_dm _ _ W d Hd).
Qed.
Lemma wi_fore u p v : route t (rsvp_up t) u p v -> route s (rsvp_up s) u p v.
Proof.
  induction 1 as [|i p v Hi Ui R IH]; [constructor|]. destruct (wl_if _ _ W i Hi) as (L & Re & _). rewrite <- L. constructor.
  - now apply (wl_ifs _ _ W).
  - now apply wi_up.
  - now rewrite Re.
Qed.
Lemma wi_back u p v : route s (rsvp_up s) u p v -> (forall i, In i p -> In i (m_ifs t)) -> route t (rsvp_up t) u p v.
Proof.
  induction 1 as [|i p v Hi Ui R IH]; intros F; [constructor|]. assert (Ht := F i (or_introl eq_refl)). destruct (wl_if _ _ W i Ht) as (L & Re & _). rewrite L. constructor.
  - exact Ht.
  - now apply wi_up.
  - rewrite <- Re. apply IH. intros j Hj. apply F. now right.
Qed.
Lemma wi_in u p v : route t (rsvp_up t) u p v -> forall i, In i p -> In i (m_ifs t).
Proof. intros R i Hi. exact (proj1 (route_all _ _ _ _ _ i R Hi)). Qed.
Lemma wi_cost p : (forall i, In i p -> In i (m_ifs t)) -> route_cost s p = route_cost t p.
Proof. induction p as [|i p IH]; intros F; simpl; [reflexivity|]. rewrite IH by (intros; apply F; now right). f_equal. apply (wl_if _ _ W i). apply F. now left. Qed.
Lemma wi_least_back u p v : least_cost s (rsvp_up s) u p v -> (forall i, In i p -> In i (m_ifs t)) -> least_cost t (rsvp_up t) u p v.
Proof.
  intros [A B] F. split; [now apply wi_back|]. intros q Hq. assert (X := B q (wi_fore _ _ _ Hq)). rewrite (wi_cost p F), (wi_cost q (wi_in _ _ _ Hq)) in X. exact X.
Qed.
Lemma wi_least_fore u p v p0 : least_cost s (rsvp_up s) u p0 v -> (forall i, In i p0 -> In i (m_ifs t)) -> least_cost t (rsvp_up t) u p v -> least_cost s (rsvp_up s) u p v.
Proof.
  intros A F [B D]. split; [now apply wi_fore|]. intros q Hq. assert (X := D p0 (wi_back _ _ _ (proj1 A) F)). assert (Y := proj2 A q Hq).
  rewrite (wi_cost p (wi_in _ _ _ B)). rewrite (wi_cost p0 F) in Y. lia.
Qed.
Lemma wi_best_back l p : In l (m_lsps t) -> best_road s l p -> (forall i, In i p -> In i (m_ifs t)) -> best_road t l p.
Proof.
  intros Hl [A B] F. rewrite (wi_from l Hl), (wi_to l Hl) in *. split; [now apply wi_least_back|]. intros q Hq. apply B. exact (wi_least_fore _ _ _ p A F Hq).
Qed.
Lemma wi_best_fore l p p0 : In l (m_lsps t) -> best_road s l p0 -> (forall i, In i p0 -> In i (m_ifs t)) -> best_road t l p -> best_road s l p.
Proof.
  intros Hl A F B. assert (A' := wi_best_back l p0 Hl A F). destruct A as [A1 A2], B as [B1 B2]. unfold best_road. rewrite (wi_from l Hl), (wi_to l Hl) in *. split; [exact (wi_least_fore _ _ _ p0 A1 F B1)|].
  intros q Hq. assert (X := B2 p0 (proj1 A')). assert (Y := A2 q Hq). lia.
Qed.
End Ways.

Section Up.
Variables (E E' : env) (k : kind).
Hypothesis HE : env_ok E.
Hypothesis HE' : env_ok E'.
Variables t s t' s' : st.
Hypothesis W : wider_lsps t s.
Hypothesis Rs : with_room k s.
Hypothesis Rt : with_room k t.
Hypothesis Up : update_simulation E k s = (s', Ok tt).
Hypothesis Up' : update_simulation E' k t = (t', Ok tt).
Let WP := rm_posed _ _ Rs. Let EK := rm_known _ _ Rs. Let CS := rm_cids _ _ Rs. Let LU := rm_usual _ _ Rs. Let Am := rm_ample _ _ Rs. Let EA := rm_agree _ _ Rs. Let Off := rm_off _ _ Rs.
Let WPt := rm_posed _ _ Rt. Let EKt := rm_known _ _ Rt. Let CSt := rm_cids _ _ Rt. Let LUt := rm_usual _ _ Rt. Let Amt := rm_ample _ _ Rt. Let EA' := rm_agree _ _ Rt. Let Offt := rm_off _ _ Rt.
Let Fs := fin_fail E k HE s s' WP CS EA Up.
Let Ft := fin_fail E' k HE' t t' WPt CSt EA' Up'.
Let Ls := fin_like E k HE s s' WP EK CS LU Am EA Up.
Let Lt := fin_like E' k HE' t t' WPt EKt CSt LUt Amt EA' Up'.
Let ls l : In l (m_lsps t) -> In l (m_lsps s). Proof. now rewrite (wl_lsps _ _ W). Qed.

Lemma up_road l p : In l (m_lsps t) -> road t l p -> road s l p.
Proof. intros Hl. unfold road. rewrite (wi_from _ _ W l Hl), (wi_to _ _ W l Hl). apply (wi_fore _ _ W). Qed.
Lemma up_routed l : In l (m_lsps t) -> routed_lsp t' l -> routed_lsp s' l.
Proof.
  intros Hl. rewrite (fin_routed E k HE s s' WP EK LU Am Up l (ls l Hl)), (fin_routed E' k HE' t t' WPt EKt LUt Amt Up' l Hl). intros (p & Hp). exists p. now apply up_road.
Qed.
Lemma up_cost l p c b p' c' b' : In l (m_lsps t) -> l_path (h_ls s' l) = PRouted p c b -> l_path (h_ls t' l) = PRouted p' c' b' -> c <= c' /\ same_amount (l_res (h_ls t' l)) (l_res (h_ls s' l)).
Proof.
  intros Hl P P'. destruct (placed E k HE s s' WP LU EK Up l Am (ls l Hl)) as [(q & b1 & r & Q & B & X & Y)|(Q & _)]; [|congruence].
  destruct (placed E' k HE' t t' WPt LUt EKt Up' l Amt Hl) as [(q' & b1' & r' & Q' & B' & X' & Y')|(Q' & _)]; [|congruence].
  rewrite P in Q. rewrite P' in Q'. injection Q as -> -> ->. injection Q' as -> -> ->. split.
  - assert (R' := proj1 (proj1 B')). rewrite <- (wi_cost _ _ W q' (wi_in t _ _ _ R')). apply (proj1 B). now apply up_road.
  - rewrite X, X'. simpl. rewrite Y, Y', (wi_wanted _ _ W l Hl). reflexivity.
Qed.
Lemma up_setup l : In l (m_lsps t) -> same_amount (l_setup (h_ls t' l)) (l_setup (h_ls s' l)).
Proof.
  intros Hl. destruct (fin_setup E k HE s s' WP EK LU Am Up l (ls l Hl)) as (b & -> & B), (fin_setup E' k HE' t t' WPt EKt LUt Amt Up' l Hl) as (b' & -> & B').
  simpl. rewrite B, B', (wi_wanted _ _ W l Hl). reflexivity.
Qed.
Lemma up_kept_lsp l p c b : In l (m_lsps t) -> l_path (h_ls s' l) = PRouted p c b -> lsp_keeps t s' l ->
  exists q b', l_path (h_ls t' l) = PRouted q c b' /\ same_amount (l_res (h_ls t' l)) (l_res (h_ls s' l)) /\ best_road t l p /\ (sole_road t l -> q = p).
Proof.
  intros Hl P Sp. destruct (placed E k HE s s' WP LU EK Up l Am (ls l Hl)) as [(q & b1 & r & Q & B & X & Y)|(Q & _)]; [|congruence]. assert (P0 := P). rewrite P in Q. injection Q as -> -> ->.
  assert (F : forall i, In i q -> In i (m_ifs t)) by (intros i Hi; exact (Sp _ _ _ i P Hi)). assert (B2 := wi_best_back _ _ W l q Hl B F).
  destruct (placed E' k HE' t t' WPt LUt EKt Up' l Amt Hl) as [(q' & b1' & r' & Q' & B' & X' & Y')|(_ & _ & N)]; [|destruct (N q); apply B2].
  exists q', b1'. split; [|split; [|split]].
  - rewrite Q'. f_equal. rewrite (wi_cost _ _ W q F). eapply least_unique; [apply B'|apply B2].
  - rewrite X, X'. simpl. rewrite Y, Y', (wi_wanted _ _ W l Hl). reflexivity.
  - exact B2.
  - intros So. apply So; auto.
Qed.

(** metrics *)
Lemma up_omm l : In l (m_lsps t) -> omm (h_ls s' l) = omm (h_ls t' l) /\ forall e, omm (h_ls t' l) <> Err e.
Proof.
  intros Hl. assert (Ne := usual_omm k t l LUt Hl). rewrite (fin_omm E k s s' Up), (fin_omm E' k t t' Up'). split; [|exact Ne]. destruct (wl_ls _ _ W l Hl) as (_&_&_&M). exact (omm_read _ _ Ne M).
Qed.
Lemma up_metric_le l a b : In l (m_lsps t) -> routed_lsp t' l -> metric s' l a -> metric t' l b -> metric_le a b.
Proof.
  intros Hl Rl A B. destruct (up_omm l Hl) as [O Ne]. assert (Ne' := Ne). rewrite <- O in Ne'. apply (metric_omm s' l a Ne') in A. apply (metric_omm t' l b Ne) in B.
  rewrite <- O in B. destruct (omm (h_ls s' l)) as [[c|]|e]; [subst; simpl; lia| |destruct (Ne' e eq_refl)].
  apply (fin_routed E' k HE' t t' WPt EKt LUt Amt Up' l Hl) in Rl as (p & Rp).
  destruct (fin_ls E k s s' Up l) as [F1 T1], (fin_ls E' k t t' Up' l) as [F2 T2]. rewrite F1, T1 in A. rewrite F2, T2 in B.
  assert (Sp := up_road l p Hl Rp). unfold road in Rp, Sp.
  destruct b as [b|]; [|destruct (B p); now apply (like_route _ _ _ _ _ _ _ Lt)].
  destruct a as [a|]; [|destruct (A p); now apply (like_route _ _ _ _ _ _ _ Ls)].
  destruct A as (x & Ax & ->), B as (y & By & ->). simpl. apply (like_least _ _ _ _ _ _ _ Ls) in Ax. apply (like_least _ _ _ _ _ _ _ Lt) in By.
  rewrite (like_cost _ _ _ _ _ _ _ Ls (proj1 Ax)), (like_cost _ _ _ _ _ _ _ Lt (proj1 By)). rewrite <- (wi_cost _ _ W y (wi_in t _ _ _ (proj1 By))).
  apply Ax. rewrite (wi_from _ _ W l Hl), (wi_to _ _ W l Hl). apply (wi_fore _ _ W). apply By.
Qed.
Lemma up_metric_eq l a : In l (m_lsps t) -> routed_lsp s' l -> lsp_keeps t s' l -> metric s' l a -> metric t' l a.
Proof.
  intros Hl (p & c & b & P) Sp A. destruct (up_omm l Hl) as [O Ne]. assert (Ne' := Ne). rewrite <- O in Ne'. apply (metric_omm s' l a Ne') in A. apply (metric_omm t' l a Ne).
  rewrite <- O. destruct (omm (h_ls s' l)) as [[z|]|e]; [exact A| |destruct (Ne' e eq_refl)].
  destruct (placed E k HE s s' WP LU EK Up l Am (ls l Hl)) as [(q & b1 & r & Q & B & X & Y)|(Q & _)]; [|congruence]. assert (P0 := P). rewrite P in Q. injection Q as -> -> ->.
  assert (F : forall i, In i q -> In i (m_ifs t)) by (intros i Hi; exact (Sp _ _ _ i P Hi)). assert (B2 := wi_best_back _ _ W l q Hl B F).
  destruct (fin_ls E k s s' Up l) as [F1 T1], (fin_ls E' k t t' Up' l) as [F2 T2]. rewrite F1, T1 in A. rewrite F2, T2.
  destruct a as [a|]; [|destruct (A q); apply (like_route _ _ _ _ _ _ _ Ls); apply B].
  destruct A as (x & Ax & ->). exists q. split; [apply (like_least _ _ _ _ _ _ _ Lt); apply B2|].
  apply (like_least _ _ _ _ _ _ _ Ls) in Ax. rewrite (like_cost _ _ _ _ _ _ _ Ls (proj1 Ax)), (like_cost _ _ _ _ _ _ _ Lt (proj1 (proj1 B2))), <- (wi_cost _ _ W q F).
  eapply least_unique; [exact Ax|apply B].
Qed.

Section Demand.
Variable d : nat.
Hypothesis Hd : In d (m_dms t).
Let Hs : In d (m_dms s). Proof. now rewrite (wl_dms _ _ W). Qed.
Let De : same_demand t s d := wl_dm _ _ W d Hd.
Lemma up_of l : lsp_of s' d l <-> lsp_of t' d l.
Proof.
  unfold lsp_of. destruct (fin_sets E k s s' Up) as (_&_&_&->), (fin_sets E' k t t' Up') as (_&_&_&->). rewrite (wl_lsps _ _ W).
  destruct (fin_ls E k s s' Up l) as [-> ->], (fin_ls E' k t t' Up' l) as [-> ->]. destruct (fin_dm E k s s' Up d) as (->&->&_), (fin_dm E' k t t' Up' d) as (->&->&_).
  destruct De as ((->&->)&_). split; intros (A & B & D); (split; [exact A|]); rewrite (wi_from _ _ W l A), (wi_to _ _ W l A) in *; auto.
Qed.
Lemma up_in l : lsp_of s' d l -> In l (m_lsps t). Proof. intros H. apply up_of in H. exact (in_lsp E' k t t' Up' d l H). Qed.
Lemma up_unrouted : d_path (h_dm s' d) = DUnrouted -> d_path (h_dm t' d) = DUnrouted.
Proof.
  rewrite (pair_unrouted E k HE s s' Rs Up d Hs), (pair_unrouted E' k HE' t t' Rt Up' d Hd). intros N p Hp. destruct De as ((F&T)&_). rewrite F, T in N. apply (N p). now apply (wi_fore _ _ W).
Qed.
Hypothesis Sp : demand_keeps t s' d.
Lemma up_ridden l : preferred s' d l -> lsp_keeps t s' l.
Proof.
  intros Pl p c b i P Hi. assert (H : exists l, lsp_of s' d l /\ routed_lsp s' l) by (destruct Pl as (? & ? & _); eauto).
  destruct (C07_ride E k s s' d HE WP (lu_once _ _ LU) Up Fs Hs H) as (rs & es & _ & _ & X & Y & _). apply X in Pl.
  apply (Sp _ [ILsp l] i Y); [apply in_map_iff; eauto|]. unfold crossings, item_crossings. simpl. rewrite P. assert (Z := proj1 (count_occ_In Nat.eq_dec p i) Hi). lia.
Qed.
Lemma up_preferred l : preferred t' d l <-> preferred s' d l.
Proof.
  symmetry. split.
  - intros Pl. assert (Sl := up_ridden l Pl). destruct Pl as (A & B & m & M & D). assert (Hl := up_in l A). split; [now apply up_of|]. split.
    + destruct B as (p & c & b & P). destruct (up_kept_lsp l p c b Hl P Sl) as (q & b' & Q & _). unfold routed_lsp. eauto.
    + exists m. split; [exact (up_metric_eq l m Hl B Sl M)|]. intros l' A' B'. apply up_of in A'. assert (Hl' := up_in l' A').
      destruct (D l' A' (up_routed l' Hl' B')) as (m' & X & Y).
      destruct (routed_has_metric E' k HE' t t' WPt EKt CSt LUt Amt EA' Up' l' Hl' B') as (m2 & Z). exists m2. split; [exact Z|]. exact (metric_trans _ _ _ Y (up_metric_le l' m' m2 Hl' B' X Z)).
  - intros (A & B & m & M & D). apply up_of in A. assert (Hl := up_in l A). assert (Bs := up_routed l Hl B).
    destruct (rides_pref k d E s s' HE WP (lu_once _ _ LU) Up Fs Hs (ex_intro _ l (conj A Bs))) as (l0 & P0). assert (S0 := up_ridden l0 P0). destruct P0 as (A0 & B0 & m0 & M0 & D0).
    assert (Hl0 := up_in l0 A0).
    split; [exact A|]. split; [exact Bs|]. destruct (D0 l A Bs) as (ms & Ms & _). exists ms. split; [exact Ms|]. intros l' A' B'. destruct (D0 l' A' B') as (m' & M' & L'). exists m'. split; [exact M'|].
    refine (metric_trans _ _ _ (metric_trans _ _ _ (up_metric_le l ms m Hl B Ms M) _) L').
    assert (R0 : routed_lsp t' l0). { destruct B0 as (p & c & b & P). destruct (up_kept_lsp l0 p c b Hl0 P S0) as (q & b' & Q & _). unfold routed_lsp. eauto. }
    destruct (D l0 (proj1 (up_of l0) A0) R0) as (m1 & M1 & L1). rewrite (metric_unique _ _ _ _ (up_metric_eq l0 m0 Hl0 B0 S0 M0) M1). exact L1.
Qed.
Lemma up_none : no_lsp_for t' d -> no_lsp_for s' d.
Proof.
  intros N. destruct (routed_or E k HE s s' WP EK LU Am Up d) as [H|X]; [exfalso|exact X].
  destruct (rides_pref k d E s s' HE WP (lu_once _ _ LU) Up Fs Hs H) as (l & Pl). apply up_preferred in Pl as (A & (p & c & b & P) & _). assert (Z := N l A). congruence.
Qed.
Lemma up_least : no_lsp_for t' d -> forall p, least_cost t (rsvp_up t) (dmd_from t d) p (dmd_to t d) <-> least_cost s (rsvp_up s) (dmd_from s d) p (dmd_to s d).
Proof.
  intros N0 p. assert (N := up_none N0). symmetry. destruct De as ((D1'&D2')&_).
  assert (A := C01_igp_paths E k s s' d HE WP Up Fs Hs N (off_s E k s s' Up Off d)). destruct (fin_dm E k s s' Up d) as (D1&D2&_). rewrite D1, D2 in A.
  destruct (d_path (h_dm s' d)) as [|ps] eqn:P.
  - assert (NR := proj1 (pair_unrouted E k HE s s' Rs Up d Hs) P p). split; intros [Z _]; exfalso; apply NR; [exact Z|]. rewrite D1', D2'. now apply (wi_fore _ _ W).
  - destruct A as (M & -> & Ne & _ & I).
    assert (F : forall q, In q M -> forall i, In i q -> In i (m_ifs t)).
    { intros q Hq i Hi. apply (Sp _ (if_path q) i P); [now apply in_map|]. now apply in_crossings. }
    assert (J : forall q, In q M <-> least_cost s (rsvp_up s) (dmd_from s d) q (dmd_to s d)) by (intros q; rewrite I; symmetry; apply like_least; exact Ls).
    rewrite D1', D2' in J. rewrite D1', D2'. split; intros Z.
    + apply (wi_least_back _ _ W); auto. apply F. now apply J.
    + destruct M as [|q M]; [contradiction|]. apply (wi_least_fore _ _ W _ _ _ q); auto; [apply J; left; auto|apply F; left; auto].
Qed.
Lemma up_paths : same_paths (d_path (h_dm t' d)) (d_path (h_dm s' d)).
Proof. exact (pair_paths E' E k HE' HE t s t' s' Rt Rs Up' Up d Hd Hs De up_preferred up_least). Qed.
Lemma up_adds i x y : (forall l, preferred t' d l -> sole_road t l) -> adds k t' d i x -> adds k s' d i y -> (x == y)%Q.
Proof.
  intros So. apply (pair_adds E' E k HE' HE t s t' s' Rt Rs Up' Up d Hd Hs De); auto using up_preferred, up_least.
  - intros j Hj. apply (wl_if _ _ W j Hj).
  - intros l j Pt. assert (Pl := proj1 (up_preferred l) Pt). assert (Sl := up_ridden l Pl). assert (Hl := up_in l (proj1 Pl)). destruct Pl as (A & (p & c & b & P) & M).
    destruct (up_kept_lsp l p c b Hl P Sl) as (q & b' & Q & _ & _ & X). unfold crossings, item_crossings. simpl. rewrite P, Q, X; auto.
Qed.
End Demand.

Lemma up_delivered : (routed_total t' <= routed_total s')%Q.
Proof.
  unfold routed_total. destruct (fin_sets E k s s' Up) as (_&_&->&_), (fin_sets E' k t t' Up') as (_&_&->&_). rewrite (wl_dms _ _ W).
  assert (X : forall d, In d (m_dms t) -> (routed_traffic t' d <= routed_traffic s' d)%Q).
  { intros d Hd. assert (U := up_unrouted d Hd). assert (T := lu_traffic _ _ LUt d Hd). unfold routed_traffic. destruct (fin_dm E k s s' Up d) as (_&_&->), (fin_dm E' k t t' Up' d) as (_&_&->).
    destruct (wl_dm _ _ W d Hd) as (_&->). destruct (d_path (h_dm s' d)) as [|ps]; [rewrite U; [apply Qle_refl|reflexivity]|]. destruct (d_path (h_dm t' d)); [exact T|apply Qle_refl]. }
  clear -X. induction (m_dms t) as [|d ds IH]; simpl; [apply Qle_refl|]. apply Qplus_le_compat; [apply X; left; auto|]. apply IH. intros e He. apply X. right; auto.
Qed.
Lemma up_traffic i : In i (m_ifs t) -> (forall d, In d (m_dms t) -> demand_keeps t s' d) -> (forall d l, In d (m_dms t) -> preferred t' d l -> sole_road t l) ->
  same_traffic (i_traffic (h_if t' i)) (i_traffic (h_if s' i)).
Proof.
  intros Hi Sp So. assert (Hi' := wl_ifs _ _ W i Hi). assert (A := pair_sum E k HE s s' Rs Up i Hi'). assert (B := pair_sum E' k HE' t t' Rt Up' i Hi).
  destruct (wl_if _ _ W i Hi) as (_&_&_&F&_). rewrite F in A. destruct (i_failed (h_if t i)); [rewrite A, B; exact I|].
  destruct A as (q & f & -> & A1 & A2), B as (r & g & -> & B1 & B2). simpl. rewrite A2, B2, (wl_dms _ _ W). apply sumq_ext. intros d Hd.
  apply (up_adds d Hd (Sp d Hd) i); [intros l; now apply So|now apply B1|apply A1; now rewrite (wl_dms _ _ W)].
Qed.

(** What puts nothing on new interfaces *)
Lemma up_puts_none d i x : In d (m_dms t) -> demand_keeps t s' d -> ~ In i (m_ifs t) -> adds k s' d i x -> (x == 0)%Q.
Proof.
  intros Hd Sp Ni A. assert (Hs : In d (m_dms s)) by now rewrite (wl_dms _ _ W).
  destruct (routed_or E k HE s s' WP EK LU Am Up d) as [H|Z].
  - destruct (adds_ride k E s s' d i x HE WP (lu_once _ _ LU) Up Fs Hs H A) as (rs & _ & I1 & ->). unfold ridden.
    change (sumq (fun l => d_traffic (h_dm s' d) / count rs * inject_Z (Z.of_nat (crossings s' i [ILsp l])))%Q rs == 0)%Q.
    apply sumq_zero. intros l Hl. apply I1 in Hl. assert (Kl := up_ridden d Hd Sp l Hl). destruct Hl as (_ & (p & c & b & P) & _).
    rewrite (crossings_lsp _ _ _ _ _ _ P). rewrite (proj1 (count_occ_not_In Nat.eq_dec p i)); [change (inject_Z (Z.of_nat 0)) with 0%Q; ring|]. intros Hip. exact (Ni (Kl p c b i P Hip)).
  - assert (KU : if_keys_unique s) by exact (lu_ifs _ _ LU).
    assert (A' := adds_igp k E s s' d i x HE WP KU Up Fs Hs Z (off_s E k s s' Up Off d) A). destruct (d_path (h_dm s' d)) as [|ps] eqn:X; [exact A'|]. destruct A' as (fs & F & Y).
    destruct (igp_shares E k HE s s' WP Up Fs KU d ps Hs Z (off_s E k s s' Up Off d) X) as (L & e1 & o1 & PL & _ & N1 & I1 & _ & Y1 & O1 & X1 & S1 & _). assert (e1 = fs) by congruence. subst e1 ps.
    assert (V : (carried s' i fs == 0)%Q).
    { rewrite (carried_shares k s' _ _ _ _ i S1). apply sumq_zero. intros p Hp.
      rewrite crossings_occ. rewrite (proj1 (count_occ_not_In Nat.eq_dec p i)); [change (inject_Z (Z.of_nat 0)) with 0%Q; ring|]. intros Hip. apply Ni. apply (Sp _ (if_path p) i X); [now apply in_map|now apply in_crossings]. }
    clear -V Y. destruct k; [now rewrite Y|]. apply (rounds_compat _ _ _ _ _ V (Qeq_refl _)) in Y. apply rounds_unique in Y. rewrite Y. vm_compute. reflexivity.
Qed.
Lemma up_new_zero i : is_new t s i -> (forall d, In d (m_dms t) -> demand_keeps t s' d) ->
  if i_failed (h_if s i) then i_traffic (h_if s' i) = TDown else exists q, i_traffic (h_if s' i) = TNum q /\ (q == 0)%Q.
Proof.
  intros [Hi Ni] Sp. assert (A := pair_sum E k HE s s' Rs Up i Hi). destruct (i_failed (h_if s i)); [exact A|]. destruct A as (q & f & A & A1 & A2). exists q. split; [exact A|]. rewrite A2. apply sumq_zero.
  intros d Hd. assert (A1' := A1 d Hd). rewrite (wl_dms _ _ W) in Hd. exact (up_puts_none d i (f d) Hd (Sp d Hd) Ni A1').
Qed.
(** if no cheapest way uses anything new, no LSP and no demand does *)
Hypothesis Old : forall u p v i, least_cost s (rsvp_up s) u p v -> In i p -> In i (m_ifs t).
Lemma up_old_lsp l : In l (m_lsps t) -> lsp_keeps t s' l.
Proof.
  intros Hl p c b i P Hi. destruct (placed E k HE s s' WP LU EK Up l Am (ls l Hl)) as [(q & b1 & r & Q & B & _)|(Q & _)]; [|congruence]. rewrite P in Q. injection Q as -> _ _. exact (Old _ _ _ i (proj1 B) Hi).
Qed.
Lemma up_old_demand d : In d (m_dms t) -> demand_keeps t s' d.
Proof.
  intros Hd ps p i P Hp Hi. assert (Hs : In d (m_dms s)) by now rewrite (wl_dms _ _ W).
  destruct (routed_or E k HE s s' WP EK LU Am Up d) as [H|Z].
  - destruct (C07_ride E k s s' d HE WP (lu_once _ _ LU) Up Fs Hs H) as (rs & es & _ & _ & X & Y & _). rewrite P in Y. injection Y as ->. apply in_map_iff in Hp as (l & <- & Hl). apply X in Hl.
    assert (Kl := up_old_lsp l (up_in d Hd l (proj1 Hl))). destruct Hl as (_ & (q & c & b & Q) & _). rewrite (crossings_lsp _ _ _ _ _ _ Q) in Hi. apply (Kl q c b i Q). apply (count_occ_In Nat.eq_dec). exact Hi.
  - assert (A := C01_igp_paths E k s s' d HE WP Up Fs Hs Z (off_s E k s s' Up Off d)). rewrite P in A. destruct A as (M & -> & _ & _ & I). apply in_map_iff in Hp as (q & <- & Hq). apply I in Hq.
    apply (like_least _ _ _ _ _ _ _ Ls) in Hq. apply (Old _ _ _ i Hq). rewrite crossings_occ in Hi. apply (count_occ_In Nat.eq_dec). exact Hi.
Qed.
Lemma up_same_fate l : In l (m_lsps t) -> same_fate (l_path (h_ls t' l)) (l_path (h_ls s' l)) /\ same_amount (l_res (h_ls t' l)) (l_res (h_ls s' l)) /\
  (sole_road t l -> same_way (l_path (h_ls t' l)) (l_path (h_ls s' l))).
Proof.
  intros Hl. destruct (placed E k HE s s' WP LU EK Up l Am (ls l Hl)) as [(q & b1 & r & Q & B & _)|(Q & Q2 & N)].
  - destruct (up_kept_lsp l q _ b1 Hl Q (up_old_lsp l Hl)) as (q' & b' & Q' & R & _ & So). rewrite Q, Q'. split; [reflexivity|]. split; [exact R|]. intros X. split; [now apply So|reflexivity].
  - destruct (placed E' k HE' t t' WPt LUt EKt Up' l Amt Hl) as [(q' & b1' & r' & Q' & B' & _)|(Q' & Q2' & _)].
    + destruct (N q'). apply up_road; [exact Hl|]. apply B'.
    + rewrite Q, Q', Q2, Q2'. repeat split.
Qed.
End Up.

(** ** One added link *)
Section Link.
Variables (t s : st).
Hypothesis W : wider_lsps t s.
Hypothesis Cost : forall i, In i (m_ifs s) -> 1 <= i_cost (h_if s i).
Lemma rl_swap i j a b : one_link t s i j a b -> one_link t s j i b a.
Proof. intros [N Ne I J]. constructor; auto; try (intros x; rewrite N; tauto). Qed.
Lemma rl_parts i j a b u x y v : one_link t s i j a b -> rsvp_way s u (x ++ i :: y) v -> rsvp_way s u x a /\ rsvp_way s b y v /\ In i (m_ifs s) /\ rsvp_up s i.
Proof.
  unfold rsvp_way. intros OL R. apply route_app_inv in R as (n & R1 & R2). apply route_cons_inv in R2 as (-> & Hi & Ho & R2). destruct (ol_i _ _ _ _ _ _ OL) as [La Ra]. rewrite La in R1. rewrite Ra in R2. auto.
Qed.
Lemma rl_join i j a b u x y v : one_link t s i j a b -> rsvp_way s u x a -> rsvp_way s b y v -> In i (m_ifs s) -> rsvp_up s i -> rsvp_way s u (x ++ i :: y) v.
Proof.
  unfold rsvp_way. intros OL R1 R2 Hi Ho. destruct (ol_i _ _ _ _ _ _ OL) as [La Ra]. eapply route_app; [exact R1|]. rewrite <- La. constructor; auto. rewrite Ra. exact R2.
Qed.
Lemma rl_app u x n y v : rsvp_way s u x n -> rsvp_way s n y v -> rsvp_way s u (x ++ y) v. Proof. unfold rsvp_way. apply route_app. Qed.
Lemma rl_cost x y : route_cost s (x ++ y) = route_cost s x + route_cost s y. Proof. apply route_cost_app. Qed.
Lemma rl_mid x i y : route_cost s (x ++ i :: y) = route_cost s x + (i_cost (h_if s i) + route_cost s y). Proof. apply route_cost_app. Qed.
Lemma rl_pos u p v : rsvp_way s u p v -> 0 <= route_cost s p.
Proof. unfold rsvp_way. induction 1 as [|i p v Hi Ho R IH]; simpl; [lia|]. assert (A := Cost i Hi). lia. Qed.
Lemma rl_fore u p v : rsvp_way t u p v -> rsvp_way s u p v /\ route_cost s p = route_cost t p.
Proof. intros R. split; [exact (wi_fore _ _ W _ _ _ R)|]. exact (wi_cost _ _ W p (wi_in t _ _ _ R)). Qed.
Lemma rl_dear i j a b u p v : one_link t s i j a b -> (exists r, rsvp_way t a r b /\ route_cost t r < i_cost (h_if s i)) -> least_cost s (rsvp_up s) u p v -> ~ In i p.
Proof.
  intros OL (r & Rr & C) [R B] H. apply in_split in H as (x & y & ->). destruct (rl_parts i j a b u x y v OL R) as (Rx & Ry & _). destruct (rl_fore _ _ _ Rr) as [Rs Cr].
  assert (Z := B _ (rl_app _ _ _ _ _ Rx (rl_app _ _ _ _ _ Rs Ry))). rewrite rl_mid, !rl_cost, Cr in Z. lia.
Qed.
Lemma rl_old i j a b z : one_link t s i j a b -> In z (m_ifs s) -> z <> i -> z <> j -> In z (m_ifs t).
Proof. intros OL Hz N1 N2. destruct (in_dec Nat.eq_dec z (m_ifs t)) as [|N]; [assumption|]. destruct (proj1 (ol_new _ _ _ _ _ _ OL z) (conj Hz N)); contradiction. Qed.
Lemma rl_unused i j a b : one_link t s i j a b -> (exists r, rsvp_way t a r b /\ route_cost t r < i_cost (h_if s i)) -> (exists r, rsvp_way t b r a /\ route_cost t r < i_cost (h_if s j)) ->
  forall u p v z, least_cost s (rsvp_up s) u p v -> In z p -> In z (m_ifs t).
Proof.
  intros OL C1 C2 u p v z L Hz. apply (rl_old i j a b z OL).
  - exact (proj1 (route_all _ _ _ _ _ z (proj1 L) Hz)).
  - intros ->. exact (rl_dear i j a b u p v OL C1 L Hz).
  - intros ->. exact (rl_dear j i b a u p v (rl_swap _ _ _ _ OL) C2 L Hz).
Qed.
Lemma rl_once i j a b u x y v : one_link t s i j a b -> least_cost s (rsvp_up s) u (x ++ i :: y) v -> (forall z, In z x -> In z (m_ifs t)) /\ (forall z, In z y -> In z (m_ifs t)).
Proof.
  intros OL [R B]. destruct (rl_parts i j a b u x y v OL R) as (Rx & Ry & Hi & Ho). assert (Ci := Cost i Hi).
  rewrite rl_mid in B. assert (OL' := rl_swap _ _ _ _ OL).
  assert (Nx : ~ In i x).
  { intros H. apply in_split in H as (x1 & x2 & ->). destruct (rl_parts i j a b _ _ _ _ OL Rx) as (R1 & R2 & _). assert (Z := B _ (rl_join i j a b _ _ _ _ OL R1 Ry Hi Ho)). rewrite !rl_mid in Z. assert (P := rl_pos _ _ _ R2). lia. }
  assert (Ny : ~ In i y).
  { intros H. apply in_split in H as (y1 & y2 & ->). destruct (rl_parts i j a b _ _ _ _ OL Ry) as (R1 & R2 & _). assert (Z := B _ (rl_join i j a b _ _ _ _ OL Rx R2 Hi Ho)). rewrite !rl_mid in Z. assert (P := rl_pos _ _ _ R1). lia. }
  assert (Mx : ~ In j x).
  { intros H. apply in_split in H as (x1 & x2 & ->). destruct (rl_parts j i b a _ _ _ _ OL' Rx) as (R1 & R2 & Hj & _). assert (Z := B _ (rl_app _ _ _ _ _ R1 Ry)). rewrite !rl_mid, rl_cost in Z. assert (P := rl_pos _ _ _ R2). assert (Cj := Cost j Hj). lia. }
  assert (My : ~ In j y).
  { intros H. apply in_split in H as (y1 & y2 & ->). destruct (rl_parts j i b a _ _ _ _ OL' Ry) as (R1 & R2 & Hj & _). assert (Z := B _ (rl_app _ _ _ _ _ Rx R2)). rewrite !rl_mid, rl_cost in Z. assert (P := rl_pos _ _ _ R1). assert (Cj := Cost j Hj). lia. }
  split; intros z Hz; (apply (rl_old i j a b z OL); [|intros ->; contradiction|intros ->; contradiction]).
  - exact (proj1 (route_all _ _ _ _ _ z Rx Hz)).
  - exact (proj1 (route_all _ _ _ _ _ z Ry Hz)).
Qed.
Lemma rl_through i j a b u x y v : one_link t s i j a b -> least_cost s (rsvp_up s) u (x ++ i :: y) v ->
  best_rsvp_way t u x a /\ best_rsvp_way t b y v /\ route_cost s (x ++ i :: y) = route_cost t x + i_cost (h_if s i) + route_cost t y.
Proof.
  intros OL Bq. destruct (rl_once i j a b u x y v OL Bq) as [Ox Oy]. destruct Bq as [R B]. destruct (rl_parts i j a b _ _ _ _ OL R) as (Rx & Ry & Hi & Ho).
  assert (Sx : rsvp_way t u x a) by exact (wi_back _ _ W _ _ _ Rx Ox). assert (Sy : rsvp_way t b y v) by exact (wi_back _ _ W _ _ _ Ry Oy). rewrite rl_mid in *.
  destruct (rl_fore _ _ _ Sx) as [_ Cx], (rl_fore _ _ _ Sy) as [_ Cy].
  split; [|split]; [split; [assumption|]|split; [assumption|]|lia]; intros q Q; destruct (rl_fore _ _ _ Q) as [Q' Cq].
  - assert (Z := B _ (rl_join i j a b _ _ _ _ OL Q' Ry Hi Ho)). rewrite rl_mid in Z. lia.
  - assert (Z := B _ (rl_join i j a b _ _ _ _ OL Rx Q' Hi Ho)). rewrite rl_mid in Z. lia.
Qed.
End Link.
