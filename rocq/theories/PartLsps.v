(** PartLsps.v - simulations of models with LSPs that agree on a part that is cut off. *)
From Verif Require Import Base Graph Objects Sim Api Spec SpecCkt SpecSim SpecMetric SpecFlow SpecOrder SpecShort SpecTotal SpecWhatIf SpecSame SpecHist SpecFail SpecMore GraphProofs MonadProofs RoundProofs ResProofs ObjProofs CircuitProofs
  ValidateProofs GroupProofs PathProofs QuietProofs RouteProofs LeastProofs OrderProofs DemandProofs MetricProofs IgpProofs Ecmp TrafficProofs ShareProofs FlowProofs UtilProofs RepairProofs WhatIf WhatIfMore OwnProofs OwnApi SpecSig SigProofs SigSeq SigEnd LspTotal SigTotal LspSucceeds LspExact
  OrderLsps PropertiesApi PropertiesRoute PropertiesTraffic PropertiesSignal ShortLsp MoreLsps SpecCost.
From Coq Require Import Permutation Lqa.

Lemma pl_sym N s t : same_part_lsps N s t -> same_part_lsps N t s.
Proof.
  intros P. constructor.
  - intros i. symmetry. apply (pl_ifs _ _ _ P).
  - intros i Hi HN. destruct (proj2 (pl_ifs _ _ _ P i) (conj Hi HN)) as [A B]. destruct (pl_if _ _ _ P i A B) as (C1 & C2 & C3 & C4 & C5). auto 10.
  - intros d. symmetry. apply (pl_dms _ _ _ P).
  - intros d Hd HN. destruct (proj2 (pl_dms _ _ _ P d) (conj Hd HN)) as [A B]. destruct (pl_dm _ _ _ P d A B) as [[C1 C2] C3]. repeat split; auto.
  - intros l. symmetry. apply (pl_lsps _ _ _ P).
  - intros l Hl HN. destruct (proj2 (pl_lsps _ _ _ P l) (conj Hl HN)) as [A B]. destruct (pl_ls _ _ _ P l A B) as (C1 & C2 & C3 & C4). repeat split; auto. now symmetry.
Qed.
Lemma pl_route N s t u p v : same_part_lsps N s t -> no_road_out N s -> route s (rsvp_up s) u p v -> In u N ->
  route t (rsvp_up t) u p v /\ route_cost t p = route_cost s p /\ forall i, In i p -> In i (m_ifs s) /\ In (loc s i) N.
Proof.
  intros P C. induction 1 as [|i p v Hi U R IH]; intros HN; [split; [constructor|split; [reflexivity|intros i []]]|].
  destruct (pl_if _ _ _ P i Hi HN) as (C1 & C2 & C3 & C4 & C5). assert (HR := C i Hi U HN). destruct (IH HR) as (R' & RC & RI). split; [|split].
  - rewrite <- C1. constructor.
    + exact (proj1 (proj1 (pl_ifs _ _ _ P i) (conj Hi HN))).
    + unfold rsvp_up in *. now rewrite C4, C5.
    + rewrite C2. exact R'.
  - simpl. now rewrite C3, RC.
  - intros j [<-|Hj]; [auto|]. now apply RI.
Qed.
Lemma road_out N s : road_cut_off N s -> no_road_out N s.
Proof. intros C i Hi H X. now apply (C i Hi H). Qed.
Lemma road_outside N s u p v : road_cut_off N s -> route s (rsvp_up s) u p v -> ~ In u N -> forall i, In i p -> ~ In (loc s i) N.
Proof.
  intros C. induction 1 as [|i p v Hi U R IH]; intros HN j Hj; [destruct Hj|]. destruct Hj as [<-|Hj]; [exact HN|].
  apply IH; [|exact Hj]. intros X. apply HN. now apply (C i Hi U).
Qed.

Section Ways.
Variables (N : list string) (s t : st).
Hypothesis P : same_part_lsps N s t.
Hypothesis C : no_road_out N s.
Hypothesis C' : no_road_out N t.
Lemma pl_least u p v : In u N -> (least_cost s (rsvp_up s) u p v <-> least_cost t (rsvp_up t) u p v).
Proof.
  intros Hu. split; intros [R M].
  - destruct (pl_route N s t u p v P C R Hu) as (R' & RC & _). split; [exact R'|]. intros q Q. destruct (pl_route N t s u q v (pl_sym _ _ _ P) C' Q Hu) as (Q' & QC & _).
    specialize (M q Q'). lia.
  - destruct (pl_route N t s u p v (pl_sym _ _ _ P) C' R Hu) as (R' & RC & _). split; [exact R'|]. intros q Q. destruct (pl_route N s t u q v P C Q Hu) as (Q' & QC & _).
    specialize (M q Q'). lia.
Qed.
Lemma pl_best l p : In l (m_lsps s) -> In (lsp_from s l) N -> (best_road s l p <-> best_road t l p).
Proof.
  intros Hl HN. destruct (pl_ls _ _ _ P l Hl HN) as (F & T & _). unfold best_road. rewrite F, T.
  split; intros [X Y]; (split; [now apply pl_least|]); intros q Q; apply Y; now apply pl_least.
Qed.
Lemma pl_wanted l : NoDup (m_dms s) -> NoDup (m_dms t) -> NoDup (m_lsps s) -> NoDup (m_lsps t) -> In l (m_lsps s) -> In (lsp_from s l) N -> (wanted t l (equal_share t l) == wanted s l (equal_share s l))%Q.
Proof.
  intros D1 D2 L1 L2 Hl HN. destruct (pl_ls _ _ _ P l Hl HN) as (F & T & Cf & _). unfold wanted. rewrite Cf. destruct (l_cfg (h_ls s l)); [reflexivity|].
  unfold equal_share, traffic_of, lsps_of, dmds_of. rewrite F, T.
  assert (A : Permutation (filter (fun d => String.eqb (dmd_from s d) (lsp_from s l) && String.eqb (dmd_to s d) (lsp_to s l)) (m_dms s))
                          (filter (fun d => String.eqb (dmd_from t d) (lsp_from s l) && String.eqb (dmd_to t d) (lsp_to s l)) (m_dms t))).
  { apply NoDup_Permutation; try (apply NoDup_filter; assumption). intros d. rewrite !filter_In, !andb_true_iff, !String.eqb_eq. split; intros (H & X & Y).
    - rewrite <- X in HN. destruct (proj1 (pl_dms _ _ _ P d) (conj H HN)) as [H' _]. destruct (pl_dm _ _ _ P d H HN) as [[E1 E2] _]. rewrite E1, E2. auto.
    - rewrite <- X in HN. destruct (proj2 (pl_dms _ _ _ P d) (conj H HN)) as [H' HN']. destruct (pl_dm _ _ _ P d H' HN') as [[E1 E2] _]. rewrite E1 in X. rewrite E2 in Y. auto. }
  assert (B : Permutation (filter (fun d => String.eqb (lsp_from s d) (lsp_from s l) && String.eqb (lsp_to s d) (lsp_to s l)) (m_lsps s))
                          (filter (fun d => String.eqb (lsp_from t d) (lsp_from s l) && String.eqb (lsp_to t d) (lsp_to s l)) (m_lsps t))).
  { apply NoDup_Permutation; try (apply NoDup_filter; assumption). intros d. rewrite !filter_In, !andb_true_iff, !String.eqb_eq. split; intros (H & X & Y).
    - rewrite <- X in HN. destruct (proj1 (pl_lsps _ _ _ P d) (conj H HN)) as [H' _]. destruct (pl_ls _ _ _ P d H HN) as (E1 & E2 & _). rewrite E1, E2. auto.
    - rewrite <- X in HN. destruct (proj2 (pl_lsps _ _ _ P d) (conj H HN)) as [H' HN']. destruct (pl_ls _ _ _ P d H' HN') as (E1 & E2 & _). rewrite E1 in X. rewrite E2 in Y. auto. }
  rewrite <- (Permutation_length B). rewrite <- (Qsum_perm _ _ (Permutation_map (fun d => d_traffic (h_dm t d)) A)).
  rewrite (map_ext_in _ (fun d => d_traffic (h_dm s d))); [reflexivity|]. intros d Hd. apply filter_In in Hd as [Hd X]. apply andb_prop in X as [X _]. apply String.eqb_eq in X. apply (pl_dm _ _ _ P d Hd). now rewrite X.
Qed.
End Ways.

Section Runs.
Variables (N : list string) (E E' : env) (k : kind) (s t s' t' : st).
Hypothesis HE : env_ok E.
Hypothesis HE' : env_ok E'.
Hypothesis P : same_part_lsps N s t.
Hypothesis C : no_road_out N s.
Hypothesis C' : no_road_out N t.
Hypothesis D1 : NoDup (m_dms s).
Hypothesis D2 : NoDup (m_dms t).
Hypothesis Rs : usual_room k s.
Hypothesis Rt : usual_room k t.
Hypothesis Up : update_simulation E k s = (s', Ok tt).
Hypothesis Up' : update_simulation E' k t = (t', Ok tt).
Let WP := ur_posed _ _ Rs. Let EK := ur_known _ _ Rs. Let CS := ur_cids _ _ Rs. Let LU := ur_usual _ _ Rs. Let Am := ur_ample _ _ Rs. Let EA := ur_agree _ _ Rs.
Let WPt := ur_posed _ _ Rt. Let EKt := ur_known _ _ Rt. Let CSt := ur_cids _ _ Rt. Let LUt := ur_usual _ _ Rt. Let Amt := ur_ample _ _ Rt. Let EAt := ur_agree _ _ Rt.
Let Fs := fin_fail E k HE s s' WP CS EA Up.
Let Ft := fin_fail E' k HE' t t' WPt CSt EAt Up'.
Let KUs : if_keys_unique s := lu_ifs _ _ LU.
Let KUt : if_keys_unique t := lu_ifs _ _ LUt.
Let Ls := fin_like E k HE s s' WP EK CS LU Am EA Up.
Let Lt := fin_like E' k HE' t t' WPt EKt CSt LUt Amt EAt Up'.
Let W l := pl_wanted N s t P l D1 D2 (lu_once _ _ LU) (lu_once _ _ LUt).

Lemma pr_in l : In l (m_lsps s) -> In (lsp_from s l) N -> In l (m_lsps t).
Proof. intros H X. exact (proj1 (proj1 (pl_lsps _ _ _ P l) (conj H X))). Qed.
Lemma pr_lsp l : In l (m_lsps s) -> In (lsp_from s l) N ->
  (exists p p' b b' q q', l_path (h_ls s' l) = PRouted p (route_cost s p) b /\ l_path (h_ls t' l) = PRouted p' (route_cost s p) b' /\
     best_road s l p /\ best_road s l p' /\ l_res (h_ls s' l) = RNum q /\ l_res (h_ls t' l) = RNum q' /\ (q' == q)%Q) \/
  (l_path (h_ls s' l) = PUnrouted /\ l_path (h_ls t' l) = PUnrouted /\ l_res (h_ls s' l) = RUnrouted /\ l_res (h_ls t' l) = RUnrouted).
Proof.
  intros Hl HN. assert (Hl' := pr_in l Hl HN). destruct (pl_ls _ _ _ P l Hl HN) as (Fr & To & _).
  destruct (placed E k HE s s' WP LU EK Up l Am Hl) as [(p & b & q & X & B & Q & Y)|(X & Q & Z)];
  destruct (placed E' k HE' t t' WPt LUt EKt Up' l Amt Hl') as [(p' & b' & q' & X' & B' & Q' & Y')|(X' & Q' & Z')].
  - left. apply (pl_best N s t P C C' l p' Hl HN) in B'. exists p, p', b, b', q, q'. split; [exact X|]. split.
    + rewrite X'. f_equal. destruct (pl_route N s t _ _ _ P C (proj1 (proj1 B')) HN) as (_ & -> & _). exact (least_unique _ _ _ _ _ _ (proj1 B') (proj1 B)).
    + do 4 (split; [assumption|]). rewrite Y, Y'. now apply W.
  - exfalso. apply (Z' p). unfold road. rewrite Fr, To. destruct (pl_route N s t _ _ _ P C (proj1 (proj1 B)) HN) as (H & _). exact H.
  - exfalso. apply (Z p'). unfold road. destruct B' as [[B' _] _]. rewrite Fr, To in B'. destruct (pl_route N t s _ _ _ (pl_sym _ _ _ P) C' B' HN) as (H & _). exact H.
  - right. auto.
Qed.
Lemma pr_setup l : In l (m_lsps s) -> In (lsp_from s l) N -> exists b b', l_setup (h_ls s' l) = RNum b /\ l_setup (h_ls t' l) = RNum b' /\ (b' == b)%Q.
Proof.
  intros Hl HN. destruct (fin_setup E k HE s s' WP EK LU Am Up l Hl) as (b & A & B), (fin_setup E' k HE' t t' WPt EKt LUt Amt Up' l (pr_in l Hl HN)) as (b' & A' & B').
  exists b, b'. split; [exact A|]. split; [exact A'|]. rewrite B, B'. now apply W.
Qed.
Lemma pr_routed l : In l (m_lsps s) -> In (lsp_from s l) N -> (routed_lsp s' l <-> routed_lsp t' l).
Proof.
  intros Hl HN. unfold routed_lsp. destruct (pr_lsp l Hl HN) as [(p & p' & b & b' & q & q' & A & B & _)|(A & B & _)]; split; intros (x & y & w & X); eauto; congruence.
Qed.
Lemma pr_metric l m : In l (m_lsps s) -> In (lsp_from s l) N -> (metric s' l m <-> metric t' l m).
Proof.
  intros Hl HN. destruct (pl_ls _ _ _ P l Hl HN) as (Fr & To & _ & Mr). assert (Ne := usual_omm k s l LU Hl). assert (O := fin_omm E k s s' Up l). assert (O' := fin_omm E' k t t' Up' l). rewrite (omm_read _ _ Ne Mr) in O'.
  rewrite (metric_omm s' l m), (metric_omm t' l m) by (rewrite ?O, ?O'; exact Ne). rewrite O, O'. destruct (omm (h_ls s l)) as [[z|]|e]; [reflexivity| |reflexivity].
  destruct (fin_ls E k s s' Up l) as [-> ->], (fin_ls E' k t t' Up' l) as [-> ->]. rewrite Fr, To. destruct m as [y|].
  - split; intros (p & A & ->); exists p.
    + apply (like_least _ _ _ _ _ _ _ Ls) in A. assert (B := proj1 (pl_least N s t P C C' _ _ _ HN) A). split; [now apply (like_least _ _ _ _ _ _ _ Lt)|].
      rewrite (like_cost _ _ _ _ _ _ _ Ls (proj1 A)), (like_cost _ _ _ _ _ _ _ Lt (proj1 B)). symmetry. apply (pl_route N s t _ _ _ P C (proj1 A) HN).
    + apply (like_least _ _ _ _ _ _ _ Lt) in A. assert (B := proj2 (pl_least N s t P C C' _ _ _ HN) A). split; [now apply (like_least _ _ _ _ _ _ _ Ls)|].
      rewrite (like_cost _ _ _ _ _ _ _ Ls (proj1 B)), (like_cost _ _ _ _ _ _ _ Lt (proj1 A)). apply (pl_route N s t _ _ _ P C (proj1 B) HN).
  - split; intros X q Hq.
    + apply (like_route _ _ _ _ _ _ _ (like_sym _ _ _ _ Lt)) in Hq. apply (X q). apply (like_route _ _ _ _ _ _ _ Ls). now apply (pl_route N t s _ _ _ (pl_sym _ _ _ P) C').
    + apply (like_route _ _ _ _ _ _ _ (like_sym _ _ _ _ Ls)) in Hq. apply (X q). apply (like_route _ _ _ _ _ _ _ Lt). now apply (pl_route N s t _ _ _ P C).
Qed.
Hypothesis Off : shortcuts_off s.
Hypothesis Offt : shortcuts_off t.
Section Demand.
Variable d : nat.
Hypothesis Hd : In d (m_dms s).
Hypothesis HN : In (dmd_from s d) N.
Let Hd' : In d (m_dms t) := proj1 (proj1 (pl_dms _ _ _ P d) (conj Hd HN)).
Let De := pl_dm _ _ _ P d Hd HN.
Lemma pr_end : dmd_from t' d = dmd_from s' d /\ dmd_to t' d = dmd_to s' d /\ d_traffic (h_dm t' d) = d_traffic (h_dm s' d).
Proof. destruct (fin_dm E k s s' Up d) as (->&->&->), (fin_dm E' k t t' Up' d) as (->&->&->). destruct De as ((->&->)&->). auto. Qed.
Lemma pr_of l : lsp_of s' d l -> In l (m_lsps s) /\ In (lsp_from s l) N.
Proof.
  intros H. assert (Hl := in_lsp E k s s' Up d l H). split; [exact Hl|]. destruct H as (_ & F & _). destruct (fin_ls E k s s' Up l) as [X _], (fin_dm E k s s' Up d) as (Y & _). rewrite X, Y in F. now rewrite F.
Qed.
Lemma pr_lsp_of l : lsp_of s' d l <-> lsp_of t' d l.
Proof.
  unfold lsp_of. destruct (fin_dm E k s s' Up d) as (->&->&_), (fin_dm E' k t t' Up' d) as (->&->&_). destruct (fin_ls E k s s' Up l) as [-> ->], (fin_ls E' k t t' Up' l) as [-> ->].
  destruct (fin_sets E k s s' Up) as (_&_&_&->), (fin_sets E' k t t' Up') as (_&_&_&->). destruct De as ((->&->)&_). split; intros (X & Y & Z).
  - assert (HL := HN). rewrite <- Y in HL. destruct (pl_ls _ _ _ P l X HL) as (A & B & _). rewrite A, B. split; [now apply pr_in|auto].
  - assert (HL := HN). rewrite <- Y in HL. destruct (proj2 (pl_lsps _ _ _ P l) (conj X HL)) as [X' HL']. destruct (pl_ls _ _ _ P l X' HL') as (A & B & _). rewrite A in Y. rewrite B in Z. auto.
Qed.
Lemma pr_preferred l : preferred s' d l <-> preferred t' d l.
Proof.
  unfold preferred. split; intros (A & B & m & Mm & Z).
  - destruct (pr_of l A) as [Hl HL]. split; [now apply pr_lsp_of|]. split; [now apply pr_routed|]. exists m. split; [now apply pr_metric|]. intros x X Y. apply pr_lsp_of in X. destruct (pr_of x X) as [Hx HX].
    apply pr_routed in Y; auto. destruct (Z x X Y) as (m' & M1 & M2). exists m'. split; [now apply pr_metric|exact M2].
  - apply pr_lsp_of in A. destruct (pr_of l A) as [Hl HL]. split; [exact A|]. split; [now apply pr_routed|]. exists m. split; [now apply pr_metric|]. intros x X Y. destruct (pr_of x X) as [Hx HX].
    apply pr_lsp_of in X. apply pr_routed in Y; auto. destruct (Z x X Y) as (m' & M1 & M2). exists m'. split; [now apply pr_metric|exact M2].
Qed.
Lemma pr_none : no_lsp_for s' d <-> no_lsp_for t' d.
Proof.
  split; intros X l Hl.
  - apply pr_lsp_of in Hl. destruct (pr_of l Hl) as [I J]. destruct (pr_lsp l I J) as [(p & p' & b & b' & q & q' & Z & _)|(_ & Z & _)]; [|exact Z]. assert (Y := X l Hl). congruence.
  - destruct (pr_of l Hl) as [I J]. apply pr_lsp_of in Hl. destruct (pr_lsp l I J) as [(p & p' & b & b' & q & q' & _ & Z & _)|(Z & _)]; [|exact Z]. assert (Y := X l Hl). congruence.
Qed.
Lemma pr_some : (exists l, lsp_of s' d l /\ routed_lsp s' l) -> exists l, lsp_of t' d l /\ routed_lsp t' l.
Proof. intros (l & A & B). destruct (pr_of l A) as [I J]. exists l. split; [now apply pr_lsp_of|now apply pr_routed]. Qed.
Lemma pr_least p : least_cost s' (usable s') (dmd_from s' d) p (dmd_to s' d) <-> least_cost t' (usable t') (dmd_from t' d) p (dmd_to t' d).
Proof.
  destruct (fin_dm E k s s' Up d) as (->&->&_), (fin_dm E' k t t' Up' d) as (->&->&_). rewrite <- (like_least _ _ _ _ _ _ _ Ls), <- (like_least _ _ _ _ _ _ _ Lt). destruct De as ((->&->)&_). exact (pl_least N s t P C C' _ _ _ HN).
Qed.
Lemma pr_paths : same_paths (d_path (h_dm s' d)) (d_path (h_dm t' d)).
Proof.
  destruct (routed_or E k HE s s' WP EK LU Am Up d) as [H|Z].
  - assert (H' := pr_some H).
    destruct (C07_ride E k s s' d HE WP (lu_once _ _ LU) Up Fs Hd H) as (ls & es & _ & _ & X & -> & _).
    destruct (C07_ride E' k t t' d HE' WPt (lu_once _ _ LUt) Up' Ft Hd' H') as (ls' & es' & _ & _ & X' & -> & _).
    simpl. intros q. rewrite !in_map_iff. split; intros (l & <- & Hl); exists l; (split; [reflexivity|]).
    + apply X', pr_preferred, X, Hl.
    + apply X, pr_preferred, X', Hl.
  - assert (Z' := proj1 pr_none Z).
    assert (A := C01_igp_paths E k s s' d HE WP Up Fs Hd Z (off_s E k s s' Up Off d)). assert (B := C01_igp_paths E' k t t' d HE' WPt Up' Ft Hd' Z' (off_s E' k t t' Up' Offt d)).
    destruct (d_path (h_dm s' d)) as [|ps], (d_path (h_dm t' d)) as [|qs]; simpl; auto.
    + destruct B as (M & _ & Ne & _ & I). destruct M as [|p M]; [contradiction|]. apply (A p). apply pr_least. apply I. left; auto.
    + destruct A as (M & _ & Ne & _ & I). destruct M as [|p M]; [contradiction|]. apply (B p). apply pr_least. apply I. left; auto.
    + destruct A as (M & -> & _ & _ & I), B as (M' & -> & _ & _ & I'). intros q. rewrite !in_map_iff. split; intros (p & <- & Hp); exists p; (split; [reflexivity|]).
      * apply I', pr_least, I, Hp.
      * apply I, pr_least, I', Hp.
Qed.
Lemma pr_igp i ps qs fs gs : no_lsp_for s' d -> no_lsp_for t' d -> d_path (h_dm s' d) = DPaths ps -> d_path (h_dm t' d) = DPaths qs ->
  d_detail (h_dm s' d) = PDInfo fs -> d_detail (h_dm t' d) = PDInfo gs -> (carried s' i fs == carried t' i gs)%Q.
Proof.
  intros A1 B1 X Q F G. assert (A2 := off_s E k s s' Up Off d). assert (B2 := off_s E' k t t' Up' Offt d).
  destruct (igp_shares E k HE s s' WP Up Fs KUs d ps Hd A1 A2 X) as (L & e1 & o1 & -> & _ & N1 & I1 & _ & Y1 & O1 & X1 & S1 & _).
  destruct (igp_shares E' k HE' t t' WPt Up' Ft KUt d qs Hd' B1 B2 Q) as (M & e2 & o2 & -> & _ & N2 & I2 & _ & Y2 & O2 & X2 & S2 & _).
  assert (e1 = fs) by congruence. assert (e2 = gs) by congruence. subst e1 e2. destruct pr_end as (_ & _ & T).
  assert (LM : forall p, In p L <-> In p M). { intros p. rewrite I1, I2. apply pr_least. }
  assert (Lc : forall p j, In p L -> In j p -> loc t' j = loc s' j).
  { intros p j Hp Hj. apply I1 in Hp. apply proj1 in Hp. apply (like_route _ _ _ _ _ _ _ (like_sym _ _ _ _ Ls)) in Hp. destruct (fin_dm E k s s' Up d) as (Z & _). rewrite Z in Hp.
    destruct (pl_route N s t _ _ _ P C Hp HN) as (_ & _ & Y). destruct (Y j Hj) as [J1 J2]. destruct (fin_loc E k s s' Up j) as [-> _], (fin_loc E' k t t' Up' j) as [-> _]. now apply (pl_if _ _ _ P). }
  assert (OO : forall n, List.length (o1 n) = List.length (o2 n)).
  { intros n. apply same_count; auto. intros j. rewrite X1, X2. split; intros [H (p & Hp & Hj)].
    - split; [rewrite <- H; eapply Lc; eauto|]. exists p. split; [now apply LM|auto].
    - apply LM in Hp. split; [rewrite <- H; symmetry; eapply Lc; eauto|]. exists p. auto. }
  rewrite (carried_shares k s' _ _ _ _ i S1), (carried_shares k t' _ _ _ _ i S2), T.
  rewrite (sumq_perm _ _ _ (NoDup_Permutation N1 N2 LM)). apply sumq_ext. intros p Hp. apply LM in Hp. rewrite (crossings_if s' t').
  rewrite (same_w (loc s') (loc t') o1 o2 p); [reflexivity| |auto]. intros j Hj. symmetry. eapply Lc; eauto.
Qed.
Lemma pr_adds i x y : (forall l, preferred s' d l -> sole_road s l) -> adds k s' d i x -> adds k t' d i y -> (x == y)%Q.
Proof.
  intros So A B. destruct (routed_or E k HE s s' WP EK LU Am Up d) as [H|Z].
  - assert (H' := pr_some H). destruct (adds_ride k E s s' d i x HE WP (lu_once _ _ LU) Up Fs Hd H A) as (ls & N1 & I1 & ->).
    destruct (adds_ride k E' t t' d i y HE' WPt (lu_once _ _ LUt) Up' Ft Hd' H' B) as (ls' & N2 & I2 & ->).
    assert (LM : forall l, In l ls <-> In l ls') by (intros l; rewrite I1, I2; apply pr_preferred).
    assert (PM := NoDup_Permutation N1 N2 LM). unfold ridden. destruct pr_end as (_ & _ & ->). unfold count. rewrite (Permutation_length PM).
    rewrite (Qsum_perm _ _ (Permutation_map _ PM)).
    change (sumq (fun l => d_traffic (h_dm s' d) / inject_Z (Z.of_nat (List.length ls')) * inject_Z (Z.of_nat (crossings s' i [ILsp l])))%Q ls' ==
            sumq (fun l => d_traffic (h_dm s' d) / inject_Z (Z.of_nat (List.length ls')) * inject_Z (Z.of_nat (crossings t' i [ILsp l])))%Q ls')%Q.
    apply sumq_ext. intros l Hl. assert (Pl : preferred s' d l) by now apply I1, LM. destruct (pr_of l (proj1 Pl)) as [I J].
    assert (X : crossings t' i [ILsp l] = crossings s' i [ILsp l]); [|now rewrite X].
    destruct (pr_lsp l I J) as [(p & p' & b & b' & q & q' & X & X' & Bp & Bp' & _)|(X & X' & _)].
    + rewrite (crossings_lsp _ _ _ _ _ _ X), (crossings_lsp _ _ _ _ _ _ X'). now rewrite (So l Pl p' p Bp' Bp).
    + unfold crossings. simpl. now rewrite X, X'.
  - assert (Z' := proj1 pr_none Z). assert (A' := adds_igp k E s s' d i x HE WP KUs Up Fs Hd Z (off_s E k s s' Up Off d) A). assert (B' := adds_igp k E' t t' d i y HE' WPt KUt Up' Ft Hd' Z' (off_s E' k t t' Up' Offt d) B).
    assert (SP := pr_paths). destruct (d_path (h_dm s' d)) as [|ps] eqn:X, (d_path (h_dm t' d)) as [|qs] eqn:Q; try contradiction.
    + now rewrite A', B'.
    + destruct A' as (fs & F & X'), B' as (gs & G & Y). assert (V := pr_igp i ps qs fs gs Z Z' X Q F G). clear -V X' Y. destruct k.
      * now rewrite X', Y.
      * apply rounds_unique in X'. apply (rounds_compat _ _ _ _ _ (Qeq_sym _ _ V) (Qeq_refl _)) in Y. apply rounds_unique in Y. now rewrite X', Y.
Qed.
End Demand.
End Runs.

(** What does not start in a part that is cut off does not enter it. *)
Section Outside.
Variables (N : list string) (E : env) (k : kind) (s s' : st).
Hypothesis HE : env_ok E.
Hypothesis C : road_cut_off N s.
Hypothesis Rs : usual_room k s.
Hypothesis Up : update_simulation E k s = (s', Ok tt).
Hypothesis Off : shortcuts_off s.
Let WP := ur_posed _ _ Rs. Let EK := ur_known _ _ Rs. Let CS := ur_cids _ _ Rs. Let LU := ur_usual _ _ Rs. Let Am := ur_ample _ _ Rs. Let EA := ur_agree _ _ Rs.
Let Fs := fin_fail E k HE s s' WP CS EA Up.
Let KUs : if_keys_unique s := lu_ifs _ _ LU.
Let Ls := fin_like E k HE s s' WP EK CS LU Am EA Up.
Lemma out_adds d i x : In d (m_dms s) -> ~ In (dmd_from s d) N -> In (loc s i) N -> adds k s' d i x -> (x == 0)%Q.
Proof.
  intros Hd HN Hi A. destruct (routed_or E k HE s s' WP EK LU Am Up d) as [H|Z].
  - destruct (adds_ride k E s s' d i x HE WP (lu_once _ _ LU) Up Fs Hd H A) as (ls & _ & I1 & ->). unfold ridden.
    change (sumq (fun l => d_traffic (h_dm s' d) / count ls * inject_Z (Z.of_nat (crossings s' i [ILsp l])))%Q ls == 0)%Q.
    apply sumq_zero. intros l Hl. apply I1 in Hl. assert (I := in_lsp E k s s' Up d l (proj1 Hl)).
    assert (X : crossings s' i [ILsp l] = 0%nat); [|rewrite X; change (inject_Z (Z.of_nat 0)) with 0%Q; ring].
    destruct (placed E k HE s s' WP LU EK Up l Am I) as [(p & b & q & X & B & _)|(X & _)].
    + rewrite (crossings_lsp _ _ _ _ _ _ X). apply count_occ_not_In. intros Hip. apply (road_outside N s _ _ _ C (proj1 (proj1 B))) with (i := i); auto.
      destruct Hl as [(_ & F & _) _]. destruct (fin_ls E k s s' Up l) as [Y _], (fin_dm E k s s' Up d) as (V & _). rewrite Y, V in F. now rewrite F.
    + unfold crossings. simpl. now rewrite X.
  - assert (A' := adds_igp k E s s' d i x HE WP KUs Up Fs Hd Z (off_s E k s s' Up Off d) A). destruct (d_path (h_dm s' d)) as [|ps] eqn:X; [exact A'|]. destruct A' as (fs & F & Y).
    destruct (igp_shares E k HE s s' WP Up Fs KUs d ps Hd Z (off_s E k s s' Up Off d) X) as (L & e1 & o1 & -> & _ & N1 & I1 & _ & Y1 & O1 & X1 & S1 & _). assert (e1 = fs) by congruence. subst e1.
    assert (V : (carried s' i fs == 0)%Q).
    { rewrite (carried_shares k s' _ _ _ _ i S1). apply sumq_zero. intros p Hp. apply I1 in Hp. apply proj1 in Hp. apply (like_route _ _ _ _ _ _ _ (like_sym _ _ _ _ Ls)) in Hp. destruct (fin_dm E k s s' Up d) as (W & _). rewrite W in Hp.
      rewrite crossings_occ. rewrite (proj1 (count_occ_not_In Nat.eq_dec p i)); [change (inject_Z (Z.of_nat 0)) with 0%Q; ring|]. intros Hip. exact (road_outside N s _ _ _ C Hp HN i Hip Hi). }
    clear -V Y. destruct k; [now rewrite Y|]. apply (rounds_compat _ _ _ _ _ V (Qeq_refl _)) in Y. apply rounds_unique in Y. rewrite Y. vm_compute. reflexivity.
Qed.
Definition in_part (n : string) : bool := if in_dec string_dec n N then true else false.
Lemma in_part_iff n : in_part n = true <-> In n N.
Proof. unfold in_part. destruct (in_dec string_dec n N); split; auto; discriminate. Qed.
Lemma out_sum i (g : nat -> Q) : In (loc s i) N -> (forall d, In d (m_dms s) -> adds k s' d i (g d)) ->
  (sumq g (m_dms s) == sumq g (filter (fun d => in_part (dmd_from s d)) (m_dms s)))%Q.
Proof.
  intros Hi A. rewrite sumq_filter. apply sumq_ext. intros d Hd. destruct (in_part (dmd_from s d)) eqn:X; [reflexivity|].
  apply (out_adds d i); auto. intros H. apply in_part_iff in H. congruence.
Qed.
End Outside.
Lemma pr_traffic N E E' k s t s' t' i : env_ok E -> env_ok E' -> same_part_lsps N s t -> road_cut_off N s -> road_cut_off N t -> NoDup (m_dms s) -> NoDup (m_dms t) ->
  usual_room k s -> usual_room k t -> update_simulation E k s = (s', Ok tt) -> update_simulation E' k t = (t', Ok tt) -> shortcuts_off s -> shortcuts_off t ->
  In i (m_ifs s) -> In (loc s i) N -> (forall d l, In d (m_dms s) -> In (dmd_from s d) N -> preferred s' d l -> sole_road s l) -> same_traffic (i_traffic (h_if s' i)) (i_traffic (h_if t' i)).
Proof.
  intros HE HE' P C C' D1 D2 Rs Rt Up Up' Off Offt Hi HN So. destruct (proj1 (pl_ifs _ _ _ P i) (conj Hi HN)) as [Hi' HN']. destruct (pl_if _ _ _ P i Hi HN) as (_ & _ & _ & F & _).
  assert (A := pair_sum E k HE s s' (room_with _ _ Rs Off) Up i Hi). assert (B := pair_sum E' k HE' t t' (room_with _ _ Rt Offt) Up' i Hi'). rewrite F in B.
  destruct (i_failed (h_if s i)); [rewrite A, B; exact I|]. destruct A as (q & g & -> & A2 & A3), B as (r & h & -> & B2 & B3). simpl. rewrite A3, B3.
  rewrite (out_sum N E k s s' HE C Rs Up Off i g HN A2), (out_sum N E' k t t' HE' C' Rt Up' Offt i h HN' B2).
  assert (Pm : Permutation (filter (fun d => in_part N (dmd_from s d)) (m_dms s)) (filter (fun d => in_part N (dmd_from t d)) (m_dms t))).
  { apply NoDup_Permutation; try (apply NoDup_filter; assumption). intros d. rewrite !filter_In, !in_part_iff. apply (pl_dms _ _ _ P). }
  rewrite <- (sumq_perm h _ _ Pm). apply sumq_ext. intros d Hd. apply filter_In in Hd as [Hd X]. apply in_part_iff in X.
  destruct (proj1 (pl_dms _ _ _ P d) (conj Hd X)) as [Hd' _].
  exact (pr_adds N E E' k s t s' t' HE HE' P (road_out _ _ C) (road_out _ _ C') D1 D2 Rs Rt Up Up' Off Offt d Hd X i (g d) (h d) (fun l => So d l Hd X) (A2 d Hd) (B2 d Hd')).
Qed.
