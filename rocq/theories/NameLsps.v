(** NameLsps.v - simulations of models with LSPs whose nodes have other names. *)
From Verif Require Import Base Graph Objects Sim Api Spec SpecCkt SpecSim SpecMetric SpecFlow SpecOrder SpecShort SpecTotal SpecWhatIf SpecSame SpecHist SpecFail SpecMore GraphProofs MonadProofs RoundProofs ResProofs ObjProofs CircuitProofs
  ValidateProofs GroupProofs PathProofs QuietProofs RouteProofs LeastProofs OrderProofs DemandProofs MetricProofs IgpProofs Ecmp TrafficProofs ShareProofs FlowProofs UtilProofs RepairProofs WhatIf OwnProofs OwnApi SpecSig SigProofs SigSeq SigEnd LspTotal SigTotal LspSucceeds LspExact
  OrderLsps PropertiesApi PropertiesRoute PropertiesTraffic PropertiesSignal ShortLsp MoreLsps SpecCost RenameProofs.
From Coq Require Import Permutation Lqa.

Section Names.
Variables (f : string -> string) (k : kind) (s : st).
Notation t := (rename_nodes f s).
Hypothesis J : forall a b, In a (all_names s) -> In b (all_names s) -> f a = f b -> a = b.
Lemma nl_eq a b : In a (all_names s) -> In b (all_names s) -> (f a = f b <-> a = b).
Proof. intros Ha Hb. split; [now apply J|now intros ->]. Qed.
Lemma nl_eqb a b : In a (all_names s) -> In b (all_names s) -> String.eqb (f a) (f b) = String.eqb a b.
Proof. intros Ha Hb. destruct (String.eqb_spec a b) as [->|N]; [apply String.eqb_refl|]. apply String.eqb_neq. intros H. apply N. now apply J. Qed.
Lemma nl_loc i : In i (m_ifs s) -> In (loc s i) (all_names s). Proof. intros H. now apply an_used, used_loc. Qed.
Lemma nl_rem i : In i (m_ifs s) -> In (rem s i) (all_names s). Proof. intros H. now apply an_used, used_rem. Qed.
Lemma nl_dfrom d : In d (m_dms s) -> In (dmd_from s d) (all_names s). Proof. intros H. now apply an_used, used_from. Qed.
Lemma nl_dto d : In d (m_dms s) -> In (dmd_to s d) (all_names s). Proof. intros H. now apply an_used, used_to. Qed.

(** ways *)
Lemma nl_route u p v : route s (rsvp_up s) u p v -> route t (rsvp_up t) (f u) p (f v).
Proof. induction 1 as [|i p v Hi U R IH]; [constructor|]. change (f (loc s i)) with (loc t i). constructor; [exact Hi|exact U|exact IH]. Qed.
Lemma nl_back p : forall u v, In u (all_names s) -> In v (all_names s) -> route t (rsvp_up t) (f u) p (f v) -> route s (rsvp_up s) u p v.
Proof.
  induction p as [|i p IH]; intros u v Hu Hv H.
  - apply route_nil_inv in H. rewrite (J u v Hu Hv H). constructor.
  - apply route_cons_inv in H as (E & Hi & U & H). change (In i (m_ifs s)) in Hi. rewrite (J u (loc s i) Hu (nl_loc i Hi) E). constructor; [exact Hi|exact U|]. apply IH; auto using nl_rem.
Qed.
Lemma nl_least u p v : In u (all_names s) -> In v (all_names s) -> (least_cost s (rsvp_up s) u p v <-> least_cost t (rsvp_up t) (f u) p (f v)).
Proof.
  intros Hu Hv. assert (C : forall p, route_cost t p = route_cost s p) by (intros q; induction q as [|i q IH]; [reflexivity|]; simpl; now rewrite IH). split; intros [R M].
  - split; [now apply nl_route|]. intros q Q. rewrite !C. apply M. now apply nl_back.
  - split; [now apply nl_back|]. intros q Q. assert (X := M q (nl_route _ _ _ Q)). now rewrite !C in X.
Qed.
Lemma nl_cost p : route_cost t p = route_cost s p.
Proof. induction p as [|i p IH]; [reflexivity|]. simpl. now rewrite IH. Qed.
Lemma nl_best l p : In l (m_lsps s) -> (best_road s l p <-> best_road t l p).
Proof.
  intros Hl. unfold best_road. change (lsp_from t l) with (f (lsp_from s l)). change (lsp_to t l) with (f (lsp_to s l)). assert (A := an_from s l Hl). assert (B := an_to s l Hl).
  split; intros [X Y]; (split; [now apply (nl_least _ _ _ A B)|]); intros q Q; apply Y; now apply (nl_least _ _ _ A B).
Qed.
Lemma nl_wanted l : In l (m_lsps s) -> wanted t l (equal_share t l) = wanted s l (equal_share s l).
Proof.
  intros Hl. unfold wanted. change (l_cfg (h_ls t l)) with (l_cfg (h_ls s l)). destruct (l_cfg (h_ls s l)); [reflexivity|]. unfold equal_share, traffic_of, dmds_of, lsps_of.
  change (m_dms t) with (m_dms s). change (m_lsps t) with (m_lsps s).
  rewrite (filter_ext_in _ (fun d => String.eqb (dmd_from s d) (lsp_from s l) && String.eqb (dmd_to s d) (lsp_to s l)) (m_dms s)).
  - rewrite (filter_ext_in _ (fun m => String.eqb (lsp_from s m) (lsp_from s l) && String.eqb (lsp_to s m) (lsp_to s l)) (m_lsps s)); [reflexivity|].
    intros m Hm. change (lsp_from t m) with (f (lsp_from s m)). change (lsp_from t l) with (f (lsp_from s l)). change (lsp_to t m) with (f (lsp_to s m)). change (lsp_to t l) with (f (lsp_to s l)).
    rewrite !nl_eqb; auto using an_from, an_to.
  - intros d Hd. change (dmd_from t d) with (f (dmd_from s d)). change (lsp_from t l) with (f (lsp_from s l)). change (dmd_to t d) with (f (dmd_to s d)). change (lsp_to t l) with (f (lsp_to s l)).
    rewrite !nl_eqb; auto using an_from, an_to, nl_dfrom, nl_dto.
Qed.

(** the conditions *)
Hypothesis D : forall a, In a (all_names s) -> dash_free (f a).
Lemma nl_names a : In a (map (nd_name s) (m_nds s)) -> In (f a) (map (nd_name t) (m_nds t)).
Proof. intros H. apply in_map_iff in H as (n & <- & Hn). change (In (nd_name t n) (map (nd_name t) (m_nds t))). now apply in_map. Qed.
Lemma nl_texts : texts_distinct t.
Proof.
  assert (X : forall a, In a (from_names t) -> dash_free a).
  { intros a Ha. unfold from_names in Ha. apply in_app_iff in Ha as [Ha|Ha]; apply in_map_iff in Ha as (x & <- & Hx).
    - exact (D _ (an_from s x Hx)).
    - exact (D _ (nl_dfrom x Hx)). }
  intros a a' b b' Ha Ha' _ _ H. apply ends_text_inj; auto.
Qed.
Lemma nl_room : usual_room k s -> usual_room k t.
Proof.
  intros R. constructor.
  - destruct (ur_posed _ _ R) as (A & B & _). split; [exact A|]. split; [exact B|exact nl_texts].
  - apply wr_known. exact (ur_known _ _ R).
  - exact (ur_cids _ _ R).
  - destruct (ur_usual _ _ R) as [U1 U2 U3 U4 U5 U6 U7 U8]. constructor; try assumption.
    + refine (nodup_weak _ _ _ _ U2). intros i j Hi Hj H. change ((i_name (h_if s i), f (loc s i)) = (i_name (h_if s j), f (loc s j))) in H. unfold if_key. injection H as H1 H2. rewrite nl_eq in H2 by auto using nl_loc. now rewrite H1, H2.
    + intros l Hl. rewrite nl_wanted by exact Hl. exact (U5 l Hl).
    + intros _ _ a b a' b' Ha _ Ha' _ H. apply in_map_iff in Ha as (n & <- & Hn). apply in_map_iff in Ha' as (l & <- & Hl). apply ends_text_inj; [exact (D _ (an_node s n Hn))|exact (D _ (an_from s l Hl))|exact H].
  - intros i Hi F Rv. assert (X := ur_ample _ _ R i Hi F Rv). eapply Qle_trans; [|exact X]. change (m_lsps t) with (m_lsps s).
    rewrite (map_ext_in _ (fun l => wanted s l (equal_share s l))); [apply Qle_refl|]. intros l Hl. now apply nl_wanted.
  - intros i j Hi Hj Rv. exact (ur_agree _ _ R i j Hi Hj (proj1 (wr_reverse f k s J i j Hi Hj) Rv)).
Qed.
Lemma nl_lfine : lsps_fine s -> lsps_fine t.
Proof.
  intros H l Hl. destruct (H l Hl) as [A B]. split; [exact (nl_names _ A)|]. change (f (lsp_from s l) <> f (lsp_to s l)). rewrite nl_eq by auto using an_from, an_to. exact B.
Qed.
Lemma nl_succeeds E E' : env_ok E -> env_ok E' -> usual_room k s -> (exists s', update_simulation E k s = (s', Ok tt)) -> exists t', update_simulation E' k t = (t', Ok tt).
Proof.
  intros HE HE' R H. assert (Rt := nl_room R).
  apply (succeeds_ample E k s HE (ur_posed _ _ R) (ur_known _ _ R) (ur_cids _ _ R) (ur_usual _ _ R) (ur_ample _ _ R)) in H as (A & B & C).
  apply (succeeds_ample E' k t HE' (ur_posed _ _ Rt) (ur_known _ _ Rt) (ur_cids _ _ Rt) (ur_usual _ _ Rt) (ur_ample _ _ Rt)).
  split; [exact (wr_fine f s J A)|]. split; [exact (nl_lfine B)|]. apply (wr_fit f k s J); [|exact C]. intros Hk. destruct C as (_ & _ & _ & _ & C). destruct (C Hk) as [C6 _].
  refine (nodup_weak _ _ _ _ C6). intros i j Hi Hj H. apply ends_text_inj in H as [H1 H2]; try (apply D, nl_loc; assumption).
  rewrite nl_eq in H1 by auto using nl_loc. rewrite nl_eq in H2 by auto using nl_rem. change (ends_text (loc s i) (rem s i) = ends_text (loc s j) (rem s j)). now rewrite H1, H2.
Qed.
End Names.

Section Runs.
Variables (f : string -> string) (E E' : env) (k : kind) (s s' t' : st).
Notation t := (rename_nodes f s).
Hypothesis HE : env_ok E.
Hypothesis HE' : env_ok E'.
Hypothesis J : forall a b, In a (all_names s) -> In b (all_names s) -> f a = f b -> a = b.
Hypothesis Rs : usual_room k s.
Hypothesis Rt : usual_room k t.
Hypothesis Up : update_simulation E k s = (s', Ok tt).
Hypothesis Up' : update_simulation E' k t = (t', Ok tt).
Hypothesis Off : shortcuts_off s.
Let WP := ur_posed _ _ Rs. Let EK := ur_known _ _ Rs. Let CS := ur_cids _ _ Rs. Let LU := ur_usual _ _ Rs. Let Am := ur_ample _ _ Rs. Let EA := ur_agree _ _ Rs.
Let WPt := ur_posed _ _ Rt. Let EKt := ur_known _ _ Rt. Let CSt := ur_cids _ _ Rt. Let LUt := ur_usual _ _ Rt. Let Amt := ur_ample _ _ Rt. Let EAt := ur_agree _ _ Rt.
Let Fs := fin_fail E k HE s s' WP CS EA Up.
Let Ft := fin_fail E' k HE' t t' WPt CSt EAt Up'.
Let KUs : if_keys_unique s := lu_ifs _ _ LU.
Let KUt : if_keys_unique t := lu_ifs _ _ LUt.
Let Ls := fin_like E k HE s s' WP EK CS LU Am EA Up.
Let Lt := fin_like E' k HE' t t' WPt EKt CSt LUt Amt EAt Up'.
Let Offt : shortcuts_off t := Off.

Lemma nr_lsp l : In l (m_lsps s) ->
  (exists p p' b b' q q', l_path (h_ls s' l) = PRouted p (route_cost s p) b /\ l_path (h_ls t' l) = PRouted p' (route_cost s p) b' /\
     best_road s l p /\ best_road s l p' /\ l_res (h_ls s' l) = RNum q /\ l_res (h_ls t' l) = RNum q' /\ (q' == q)%Q) \/
  (l_path (h_ls s' l) = PUnrouted /\ l_path (h_ls t' l) = PUnrouted /\ l_res (h_ls s' l) = RUnrouted /\ l_res (h_ls t' l) = RUnrouted).
Proof.
  intros Hl. assert (A1 := an_from s l Hl). assert (A2 := an_to s l Hl).
  destruct (placed E k HE s s' WP LU EK Up l Am Hl) as [(p & b & q & P & B & Q & W)|(P & Q & N)];
  destruct (placed E' k HE' t t' WPt LUt EKt Up' l Amt Hl) as [(p' & b' & q' & P' & B' & Q' & W')|(P' & Q' & N')].
  - left. apply (nl_best f s J l p' Hl) in B'. exists p, p', b, b', q, q'. split; [exact P|]. split.
    + rewrite P'. f_equal. rewrite nl_cost. exact (least_unique _ _ _ _ _ _ (proj1 B') (proj1 B)).
    + do 4 (split; [assumption|]). rewrite W, W'. now rewrite (nl_wanted f s J l Hl).
  - exfalso. apply (N' p). unfold road. exact (nl_route f s _ _ _ (proj1 (proj1 B))).
  - exfalso. apply (N p'). unfold road. apply (nl_back f s J); auto. exact (proj1 (proj1 B')).
  - right. auto.
Qed.
Lemma nr_setup l : In l (m_lsps s) -> exists b b', l_setup (h_ls s' l) = RNum b /\ l_setup (h_ls t' l) = RNum b' /\ (b' == b)%Q.
Proof.
  intros Hl. destruct (fin_setup E k HE s s' WP EK LU Am Up l Hl) as (b & A & B), (fin_setup E' k HE' t t' WPt EKt LUt Amt Up' l Hl) as (b' & A' & B').
  exists b, b'. split; [exact A|]. split; [exact A'|]. rewrite B, B'. now rewrite (nl_wanted f s J l Hl).
Qed.
Lemma nr_routed l : In l (m_lsps s) -> (routed_lsp s' l <-> routed_lsp t' l).
Proof.
  intros Hl. unfold routed_lsp. destruct (nr_lsp l Hl) as [(p & p' & b & b' & q & q' & A & B & _)|(A & B & _)]; split; intros (x & y & w & X); eauto; congruence.
Qed.
Lemma nr_metric l m : In l (m_lsps s) -> (metric s' l m <-> metric t' l m).
Proof.
  intros Hl. assert (A1 := an_from s l Hl). assert (A2 := an_to s l Hl). assert (Ne := usual_omm k s l LU Hl). assert (O := fin_omm E k s s' Up l). assert (O' := fin_omm E' k t t' Up' l). change (omm (h_ls t l)) with (omm (h_ls s l)) in O'.
  rewrite (metric_omm s' l m), (metric_omm t' l m) by (rewrite ?O, ?O'; exact Ne). rewrite O, O'. destruct (omm (h_ls s l)) as [[z|]|e]; [reflexivity| |reflexivity].
  destruct (fin_ls E k s s' Up l) as [-> ->], (fin_ls E' k t t' Up' l) as [-> ->]. change (lsp_from t l) with (f (lsp_from s l)). change (lsp_to t l) with (f (lsp_to s l)). destruct m as [y|].
  - split; intros (p & A & ->); exists p.
    + apply (like_least _ _ _ _ _ _ _ Ls) in A. split; [apply (like_least _ _ _ _ _ _ _ Lt); now apply (nl_least f s J)|].
      rewrite (like_cost _ _ _ _ _ _ _ Ls (proj1 A)), (like_cost _ _ _ _ _ _ _ Lt (nl_route f s _ _ _ (proj1 A))). symmetry. apply nl_cost.
    + apply (like_least _ _ _ _ _ _ _ Lt) in A. assert (B := A). apply (nl_least f s J) in B; auto. split; [now apply (like_least _ _ _ _ _ _ _ Ls)|].
      rewrite (like_cost _ _ _ _ _ _ _ Ls (proj1 B)), (like_cost _ _ _ _ _ _ _ Lt (proj1 A)). apply nl_cost.
  - split; intros N q Hq.
    + apply (like_route _ _ _ _ _ _ _ (like_sym _ _ _ _ Lt)) in Hq. apply (nl_back f s J) in Hq; auto. apply (N q). exact (like_route _ _ _ _ _ _ _ Ls Hq).
    + apply (like_route _ _ _ _ _ _ _ (like_sym _ _ _ _ Ls)) in Hq. apply (nl_route f s) in Hq. apply (N q). exact (like_route _ _ _ _ _ _ _ Lt Hq).
Qed.
Section Demand.
Variable d : nat.
Hypothesis Hd : In d (m_dms s).
Let A1 := nl_dfrom s d Hd.
Let A2 := nl_dto s d Hd.
Lemma nr_ends : dmd_from t' d = f (dmd_from s' d) /\ dmd_to t' d = f (dmd_to s' d) /\ d_traffic (h_dm t' d) = d_traffic (h_dm s' d).
Proof. destruct (fin_dm E k s s' Up d) as (->&->&->), (fin_dm E' k t t' Up' d) as (->&->&->). repeat split. Qed.
Lemma nr_lsp_of l : lsp_of s' d l <-> lsp_of t' d l.
Proof.
  unfold lsp_of. destruct (fin_dm E k s s' Up d) as (->&->&_), (fin_dm E' k t t' Up' d) as (->&->&_). destruct (fin_ls E k s s' Up l) as [-> ->], (fin_ls E' k t t' Up' l) as [-> ->].
  destruct (fin_sets E k s s' Up) as (_&_&_&->), (fin_sets E' k t t' Up') as (_&_&_&->). change (m_lsps t) with (m_lsps s).
  change (lsp_from t l) with (f (lsp_from s l)). change (lsp_to t l) with (f (lsp_to s l)). change (dmd_from t d) with (f (dmd_from s d)). change (dmd_to t d) with (f (dmd_to s d)).
  split; intros (X & Y & Z).
  - rewrite Y, Z. auto.
  - split; [exact X|]. split; apply J; auto using an_from, an_to.
Qed.
Lemma nr_preferred l : preferred s' d l <-> preferred t' d l.
Proof.
  unfold preferred. split; intros (A & B & m & Mm & C).
  - assert (Hl := in_lsp E k s s' Up d l A). split; [now apply nr_lsp_of|]. split; [now apply nr_routed|]. exists m. split; [now apply nr_metric|]. intros x X Y. apply nr_lsp_of in X. assert (Hx := in_lsp E k s s' Up d x X).
    apply nr_routed in Y; auto. destruct (C x X Y) as (m' & M1 & M2). exists m'. split; [now apply nr_metric|exact M2].
  - apply nr_lsp_of in A. assert (Hl := in_lsp E k s s' Up d l A). split; [exact A|]. split; [now apply nr_routed|]. exists m. split; [now apply nr_metric|]. intros x X Y. assert (Hx := in_lsp E k s s' Up d x X).
    apply nr_lsp_of in X. apply nr_routed in Y; auto. destruct (C x X Y) as (m' & M1 & M2). exists m'. split; [now apply nr_metric|exact M2].
Qed.
Lemma nr_none : no_lsp_for s' d <-> no_lsp_for t' d.
Proof.
  split; intros N l Hl.
  - apply nr_lsp_of in Hl. assert (I := in_lsp E k s s' Up d l Hl). destruct (nr_lsp l I) as [(p & p' & b & b' & q & q' & P & _)|(_ & P & _)]; [|exact P]. assert (X := N l Hl). congruence.
  - assert (I := in_lsp E k s s' Up d l Hl). apply nr_lsp_of in Hl. destruct (nr_lsp l I) as [(p & p' & b & b' & q & q' & _ & P & _)|(P & _)]; [|exact P]. assert (X := N l Hl). congruence.
Qed.
Lemma nr_some : (exists l, lsp_of s' d l /\ routed_lsp s' l) -> exists l, lsp_of t' d l /\ routed_lsp t' l.
Proof. intros (l & A & B). assert (I := in_lsp E k s s' Up d l A). exists l. split; [now apply nr_lsp_of|now apply nr_routed]. Qed.
Lemma nr_least p : least_cost s' (usable s') (dmd_from s' d) p (dmd_to s' d) <-> least_cost t' (usable t') (dmd_from t' d) p (dmd_to t' d).
Proof.
  destruct (fin_dm E k s s' Up d) as (->&->&_), (fin_dm E' k t t' Up' d) as (->&->&_). rewrite <- (like_least _ _ _ _ _ _ _ Ls), <- (like_least _ _ _ _ _ _ _ Lt). exact (nl_least f s J _ p _ A1 A2).
Qed.
Lemma nr_paths : same_paths (d_path (h_dm s' d)) (d_path (h_dm t' d)).
Proof.
  destruct (routed_or E k HE s s' WP EK LU Am Up d) as [H|N].
  - assert (H' := nr_some H).
    destruct (C07_ride E k s s' d HE WP (lu_once _ _ LU) Up Fs Hd H) as (ls & es & _ & _ & X & -> & _).
    destruct (C07_ride E' k t t' d HE' WPt (lu_once _ _ LUt) Up' Ft Hd H') as (ls' & es' & _ & _ & X' & -> & _).
    simpl. intros q. rewrite !in_map_iff. split; intros (l & <- & Hl); exists l; (split; [reflexivity|]).
    + apply X', nr_preferred, X, Hl.
    + apply X, nr_preferred, X', Hl.
  - assert (N' := proj1 nr_none N).
    assert (A := C01_igp_paths E k s s' d HE WP Up Fs Hd N (off_s E k s s' Up Off d)). assert (B := C01_igp_paths E' k t t' d HE' WPt Up' Ft Hd N' (off_s E' k t t' Up' Offt d)).
    destruct (d_path (h_dm s' d)) as [|ps], (d_path (h_dm t' d)) as [|qs]; simpl; auto.
    + destruct B as (M & _ & Ne & _ & I). destruct M as [|p M]; [contradiction|]. apply (A p). apply nr_least. apply I. left; auto.
    + destruct A as (M & _ & Ne & _ & I). destruct M as [|p M]; [contradiction|]. apply (B p). apply nr_least. apply I. left; auto.
    + destruct A as (M & -> & _ & _ & I), B as (M' & -> & _ & _ & I'). intros q. rewrite !in_map_iff. split; intros (p & <- & Hp); exists p; (split; [reflexivity|]).
      * apply I', nr_least, I, Hp.
      * apply I, nr_least, I', Hp.
Qed.
Lemma nr_igp i ps qs fs gs : no_lsp_for s' d -> no_lsp_for t' d -> d_path (h_dm s' d) = DPaths ps -> d_path (h_dm t' d) = DPaths qs ->
  d_detail (h_dm s' d) = PDInfo fs -> d_detail (h_dm t' d) = PDInfo gs -> (carried s' i fs == carried t' i gs)%Q.
Proof.
  intros N N' P Q F G. assert (S1 := off_s E k s s' Up Off d). assert (S2 := off_s E' k t t' Up' Offt d).
  destruct (igp_shares E k HE s s' WP Up Fs KUs d ps Hd N S1 P) as (L & e1 & o1 & -> & _ & N1 & I1 & _ & D1 & O1 & X1 & T1 & _).
  destruct (igp_shares E' k HE' t t' WPt Up' Ft KUt d qs Hd N' S2 Q) as (M & e2 & o2 & -> & _ & N2 & I2 & _ & D2 & O2 & X2 & T2 & _).
  assert (e1 = fs) by congruence. assert (e2 = gs) by congruence. subst e1 e2. destruct nr_ends as (_ & _ & T).
  assert (LM : forall p, In p L <-> In p M) by (intros p; rewrite I1, I2; apply nr_least).
  assert (On : forall p, In p L -> forall j, In j p -> In j (m_ifs s)).
  { intros p Hp j Hj. apply I1 in Hp as [Rr _]. destruct (route_all _ _ _ _ _ j Rr Hj) as [H _]. now rewrite (proj1 (fin_sets E k s s' Up)) in H. }
  assert (Lc : forall j, loc t' j = f (loc s' j)). { intros j. destruct (fin_loc E k s s' Up j) as [-> _], (fin_loc E' k t t' Up' j) as [-> _]. reflexivity. }
  assert (Lj : forall p q i j, In p L -> In q L -> In i p -> In j q -> (loc t' i = loc t' j <-> loc s' i = loc s' j)).
  { intros p q a b Hp Hq Ha Hb. rewrite !Lc. destruct (fin_loc E k s s' Up a) as [-> _], (fin_loc E k s s' Up b) as [-> _]. apply (nl_eq f s J); apply nl_loc; [exact (On p Hp a Ha)|exact (On q Hq b Hb)]. }
  assert (OO : forall p i, In p L -> In i p -> List.length (o1 (loc s' i)) = List.length (o2 (loc t' i))).
  { intros p a Hp Ha. apply same_count; auto. intros j. rewrite X1, X2. split; intros [H (q & Hq & Hj)].
    - split; [now apply (Lj q p j a)|]. exists q. split; [now apply LM|exact Hj].
    - apply LM in Hq. split; [now apply (Lj q p j a)|]. eauto. }
  rewrite (carried_shares k s' _ _ _ _ i T1), (carried_shares k t' _ _ _ _ i T2), T.
  rewrite <- (sumq_perm _ _ _ (NoDup_Permutation N1 N2 LM)). apply sumq_ext. intros p Hp. rewrite (crossings_if s' t').
  assert (WW : w (loc t') o2 p = w (loc s') o1 p); [|now rewrite WW].
  assert (H : forall i, In i p -> List.length (o1 (loc s' i)) = List.length (o2 (loc t' i))) by (intros a Ha; exact (OO p a Hp Ha)). clear -H.
  induction p as [|j p IH]; [reflexivity|]. cbn [w]. rewrite IH by (intros; apply H; right; auto). unfold deg. now rewrite (H j (or_introl eq_refl)).
Qed.
Lemma nr_adds i x y : (forall l, preferred s' d l -> sole_road s l) -> adds k s' d i x -> adds k t' d i y -> (x == y)%Q.
Proof.
  intros So A B. destruct (routed_or E k HE s s' WP EK LU Am Up d) as [H|N].
  - assert (H' := nr_some H). destruct (adds_ride k E s s' d i x HE WP (lu_once _ _ LU) Up Fs Hd H A) as (ls & N1 & I1 & ->).
    destruct (adds_ride k E' t t' d i y HE' WPt (lu_once _ _ LUt) Up' Ft Hd H' B) as (ls' & N2 & I2 & ->).
    assert (LM : forall l, In l ls <-> In l ls') by (intros l; rewrite I1, I2; apply nr_preferred).
    assert (PM := NoDup_Permutation N1 N2 LM). unfold ridden. destruct nr_ends as (_ & _ & ->). unfold count. rewrite (Permutation_length PM).
    rewrite (Qsum_perm _ _ (Permutation_map _ PM)).
    change (sumq (fun l => d_traffic (h_dm s' d) / inject_Z (Z.of_nat (List.length ls')) * inject_Z (Z.of_nat (crossings s' i [ILsp l])))%Q ls' ==
            sumq (fun l => d_traffic (h_dm s' d) / inject_Z (Z.of_nat (List.length ls')) * inject_Z (Z.of_nat (crossings t' i [ILsp l])))%Q ls')%Q.
    apply sumq_ext. intros l Hl. assert (Pl : preferred s' d l) by now apply I1, LM.
    assert (C : crossings t' i [ILsp l] = crossings s' i [ILsp l]); [|now rewrite C].
    destruct (nr_lsp l (in_lsp E k s s' Up d l (proj1 Pl))) as [(p & p' & b & b' & q & q' & P & P' & Bp & Bp' & _)|(P & P' & _)].
    + rewrite (crossings_lsp _ _ _ _ _ _ P), (crossings_lsp _ _ _ _ _ _ P'). now rewrite (So l Pl p' p Bp' Bp).
    + unfold crossings. simpl. now rewrite P, P'.
  - assert (N' := proj1 nr_none N). assert (A' := adds_igp k E s s' d i x HE WP KUs Up Fs Hd N (off_s E k s s' Up Off d) A). assert (B' := adds_igp k E' t t' d i y HE' WPt KUt Up' Ft Hd N' (off_s E' k t t' Up' Offt d) B).
    assert (SP := nr_paths). destruct (d_path (h_dm s' d)) as [|ps] eqn:P, (d_path (h_dm t' d)) as [|qs] eqn:Q; try contradiction.
    + now rewrite A', B'.
    + destruct A' as (fs & F & X), B' as (gs & G & Y). assert (C := nr_igp i ps qs fs gs N N' P Q F G). clear -C X Y. destruct k.
      * now rewrite X, Y.
      * apply rounds_unique in X. apply (rounds_compat _ _ _ _ _ (Qeq_sym _ _ C) (Qeq_refl _)) in Y. apply rounds_unique in Y. now rewrite X, Y.
Qed.
End Demand.
Lemma nr_traffic i : In i (m_ifs s) -> (forall d l, In d (m_dms s) -> preferred s' d l -> sole_road s l) -> same_traffic (i_traffic (h_if s' i)) (i_traffic (h_if t' i)).
Proof.
  intros Hi So. assert (A := pair_sum E k HE s s' (room_with _ _ Rs Off) Up i Hi). assert (B := pair_sum E' k HE' t t' (room_with _ _ Rt Offt) Up' i Hi). change (i_failed (h_if t i)) with (i_failed (h_if s i)) in B.
  destruct (i_failed (h_if s i)); [rewrite A, B; exact I|]. destruct A as (q & g & -> & A2 & A3), B as (r & h & -> & B2 & B3). simpl. rewrite A3, B3. change (m_dms t) with (m_dms s). change (m_dms t) with (m_dms s) in B2.
  apply sumq_ext. intros d Hd. exact (nr_adds d Hd i (g d) (h d) (fun l => So d l Hd) (A2 d Hd) (B2 d Hd)).
Qed.
End Runs.
