(** OrderLsps.v - models with LSPs that list the same objects in another order,
    with room for all LSPs (C89). *)
From Verif Require Import Base Graph Objects Sim Api Spec SpecCkt SpecSim SpecMetric SpecFlow SpecOrder SpecShort SpecTotal SpecWhatIf SpecSame SpecHist SpecFail GraphProofs MonadProofs RoundProofs ResProofs ObjProofs CircuitProofs
  ValidateProofs GroupProofs PathProofs QuietProofs RouteProofs LeastProofs OrderProofs DemandProofs MetricProofs IgpProofs Ecmp TrafficProofs ShareProofs FlowProofs UtilProofs WhatIf OwnProofs OwnApi SpecSig SigProofs SigSeq SigEnd LspTotal SigTotal LspSucceeds LspExact
  PropertiesApi PropertiesRoute PropertiesTraffic PropertiesSignal.
From Coq Require Import Permutation Lqa.

(** ** Two networks with the same links *)
Record like (P Q : nat -> Prop) (a b : st) : Prop := {
  lk_ifs : forall i, In i (m_ifs a) <-> In i (m_ifs b);
  lk_data : forall i, In i (m_ifs a) -> loc b i = loc a i /\ rem b i = rem a i /\ i_cost (h_if b i) = i_cost (h_if a i) /\ (P i <-> Q i) }.
Lemma like_sym P Q a b : like P Q a b -> like Q P b a.
Proof.
  intros [A B]. constructor; [intros i; symmetry; auto|]. intros i Hi. apply A in Hi. destruct (B i Hi) as (?&?&?&?). do 3 (split; [congruence|]). symmetry. assumption.
Qed.
Lemma like_route P Q a b u p v : like P Q a b -> route a P u p v -> route b Q u p v.
Proof.
  intros L. induction 1 as [n|i p v Hi O R IH]; [constructor|]. destruct (lk_data _ _ _ _ L i Hi) as (<- & X & _ & Y). constructor; [now apply (lk_ifs _ _ _ _ L)|now apply Y|now rewrite X].
Qed.
Lemma like_cost P Q a b u p v : like P Q a b -> route a P u p v -> route_cost b p = route_cost a p.
Proof. intros L. induction 1 as [|i p v Hi U R IH]; [reflexivity|]. cbn [route_cost]. rewrite IH. now destruct (lk_data _ _ _ _ L i Hi) as (_ & _ & -> & _). Qed.
Lemma like_least' P Q a b u p v : like P Q a b -> least_cost a P u p v -> least_cost b Q u p v.
Proof.
  intros L [R M]. split; [eapply like_route; eauto|]. intros q Hq. apply (like_route _ _ _ _ _ _ _ (like_sym _ _ _ _ L)) in Hq.
  rewrite (like_cost _ _ _ _ _ _ _ L R), (like_cost _ _ _ _ _ _ _ L Hq). auto.
Qed.
Lemma like_least P Q a b u p v : like P Q a b -> (least_cost a P u p v <-> least_cost b Q u p v).
Proof. intros L. split; apply like_least'; auto. now apply like_sym. Qed.
Lemma like_best a b l p : like (rsvp_up a) (rsvp_up b) a b -> lsp_from b l = lsp_from a l -> lsp_to b l = lsp_to a l -> (best_road a l p <-> best_road b l p).
Proof.
  intros L F T. unfold best_road. rewrite F, T. rewrite (like_least _ _ _ _ _ _ _ L). split; intros [A B]; (split; [exact A|]); intros q Hq; apply B; now apply (like_least _ _ _ _ _ _ _ L).
Qed.

(** ** The hypotheses carry over *)
Section Carry.
Variables s t : st.
Hypothesis R : reordered s t.
Let Pin {A} (x y : list A) : Permutation x y -> forall z, In z y -> In z x := fun P z => Permutation_in z (Permutation_sym P).

Lemma filter_perm {A} (f : A -> bool) x y : Permutation x y -> Permutation (filter f x) (filter f y).
Proof.
  induction 1; simpl; auto.
  - destruct (f x); auto.
  - destruct (f x), (f y); auto. constructor.
  - eapply perm_trans; eauto.
Qed.
Lemma ro_like : like (rsvp_up s) (rsvp_up t) s t.
Proof.
  constructor; [intros i; split; apply Permutation_in; [|apply Permutation_sym]; apply R|]. intros i _. destruct (ro_loc _ _ R i) as [-> ->]. unfold rsvp_up. rewrite (ro_if _ _ R). tauto.
Qed.
Lemma ro_share l : (equal_share t l == equal_share s l)%Q.
Proof.
  unfold equal_share, traffic_of, lsps_of, dmds_of. 
  assert (A : Permutation (filter (fun d => String.eqb (dmd_from t d) (lsp_from t l) && String.eqb (dmd_to t d) (lsp_to t l)) (m_dms t))
                          (filter (fun d => String.eqb (dmd_from s d) (lsp_from s l) && String.eqb (dmd_to s d) (lsp_to s l)) (m_dms s))).
  { rewrite (filter_ext (fun d => String.eqb (dmd_from t d) (lsp_from t l) && String.eqb (dmd_to t d) (lsp_to t l)) (fun d => String.eqb (dmd_from s d) (lsp_from s l) && String.eqb (dmd_to s d) (lsp_to s l))).
    - apply filter_perm, Permutation_sym, R.
    - intros d. destruct (ro_ends _ _ R d) as [-> ->], (ro_lends _ _ R l) as [-> ->]. reflexivity. }
  assert (B : Permutation (filter (fun m => String.eqb (lsp_from t m) (lsp_from t l) && String.eqb (lsp_to t m) (lsp_to t l)) (m_lsps t))
                          (filter (fun m => String.eqb (lsp_from s m) (lsp_from s l) && String.eqb (lsp_to s m) (lsp_to s l)) (m_lsps s))).
  { rewrite (filter_ext (fun m => String.eqb (lsp_from t m) (lsp_from t l) && String.eqb (lsp_to t m) (lsp_to t l)) (fun m => String.eqb (lsp_from s m) (lsp_from s l) && String.eqb (lsp_to s m) (lsp_to s l))).
    - apply filter_perm, Permutation_sym, R.
    - intros d. destruct (ro_lends _ _ R d) as [-> ->], (ro_lends _ _ R l) as [-> ->]. reflexivity. }
  rewrite (Permutation_length B). rewrite (ro_dm _ _ R). rewrite (Qsum_perm _ _ (Permutation_map (fun d => d_traffic (h_dm s d)) A)). reflexivity.
Qed.
Lemma ro_wanted l : (wanted t l (equal_share t l) == wanted s l (equal_share s l))%Q.
Proof. unfold wanted. rewrite (ro_ls _ _ R). destruct (l_cfg (h_ls s l)); [reflexivity|apply ro_share]. Qed.
Lemma ro_usual k : lsps_usual k s -> lsps_usual k t.
Proof.
  intros LU. constructor.
  - exact (Permutation_NoDup (ro_lsps _ _ R) (lu_once _ _ LU)).
  - exact (ro_keys _ _ R (lu_ifs _ _ LU)).
  - intros d Hd. rewrite (ro_dm _ _ R). apply (lu_traffic _ _ LU). exact (Pin _ _ (ro_dms _ _ R) d Hd).
  - intros l c Hl. rewrite (ro_ls _ _ R). apply (lu_cfg _ _ LU). exact (Pin _ _ (ro_lsps _ _ R) l Hl).
  - intros l Hl. eapply tenths_eq; [symmetry; apply ro_wanted|]. apply (lu_tenths _ _ LU). exact (Pin _ _ (ro_lsps _ _ R) l Hl).
  - intros i Hi. rewrite (ro_if _ _ R). apply (lu_caps _ _ LU). exact (Pin _ _ (ro_ifs _ _ R) i Hi).
  - intros l c Hl. rewrite (ro_ls _ _ R). apply (lu_metric _ _ LU). exact (Pin _ _ (ro_lsps _ _ R) l Hl).
  - intros Hk (n & Hn & Sn). assert (T : node_texts s). { apply (lu_texts _ _ LU Hk). exists n. rewrite <- (ro_nd _ _ R). split; [exact (Pin _ _ (ro_nds _ _ R) n Hn)|exact Sn]. }
    intros a b a' b' Ha Hb Ha' Hb'. apply T.
    + exact (Pin _ _ (ro_names _ _ R) _ Ha).
    + exact (Pin _ _ (ro_names _ _ R) _ Hb).
    + apply in_map_iff in Ha' as (l & <- & Hl). destruct (ro_lends _ _ R l) as [-> _]. apply in_map. exact (Pin _ _ (ro_lsps _ _ R) _ Hl).
    + apply in_map_iff in Hb' as (l & <- & Hl). destruct (ro_lends _ _ R l) as [_ ->]. apply in_map. exact (Pin _ _ (ro_lsps _ _ R) _ Hl).
Qed.
Lemma ro_ample : ample s -> ample t.
Proof.
  intros A i Hi Fi Ri. rewrite (ro_if _ _ R) in *. assert (X := A i (Pin _ _ (ro_ifs _ _ R) i Hi) Fi Ri).
  eapply Qle_trans; [|exact X]. rewrite <- (Qsum_perm _ _ (Permutation_map (fun l => wanted t l (equal_share t l)) (ro_lsps _ _ R))).
  change (sumq (fun l => wanted t l (equal_share t l)) (m_lsps s) <= sumq (fun l => wanted s l (equal_share s l)) (m_lsps s))%Q.
  rewrite (sumq_ext _ (fun l => wanted s l (equal_share s l))); [apply Qle_refl|]. intros l _. apply ro_wanted.
Qed.
Lemma ro_lfine : lsps_fine s -> lsps_fine t.
Proof.
  intros H l Hl. destruct (ro_lends _ _ R l) as [-> ->]. destruct (H l (Pin _ _ (ro_lsps _ _ R) l Hl)) as [A B]. split; [|exact B]. exact (Permutation_in _ (ro_names _ _ R) A).
Qed.
End Carry.

Lemma ro_lone s t : reordered s t -> lone s -> lone t.
Proof.
  intros R L l m Hl Hm. destruct (ro_lends _ _ R l) as [-> ->], (ro_lends _ _ R m) as [-> ->].
  apply L; [apply (Permutation_in _ (Permutation_sym (ro_lsps _ _ R)) Hl)|apply (Permutation_in _ (Permutation_sym (ro_lsps _ _ R)) Hm)].
Qed.
Section Succeeds.
Variables (E E' : env) (k : kind).
Hypothesis HE : env_ok E.
Hypothesis HE' : env_ok E'.
Lemma lsps_succeed s t : reordered s t -> well_posed s -> ends_known s -> cids_set k s -> lsps_usual k s -> ample s ->
  ((exists s', update_simulation E k s = (s', Ok tt)) <-> (exists t', update_simulation E' k t = (t', Ok tt))).
Proof.
  intros R WP EK CS LU Am.
  rewrite (succeeds_ample E k s HE WP EK CS LU Am), (succeeds_ample E' k t HE' (ro_posed _ _ R WP) (ro_known _ _ R EK) (ro_cids _ _ R k CS) (ro_usual _ _ R k LU) (ro_ample _ _ R Am)).
  assert (R' := reordered_sym _ _ R). split; intros (A & B & C).
  - split; [exact (ro_fine _ _ R A)|]. split; [exact (ro_lfine _ _ R B)|exact (ro_fit _ _ R k C)].
  - split; [exact (ro_fine _ _ R' A)|]. split; [exact (ro_lfine _ _ R' B)|exact (ro_fit _ _ R' k C)].
Qed.
Lemma lone_succeed s t : reordered s t -> well_posed s -> ends_known s -> cids_set k s -> lsps_usual k s -> lone s ->
  ((exists s', update_simulation E k s = (s', Ok tt)) <-> (exists t', update_simulation E' k t = (t', Ok tt))).
Proof.
  intros R WP EK CS LU Am.
  rewrite (succeeds_lone E k s HE WP EK CS LU Am), (succeeds_lone E' k t HE' (ro_posed _ _ R WP) (ro_known _ _ R EK) (ro_cids _ _ R k CS) (ro_usual _ _ R k LU) (ro_lone _ _ R Am)).
  assert (R' := reordered_sym _ _ R). split; intros (A & B & C).
  - split; [exact (ro_fine _ _ R A)|]. split; [exact (ro_lfine _ _ R B)|exact (ro_fit _ _ R k C)].
  - split; [exact (ro_fine _ _ R' A)|]. split; [exact (ro_lfine _ _ R' B)|exact (ro_fit _ _ R' k C)].
Qed.
End Succeeds.

(** ** The end of a simulation with room for all LSPs *)
Lemma metric_omm s l m : (forall e, omm (h_ls s l) <> Err e) ->
  (metric s l m <-> match omm (h_ls s l) with
                    | Ok (Some c) => m = Some c
                    | Ok None => match m with
                                 | Some c => exists p, least_cost s (usable s) (lsp_from s l) p (lsp_to s l) /\ c = route_cost s p
                                 | None => forall p, ~ route s (usable s) (lsp_from s l) p (lsp_to s l)
                                 end
                    | Err _ => True
                    end).
Proof.
  unfold metric, omm, mstate_of. destruct (l_imm (h_ls s l)) as [z|]; [|intros _; destruct (l_mm (h_ls s l)); tauto]. destruct (Z.eqb z 0); [intros _; destruct (l_mm (h_ls s l)); tauto|].
  destruct (Z.ltb 0 z); [tauto|]. intros H. destruct (H _ eq_refl).
Qed.

Section Final.
Variables (E : env) (k : kind).
Hypothesis HE : env_ok E.
Variables s s' : st.
Hypothesis WP : well_posed s.
Hypothesis EK : ends_known s.
Hypothesis CS : cids_set k s.
Hypothesis LU : lsps_usual k s.
Hypothesis Am : ample s.
Hypothesis EA : ends_agree k s.
Hypothesis Up : update_simulation E k s = (s', Ok tt).

Lemma fin_fail : same_failures s s'. Proof. exact (update_stable E k s s' HE (proj1 WP) CS EA Up). Qed.
Lemma fin_input : Spec.same_input s s'.
Proof. assert (X := C19_update_keeps_input E k s). cbv zeta in X. rewrite Up in X. apply X. Qed.
Lemma fin_sets : m_ifs s' = m_ifs s /\ m_nds s' = m_nds s /\ m_dms s' = m_dms s /\ m_lsps s' = m_lsps s. Proof. destruct fin_input as ((?&?&?&?&?)&_). auto. Qed.
Lemma fin_nd n : h_nd s' n = h_nd s n. Proof. destruct fin_input as (_&H&_). auto. Qed.
Lemma fin_loc i : loc s' i = loc s i /\ rem s' i = rem s i.
Proof. destruct fin_input as (_&H&_&X&_). unfold loc, rem. rewrite !H. destruct (X i) as (_&_&_&->&->&_). auto. Qed.
Lemma fin_cost i : i_cost (h_if s' i) = i_cost (h_if s i). Proof. destruct fin_input as (_&_&_&X&_). apply (X i). Qed.
Lemma fin_dm d : dmd_from s' d = dmd_from s d /\ dmd_to s' d = dmd_to s d /\ d_traffic (h_dm s' d) = d_traffic (h_dm s d).
Proof. destruct fin_input as (_&H&_&_&X&_). unfold dmd_from, dmd_to. rewrite !H. destruct (X d) as (->&->&->&_). auto. Qed.
Lemma fin_ls l : lsp_from s' l = lsp_from s l /\ lsp_to s' l = lsp_to s l.
Proof. destruct fin_input as (_&H&_&_&_&X). unfold lsp_from, lsp_to. rewrite !H. destruct (X l) as (->&->&_). auto. Qed.
Lemma fin_omm l : omm (h_ls s' l) = omm (h_ls s l).
Proof.
  assert (St := steady_history E k s [OpUpdate] s (fun o H => match H with or_introl e => match e in (_ = y) return (outage_op s y) with eq_refl => I end | or_intror f => match f with end end) (steady_refl s)).
  cbn [run_ops run_op] in St. unfold run_op in St. destruct St as [_ _ M]. simpl in M. rewrite Up in M. exact (M l).
Qed.
Lemma fin_all : all_or_none s'.
Proof.
  intros l m Hl Hm F T U. rewrite (proj2 (proj2 (proj2 fin_sets))) in Hl, Hm. destruct (fin_ls l) as [L1 L2], (fin_ls m) as [M1 M2].
  destruct (placed E k HE s s' WP LU EK Up m Am Hm) as [(p & b & q & P & B & _)|(P & _)]; [|exact P].
  destruct (placed E k HE s s' WP LU EK Up l Am Hl) as [(p' & b' & q' & P' & _)|(P' & _ & N)]; [congruence|].
  exfalso. destruct B as [[B _] _]. apply (N p). unfold road. rewrite <- L1, <- L2, F, T, M1, M2. exact B.
Qed.
Lemma fin_usable i : In i (m_ifs s) -> (usable s' i <-> rsvp_up s i).
Proof.
  intros Hi. unfold usable, rsvp_up. rewrite (fin_fail i Hi). destruct fin_input as (_&_&_&X&_). destruct (X i) as (_&_&_&_&_&_&Rs&_).
  split; (intros [A B]; split; [exact A|]).
  - destruct B as (r & Rr & P). unfold reservable in Rr. rewrite Rs in Rr. destruct (i_rsvp (h_if s i)); [reflexivity|]. lra.
  - destruct (lu_caps _ _ LU i Hi) as (_ & C0 & P0 & _).
    apply (C12_update E k s s' i HE WP (lu_once _ _ LU) (lu_traffic _ _ LU) Up fin_all fin_fail Hi B). now apply Qmult_le_0_compat.
Qed.
Lemma fin_like : like (rsvp_up s) (usable s') s s'.
Proof.
  constructor; [intros i; now rewrite (proj1 fin_sets)|]. intros i Hi. destruct (fin_loc i) as [-> ->]. rewrite (fin_cost i). do 3 (split; [reflexivity|]). symmetry. now apply fin_usable.
Qed.
Lemma fin_routed l : In l (m_lsps s) -> (routed_lsp s' l <-> exists p, road s l p).
Proof.
  intros Hl. unfold routed_lsp. destruct (placed E k HE s s' WP LU EK Up l Am Hl) as [(p & b & q & P & B & _)|(P & _ & N)].
  - split; intros _; [|eauto]. exists p. apply B.
  - split; [intros (p & c & b & X); congruence|]. intros (p & X). destruct (N p X).
Qed.
Lemma fin_setup l : In l (m_lsps s) -> exists b, l_setup (h_ls s' l) = RNum b /\ (b == wanted s l (equal_share s l))%Q.
Proof.
  intros Hl. destruct (C14_setup E k s s' l HE WP (lu_once _ _ LU) (lu_traffic _ _ LU) Up Hl) as (b & [[A B]|(_ & NU & (m & Hm & U) & _)]).
  - exists b. split; [exact A|]. unfold wanted. destruct (l_cfg (h_ls s l)); exact B.
  - exfalso. apply filter_In in Hm as [Hm T]. apply andb_prop in T as [T1 T2]. apply String.eqb_eq in T1, T2. apply NU.
    apply (fin_all m l); rewrite ?(proj2 (proj2 (proj2 fin_sets))); auto.
    + destruct (fin_ls l) as [-> _], (fin_ls m) as [-> _]. exact T1.
    + destruct (fin_ls l) as [_ ->], (fin_ls m) as [_ ->]. exact T2.
Qed.
Lemma fin_metric_ok l : In l (m_lsps s) -> forall e, omm (h_ls s' l) <> Err e.
Proof.
  intros Hl e. rewrite fin_omm. assert (X := lu_metric _ _ LU l). unfold mstate_of, omm in *. destruct (l_imm (h_ls s l)) as [z|]; [|discriminate].
  destruct (Z.eqb z 0); [discriminate|]. assert (Y := X z Hl eq_refl). destruct (Z.ltb_spec 0 z); [discriminate|lia].
Qed.
End Final.

Section Same.
Variables (E E' : env) (k : kind).
Hypothesis HE : env_ok E.
Hypothesis HE' : env_ok E'.
Variables s t s' t' : st.
Hypothesis R : reordered s t.
Hypothesis WP : well_posed s.
Hypothesis EK : ends_known s.
Hypothesis CS : cids_set k s.
Hypothesis LU : lsps_usual k s.
Hypothesis Am : ample s.
Hypothesis Up : update_simulation E k s = (s', Ok tt).
Hypothesis Up' : update_simulation E' k t = (t', Ok tt).
Let WPt := ro_posed _ _ R WP.
Let EKt := ro_known _ _ R EK.
Let CSt := ro_cids _ _ R k CS.
Let LUt := ro_usual _ _ R k LU.
Let Amt := ro_ample _ _ R Am.
Let it {i} : In i (m_ifs s) -> In i (m_ifs t) := Permutation_in i (ro_ifs _ _ R).
Let lt {i} : In i (m_lsps s) -> In i (m_lsps t) := Permutation_in i (ro_lsps _ _ R).
Let dt {i} : In i (m_dms s) -> In i (m_dms t) := Permutation_in i (ro_dms _ _ R).

Lemma same_roadt l p : road s l p <-> road t l p.
Proof.
  unfold road. destruct (ro_lends _ _ R l) as [-> ->]. split; apply like_route; [apply ro_like, R|apply like_sym, ro_like, R].
Qed.
Lemma same_bestt l p : best_road s l p <-> best_road t l p.
Proof. destruct (ro_lends _ _ R l). apply like_best; auto. apply ro_like, R. Qed.
Lemma best_cost l p q : best_road s l p -> best_road t l q -> route_cost s p = route_cost t q.
Proof.
  intros [A _] B. apply same_bestt in B as [B _]. destruct A as [A1 A2], B as [B1 B2]. rewrite (like_cost _ _ _ _ _ _ _ (ro_like _ _ R) B1).
  apply Z.le_antisymm; auto.
Qed.
Lemma same_lsp l : In l (m_lsps s) -> same_fate (l_path (h_ls s' l)) (l_path (h_ls t' l)) /\ same_amount (l_res (h_ls s' l)) (l_res (h_ls t' l)).
Proof.
  intros Hl. destruct (placed E k HE s s' WP LU EK Up l Am Hl) as [(p & b & q & P & B & Q & W)|(P & Q & N)];
  destruct (placed E' k HE' t t' WPt LUt EKt Up' l Amt (lt Hl)) as [(p' & b' & q' & P' & B' & Q' & W')|(P' & Q' & N')]; rewrite P, P', Q, Q'; simpl.
  - split; [eapply best_cost; eauto|]. rewrite W, W'. symmetry. apply ro_wanted, R.
  - destruct (N' p). apply same_roadt. apply B.
  - destruct (N p'). apply same_roadt. apply B'.
  - auto.
Qed.
Lemma same_lway l : In l (m_lsps s) -> sole_roads s -> same_way (l_path (h_ls s' l)) (l_path (h_ls t' l)).
Proof.
  intros Hl So. destruct (placed E k HE s s' WP LU EK Up l Am Hl) as [(p & b & q & P & B & Q & W)|(P & Q & N)];
  destruct (placed E' k HE' t t' WPt LUt EKt Up' l Amt (lt Hl)) as [(p' & b' & q' & P' & B' & Q' & W')|(P' & Q' & N')]; rewrite P, P'; simpl.
  - assert (X : p = p') by (apply (So l); auto; now apply same_bestt). split; [exact X|]. subst p'. eapply best_cost; eauto.
  - destruct (N' p). apply same_roadt. apply B.
  - destruct (N p'). apply same_roadt. apply B'.
  - auto.
Qed.

Section Agree.
Hypothesis EA : ends_agree k s.
Let EAt := ro_agree _ _ R k EA.

Lemma same_setup l : In l (m_lsps s) -> same_amount (l_setup (h_ls s' l)) (l_setup (h_ls t' l)).
Proof.
  intros Hl. destruct (fin_setup E k HE s s' WP EK LU Am Up l Hl) as (b & -> & A), (fin_setup E' k HE' t t' WPt EKt LUt Amt Up' l (lt Hl)) as (b' & -> & A'). simpl.
  rewrite A, A'. symmetry. apply ro_wanted, R.
Qed.
Lemma fin_alike : like (usable s') (usable t') s' t'.
Proof.
  destruct (fin_like E k HE s s' WP EK CS LU Am EA Up) as [A1 A2], (fin_like E' k HE' t t' WPt EKt CSt LUt Amt EAt Up') as [B1 B2], (ro_like _ _ R) as [C1 C2].
  constructor; [intros i; rewrite <- A1, C1; apply B1|]. intros i Hi. apply A1 in Hi. destruct (A2 i Hi) as (->&->&->&X), (B2 i (it Hi)) as (->&->&->&Y), (C2 i Hi) as (->&->&->&Z).
  do 3 (split; [reflexivity|]). tauto.
Qed.
Lemma ends_dm d : dmd_from t' d = dmd_from s' d /\ dmd_to t' d = dmd_to s' d /\ d_traffic (h_dm t' d) = d_traffic (h_dm s' d).
Proof.
  destruct (fin_dm E k s s' Up d) as (->&->&->), (fin_dm E' k t t' Up' d) as (->&->&->), (ro_ends _ _ R d) as [-> ->]. now rewrite (ro_dm _ _ R).
Qed.
Lemma ends_ls l : lsp_from t' l = lsp_from s' l /\ lsp_to t' l = lsp_to s' l.
Proof. destruct (fin_ls E k s s' Up l) as [-> ->], (fin_ls E' k t t' Up' l) as [-> ->]. apply (ro_lends _ _ R). Qed.
Lemma lsps_in l : In l (m_lsps s') <-> In l (m_lsps t').
Proof.
  destruct (fin_sets E k s s' Up) as (_&_&_&->), (fin_sets E' k t t' Up') as (_&_&_&->). split; apply Permutation_in; [|apply Permutation_sym]; apply R.
Qed.
Lemma same_routed l : In l (m_lsps s) -> (routed_lsp s' l <-> routed_lsp t' l).
Proof.
  intros Hl. rewrite (fin_routed E k HE s s' WP EK LU Am Up l Hl), (fin_routed E' k HE' t t' WPt EKt LUt Amt Up' l (lt Hl)).
  split; intros (p & H); exists p; now apply same_roadt.
Qed.
Lemma same_of d l : lsp_of s' d l <-> lsp_of t' d l.
Proof. unfold lsp_of. destruct (ends_ls l) as [-> ->], (ends_dm d) as (-> & -> & _). now rewrite lsps_in. Qed.
Lemma same_metric l m : In l (m_lsps s) -> (metric s' l m <-> metric t' l m).
Proof.
  intros Hl. rewrite (metric_omm s' l m (fin_metric_ok E k s s' LU Up l Hl)), (metric_omm t' l m (fin_metric_ok E' k t t' LUt Up' l (lt Hl))).
  rewrite (fin_omm E k s s' Up l), (fin_omm E' k t t' Up' l), (ro_ls _ _ R). destruct (omm (h_ls s l)) as [[c|]|e]; try tauto.
  destruct (ends_ls l) as [-> ->]. assert (L := fin_alike). destruct m as [c|].
  - split; intros (p & A & ->); exists p.
    + split; [now apply (like_least _ _ _ _ _ _ _ L)|]. symmetry. exact (like_cost _ _ _ _ _ _ _ L (proj1 A)).
    + apply (like_least _ _ _ _ _ _ _ L) in A. split; [exact A|]. exact (like_cost _ _ _ _ _ _ _ L (proj1 A)).
  - split; intros H p Hp; apply (H p); revert Hp; apply like_route; [now apply like_sym|exact L].
Qed.
Lemma in_lsp d l : lsp_of s' d l -> In l (m_lsps s).
Proof. intros (H & _). now rewrite (proj2 (proj2 (proj2 (fin_sets E k s s' Up)))) in H. Qed.
Lemma same_preferred d l : preferred s' d l <-> preferred t' d l.
Proof.
  unfold preferred. split; intros (A & B & m & C & D).
  - assert (Hl := in_lsp d l A). split; [now apply same_of|]. split; [now apply same_routed|]. exists m. split; [now apply same_metric|]. intros l' A' B'. apply same_of in A'.
    assert (Hl' := in_lsp d l' A'). apply same_routed in B'; auto. destruct (D l' A' B') as (m' & X & Y). exists m'. split; [now apply same_metric|exact Y].
  - assert (Hl : In l (m_lsps s)) by (apply (in_lsp d), same_of, A). split; [now apply same_of|]. split; [now apply same_routed|]. exists m. split; [now apply same_metric|]. intros l' A' B'.
    assert (Hl' := in_lsp d l' A'). apply same_of in A'. apply same_routed in B'; auto. destruct (D l' A' B') as (m' & X & Y). exists m'. split; [now apply same_metric|exact Y].
Qed.
Lemma routed_or d : (exists l, lsp_of s' d l /\ routed_lsp s' l) \/ no_lsp_for s' d.
Proof.
  assert (X : forall ls, (forall l, In l ls -> In l (m_lsps s)) -> (exists l, In l ls /\ lsp_of s' d l /\ routed_lsp s' l) \/ forall l, In l ls -> lsp_of s' d l -> l_path (h_ls s' l) = PUnrouted).
  { induction ls as [|l ls IH]; intros H; [right; intros l []|]. destruct IH as [(m & A & B)|N]; [intros; apply H; right; auto|left; exists m; split; [right; auto|auto]|].
    destruct (placed E k HE s s' WP LU EK Up l Am (H l (or_introl eq_refl))) as [(p & b & q & P & _)|(P & _)].
    - destruct (string_dec (lsp_from s' l) (dmd_from s' d)) as [F|F]; [destruct (string_dec (lsp_to s' l) (dmd_to s' d)) as [T|T]|].
      + left. exists l. split; [left; auto|]. split; [|unfold routed_lsp; eauto]. split; [|auto]. rewrite (proj2 (proj2 (proj2 (fin_sets E k s s' Up)))). apply H. left; auto.
      + right. intros m [<-|Hm] (A & B & C); [contradiction|]. apply N; auto. split; auto.
      + right. intros m [<-|Hm] (A & B & C); [contradiction|]. apply N; auto. split; auto.
    - right. intros m [<-|Hm]; auto. }
  destruct (X (m_lsps s) (fun l H => H)) as [(l & _ & H)|N]; [left; eauto|]. right. intros l Hl. apply N; auto. exact (in_lsp d l Hl).
Qed.
Lemma no_lsp_same d : no_lsp_for s' d -> no_lsp_for t' d.
Proof.
  intros N l Hl. apply same_of in Hl. assert (I := in_lsp d l Hl). assert (U := N l Hl). destruct (same_lsp l I) as [F _]. rewrite U in F. destruct (l_path (h_ls t' l)); simpl in F; tauto.
Qed.
Hypothesis Off : shortcuts_off s.
Lemma off_s d : no_shortcuts_for k s' d.
Proof. intros _ p a n b m l _ Hn. rewrite (fin_nd E k s s' Up). destruct (fin_sets E k s s' Up) as (_ & X & _). rewrite X in Hn. rewrite (Off n Hn). discriminate. Qed.
Lemma off_t d : no_shortcuts_for k t' d.
Proof.
  intros _ p a n b m l _ Hn. rewrite (fin_nd E' k t t' Up'). destruct (fin_sets E' k t t' Up') as (_ & X & _). rewrite X in Hn.
  rewrite (ro_nd _ _ R). rewrite (Off n (Permutation_in _ (Permutation_sym (ro_nds _ _ R)) Hn)). discriminate.
Qed.
Let Fs := fin_fail E k HE s s' WP CS EA Up.
Let Ft := fin_fail E' k HE' t t' WPt CSt EAt Up'.

Lemma same_dpaths d : In d (m_dms s) -> same_paths (d_path (h_dm s' d)) (d_path (h_dm t' d)).
Proof.
  intros Hd. destruct (routed_or d) as [H|N].
  - assert (H' : exists l, lsp_of t' d l /\ routed_lsp t' l).
    { destruct H as (l & A & B). exists l. split; [now apply same_of|]. apply same_routed; auto. exact (in_lsp d l A). }
    destruct (C07_ride E k s s' d HE WP (lu_once _ _ LU) Up Fs Hd H) as (ls & es & _ & _ & X & -> & _).
    destruct (C07_ride E' k t t' d HE' WPt (lu_once _ _ LUt) Up' Ft (dt Hd) H') as (ls' & es' & _ & _ & X' & -> & _).
    simpl. intros q. rewrite !in_map_iff. split; intros (l & <- & Hl); exists l; (split; [reflexivity|]).
    + apply X', same_preferred, X, Hl.
    + apply X, same_preferred, X', Hl.
  - assert (A := C01_igp_paths E k s s' d HE WP Up Fs Hd N (off_s d)). assert (B := C01_igp_paths E' k t t' d HE' WPt Up' Ft (dt Hd) (no_lsp_same d N) (off_t d)).
    assert (L := fin_alike). destruct (ends_dm d) as (D1 & D2 & _). rewrite D1, D2 in B.
    destruct (d_path (h_dm s' d)) as [|ps], (d_path (h_dm t' d)) as [|qs]; simpl; auto.
    + destruct B as (M & _ & Ne & _ & I). destruct M as [|p M]; [contradiction|]. apply (A p). apply (like_least _ _ _ _ _ _ _ L). apply I. left; auto.
    + destruct A as (M & _ & Ne & _ & I). destruct M as [|p M]; [contradiction|]. apply (B p). apply (like_least _ _ _ _ _ _ _ L). apply I. left; auto.
    + destruct A as (M & -> & _ & _ & I), B as (M' & -> & _ & _ & I'). intros q. rewrite !in_map_iff. split; intros (p & <- & Hp); exists p; (split; [reflexivity|]).
      * apply I', (like_least _ _ _ _ _ _ _ L), I, Hp.
      * apply I, (like_least _ _ _ _ _ _ _ L), I', Hp.
Qed.

(** *** Interface traffic *)
Hypothesis So : sole_roads s.
Let KUs : if_keys_unique s := lu_ifs _ _ LU.
Let KUt : if_keys_unique t := lu_ifs _ _ LUt.

Lemma same_cross l i : In l (m_lsps s) -> crossings s' i [ILsp l] = crossings t' i [ILsp l].
Proof.
  intros Hl. assert (W := same_lway l Hl So). unfold crossings. simpl. destruct (l_path (h_ls s' l)), (l_path (h_ls t' l)); simpl in W; try tauto. now destruct W as [-> _].
Qed.
Lemma igp_carried d i ps qs fs gs : In d (m_dms s) -> no_lsp_for s' d -> d_path (h_dm s' d) = DPaths ps -> d_path (h_dm t' d) = DPaths qs ->
  d_detail (h_dm s' d) = PDInfo fs -> d_detail (h_dm t' d) = PDInfo gs -> (carried s' i fs == carried t' i gs)%Q.
Proof.
  intros Hd A1 P Q F G. assert (B1 := no_lsp_same d A1). assert (A2 := off_s d). assert (B2 := off_t d).
  destruct (igp_shares E k HE s s' WP Up Fs KUs d ps Hd A1 A2 P) as (L & e1 & o1 & -> & _ & N1 & I1 & _ & D1 & O1 & X1 & S1 & _).
  destruct (igp_shares E' k HE' t t' WPt Up' Ft KUt d qs (dt Hd) B1 B2 Q) as (M & e2 & o2 & -> & _ & N2 & I2 & _ & D2 & O2 & X2 & S2 & _).
  assert (e1 = fs) by congruence. assert (e2 = gs) by congruence. subst e1 e2.
  assert (Al := fin_alike). destruct (ends_dm d) as (Fr & To & T).
  assert (LM : forall p, In p L <-> In p M). { intros p. rewrite I1, I2, Fr, To. now apply like_least. }
  assert (Lo : forall p j, In p L -> In j p -> loc t' j = loc s' j).
  { intros p j Hp Hj. apply I1 in Hp as [Rt _]. destruct (route_all _ _ _ _ _ j Rt Hj) as [Hi _]. now apply (lk_data _ _ _ _ Al). }
  assert (OO : forall n, List.length (o1 n) = List.length (o2 n)).
  { intros n. apply same_count; auto. intros j. rewrite X1, X2. split; intros [H (p & Hp & Hj)].
    - split; [rewrite <- H; eapply Lo; eauto|]. exists p. split; [now apply LM|auto].
    - apply LM in Hp. split; [rewrite <- H; symmetry; eapply Lo; eauto|]. exists p. auto. }
  rewrite (carried_shares k s' _ _ _ _ i S1), (carried_shares k t' _ _ _ _ i S2), T.
  rewrite (sumq_perm _ _ _ (NoDup_Permutation N1 N2 LM)). apply sumq_ext. intros p Hp. apply LM in Hp. rewrite (crossings_if s' t').
  rewrite (same_w (loc s') (loc t') o1 o2 p); [reflexivity| |auto]. intros j Hj. symmetry. eapply Lo; eauto.
Qed.

(** what a demand on its own LSPs puts on an interface *)
Definition ridden (a : st) (d i : nat) (ls : list nat) : Q := Qsum (map (fun l => d_traffic (h_dm a d) / count ls * inject_Z (Z.of_nat (crossings a i [ILsp l])))%Q ls).
Lemma carried_ridden a d i ls es : map entry_path es = map (fun l => [ILsp l]) ls -> (forall e, In e es -> (pi_traffic e == d_traffic (h_dm a d) / count ls)%Q) -> (carried a i es == ridden a d i ls)%Q.
Proof.
  unfold carried, ridden. generalize (d_traffic (h_dm a d) / count ls)%Q. intros x. revert ls. induction es as [|e es IH]; intros [|l ls] H T; try discriminate; [reflexivity|].
  injection H as H1 H2. cbn [map Qsum fold_right]. change (fold_right Qplus 0%Q) with Qsum. rewrite (IH ls H2) by (intros; apply T; right; auto).
  rewrite H1, (T e) by (left; auto). ring.
Qed.
Lemma lsps_inj ls ls' : map (fun l => [ILsp l]) ls = map (fun l => [ILsp l]) ls' -> ls = ls'.
Proof. revert ls'. induction ls as [|l ls IH]; intros [|l' ls'] H; try discriminate; [reflexivity|]. injection H as -> H. f_equal. auto. Qed.

(** a run from [a] to [b]: what [adds] says *)
Lemma adds_ride F a b d i x : env_ok F -> well_posed a -> NoDup (m_lsps a) -> update_simulation F k a = (b, Ok tt) -> same_failures a b -> In d (m_dms a) ->
  (exists l, lsp_of b d l /\ routed_lsp b l) -> adds k b d i x ->
  exists ls, NoDup ls /\ (forall l, In l ls <-> preferred b d l) /\ (x == ridden b d i ls)%Q.
Proof.
  intros HF Wa Na Ua Fa Hd Ex A. destruct (C07_ride F k a b d HF Wa Na Ua Fa Hd Ex) as (ls & es & Ne & N & I & P & D & EP & T & _).
  exists ls. split; [exact N|]. split; [exact I|]. unfold adds in A. clear -A P D EP T Ne Ex. destruct k.
  - rewrite A. unfold demand_on. rewrite P, D. apply carried_ridden; auto.
  - unfold demand_puts in A. rewrite P in A. destruct A as [(NL & _)|(ls' & _ & X & Y)].
    + exfalso. destruct Ex as (l & Hl & (p & c & b' & Pl)). rewrite (NL l Hl) in Pl. discriminate.
    + apply lsps_inj in X. subst ls'. exact Y.
Qed.
Lemma adds_igp F a b d i x : env_ok F -> well_posed a -> if_keys_unique a -> update_simulation F k a = (b, Ok tt) -> same_failures a b -> In d (m_dms a) ->
  no_lsp_for b d -> no_shortcuts_for k b d -> adds k b d i x ->
  match d_path (h_dm b d) with
  | DUnrouted => (x == 0)%Q
  | DPaths _ => exists es, d_detail (h_dm b d) = PDInfo es /\ match k with Flex => (x == carried b i es)%Q | Perf => rounds 10 (carried b i es) x end
  end.
Proof.
  intros HF Wa Ka Ua Fa Hd NL NS A. destruct (d_path (h_dm b d)) as [|ps] eqn:P.
  - unfold adds, demand_on, demand_puts in A. rewrite P in A. clear -A. destruct k; exact A.
  - destruct (igp_shares F k HF a b Wa Ua Fa Ka d ps Hd NL NS P) as (L & es & o & -> & Ne & _ & _ & _ & D & _). exists es. split; [exact D|].
    unfold adds, demand_on, demand_puts in A. rewrite P, D in A. clear -A Ne. destruct k; [exact A|]. destruct A as [(_ & es' & X & _ & Y)|(ls & Nl & X & _)].
    + injection X as <-. exact Y.
    + exfalso. destruct ls as [|l ls]; [contradiction|]. destruct L as [|p L]; [discriminate|]. injection X as X _. destruct p; discriminate.
Qed.

Lemma same_adds d i x y : In d (m_dms s) -> adds k s' d i x -> adds k t' d i y -> (x == y)%Q.
Proof.
  intros Hd A B. destruct (routed_or d) as [H|N].
  - assert (H' : exists l, lsp_of t' d l /\ routed_lsp t' l).
    { destruct H as (l & Hl & Rl). exists l. split; [now apply same_of|]. apply same_routed; auto. exact (in_lsp d l Hl). }
    destruct (adds_ride E s s' d i x HE WP (lu_once _ _ LU) Up Fs Hd H A) as (ls & N1 & I1 & ->).
    destruct (adds_ride E' t t' d i y HE' WPt (lu_once _ _ LUt) Up' Ft (dt Hd) H' B) as (ls' & N2 & I2 & ->).
    assert (LM : forall l, In l ls <-> In l ls') by (intros l; rewrite I1, I2; apply same_preferred).
    assert (PM := NoDup_Permutation N1 N2 LM). unfold ridden. destruct (ends_dm d) as (_ & _ & ->). unfold count. rewrite (Permutation_length PM).
    rewrite (Qsum_perm _ _ (Permutation_map _ PM)).
    change (sumq (fun l => d_traffic (h_dm s' d) / inject_Z (Z.of_nat (List.length ls')) * inject_Z (Z.of_nat (crossings s' i [ILsp l])))%Q ls' ==
            sumq (fun l => d_traffic (h_dm s' d) / inject_Z (Z.of_nat (List.length ls')) * inject_Z (Z.of_nat (crossings t' i [ILsp l])))%Q ls')%Q.
    apply sumq_ext. intros l Hl. rewrite (same_cross l i); [reflexivity|]. apply LM, I1 in Hl. exact (in_lsp d l (proj1 Hl)).
  - assert (A' := adds_igp E s s' d i x HE WP KUs Up Fs Hd N (off_s d) A). assert (B' := adds_igp E' t t' d i y HE' WPt KUt Up' Ft (dt Hd) (no_lsp_same d N) (off_t d) B).
    assert (SP := same_dpaths d Hd). destruct (d_path (h_dm s' d)) as [|ps] eqn:P, (d_path (h_dm t' d)) as [|qs] eqn:Q; try contradiction.
    + now rewrite A', B'.
    + destruct A' as (fs & F & X), B' as (gs & G & Y). assert (C := igp_carried d i ps qs fs gs Hd N P Q F G). clear -C X Y. destruct k.
      * now rewrite X, Y.
      * apply rounds_unique in X. apply (rounds_compat _ _ _ _ _ (Qeq_sym _ _ C) (Qeq_refl _)) in Y. apply rounds_unique in Y. now rewrite X, Y.
Qed.

Lemma adds_sum F a b i : env_ok F -> well_posed a -> if_keys_unique a -> NoDup (m_lsps a) -> update_simulation F k a = (b, Ok tt) -> same_failures a b ->
  (forall d, no_shortcuts_for k b d) -> In i (m_ifs a) ->
  if i_failed (h_if b i) then i_traffic (h_if b i) = TDown
  else exists q f, i_traffic (h_if b i) = TNum q /\ (forall d, In d (m_dms b) -> adds k b d i (f d)) /\ (q == sumq f (m_dms b))%Q.
Proof.
  intros HF Wa Ka Na Ua Fa NS Hi. clear - HF Wa Ka Na Ua Fa NS Hi. destruct k.
  - assert (X := C06_flex F a b i HF Wa Ka Na Ua Fa (fun d _ => NS d) Hi). destruct (i_failed (h_if b i)); [exact X|]. destruct X as (q & A & B).
    exists q, (fun d => demand_on b d i). split; [exact A|]. split; [intros d _; unfold adds; reflexivity|exact B].
  - exact (C06_perf F a b i HF Wa Ka Na Ua Fa Hi).
Qed.
Lemma same_iftraffic i : In i (m_ifs s) -> same_traffic (i_traffic (h_if s' i)) (i_traffic (h_if t' i)).
Proof.
  intros Hi. assert (A := adds_sum E s s' i HE WP KUs (lu_once _ _ LU) Up Fs off_s Hi). assert (B := adds_sum E' t t' i HE' WPt KUt (lu_once _ _ LUt) Up' Ft off_t (it Hi)).
  rewrite (Fs i Hi) in A. rewrite (Ft i (it Hi)), (ro_if _ _ R) in B.
  destruct (i_failed (h_if s i)); [now rewrite A, B|]. destruct A as (q & f & -> & A1 & A2), B as (r & g & -> & B1 & B2). simpl. rewrite A2, B2.
  destruct (fin_sets E k s s' Up) as (_&_&Ds&_), (fin_sets E' k t t' Up') as (_&_&Dt&_). rewrite Ds, Dt in *.
  rewrite <- (sumq_perm _ _ _ (ro_dms _ _ R)). apply sumq_ext. intros d Hd. apply (same_adds d i); auto.
Qed.
End Agree.
End Same.
