(** Answers.v - the results of simulating the model of a file, in terms of its lines
    (C103). *)
From Verif Require Import Base Graph Objects Sim Api Loader Spec SpecCkt SpecSim SpecMetric SpecFlow SpecOrder SpecShort SpecTotal SpecSame SpecWhatIf SpecMore SpecData SpecLoad SpecSig SpecFile SpecAnswer
  GraphProofs RoundProofs PathProofs QuietProofs DemandProofs MetricProofs IgpProofs RouteProofs LeastProofs OrderProofs Ecmp TrafficProofs FlowProofs WhatIf LoadProofs LoadRun LoadBuild SigEnd LspExact OrderLsps MoreLsps MatchLsps DataLsps FileLsps
  PropertiesRoute PropertiesTraffic.
From Coq Require Import Permutation Lqa.

Lemma whole_rounds d z : rounds d (inject_Z z) (inject_Z z).
Proof.
  exists (z * Zpos d)%Z. split; [unfold Qeq; simpl; lia|]. setoid_replace (inject_Z z - inject_Z z)%Q with 0%Q by ring. split; [discriminate|]. intros H. discriminate H.
Qed.
Lemma whole_round d q z : (q == inject_Z z)%Q -> (roundd d q == inject_Z z)%Q.
Proof. intros H. assert (X := rounds_unique _ _ _ (whole_rounds d z)). rewrite (roundd_compat d _ _ H). now symmetry. Qed.
Lemma perm_keys {A B K} (ka : A -> K) (kb : B -> K) (f : A -> B) la lb : Permutation (map f la) lb -> (forall a, In a la -> kb (f a) = ka a) -> Permutation (map ka la) (map kb lb).
Proof. intros P H. rewrite <- P, map_map. rewrite (map_ext_in _ (fun x => kb (f x)) la); [reflexivity|]. intros a Ha. symmetry. auto. Qed.

Section Rows.
Variables (k : kind) (py_int : string -> option Z) (py_float : string -> option Q) (lines : list string).
Variables (irs : list if_row) (nrs : list nd_row) (drs : list dm_row) (lrs : list ls_row) (s : st).
Hypothesis Sy : says k py_int py_float lines irs nrs drs lrs.
Hypothesis Uf : usual_file k irs nrs drs lrs.
Hypothesis Ds : described s irs nrs drs lrs.
Let R : usual_room k s := file_room k py_int py_float lines irs nrs drs lrs s Sy Uf Ds.

Lemma if_rows : exists g, Permutation (map g (m_ifs s)) irs /\ forall i, In i (m_ifs s) -> if_is s i (g i).
Proof.
  destruct (ds_keys _ _ _ _ _ Ds) as (N & _).
  assert (KE : forall i r, if_is s i r -> ir_key r = if_key s i) by (intros i r X; symmetry; exact (if_row_key s i r X)).
  destruct (matching two_dec (mkIfRow "" "" "" 0 0 CNone false 0) (if_key s) ir_key (m_ifs s) irs N (uf_ifs _ _ _ _ _ Uf)) as (f & P & U).
  - intros i Hi. destruct (row_of irs nrs drs lrs s Ds i Hi) as (r & Hr & A). eauto.
  - intros r Hr. destruct (if_of k irs nrs drs lrs s Uf Ds r Hr) as (i & Hi & A). eauto.
  - exists f. split; [exact P|]. intros i Hi. destruct (row_of irs nrs drs lrs s Ds i Hi) as (r & Hr & A). now rewrite <- (U i r Hi Hr (KE i r A)).
Qed.

Section Ways.
Variable g : nat -> if_row.
Hypothesis Pg : Permutation (map g (m_ifs s)) irs.
Hypothesis Ig : forall i, In i (m_ifs s) -> if_is s i (g i).
Lemma g_in i : In i (m_ifs s) -> In (g i) irs.
Proof. intros Hi. apply (Permutation_in _ Pg). now apply in_map. Qed.
Lemma g_of r : In r irs -> exists i, In i (m_ifs s) /\ r = g i.
Proof. intros Hr. apply (Permutation_in _ (Permutation_sym Pg)) in Hr. apply in_map_iff in Hr as (i & <- & Hi). eauto. Qed.
Lemma g_key i : In i (m_ifs s) -> ir_key (g i) = if_key s i.
Proof. intros Hi. symmetry. apply if_row_key. auto. Qed.
Lemma g_inj i j : In i (m_ifs s) -> In j (m_ifs s) -> g i = g j -> i = j.
Proof. intros Hi Hj E. apply (row_once irs nrs drs lrs s Ds i j (g i)); auto. rewrite E. auto. Qed.
Lemma key_inj i r : In i (m_ifs s) -> In r irs -> ir_key r = if_key s i -> r = g i.
Proof.
  intros Hi Hr E. destruct (g_of r Hr) as (j & Hj & ->). f_equal. destruct (ds_keys _ _ _ _ _ Ds) as (N & _). apply (nodup_map_inj _ _ N); auto. now rewrite <- E, g_key.
Qed.
Lemma up_row i : In i (m_ifs s) -> (rsvp_up s i <-> ir_rsvp (g i) = true).
Proof. intros Hi. destruct (Ig i Hi) as (_&_&_&_&_&_&X&_&_&Y&_). unfold rsvp_up. rewrite X, Y. tauto. Qed.

Lemma ways_of u p v : route s (rsvp_up s) u p v -> line_route irs u (map g p) v.
Proof.
  induction 1 as [n|i p v Hi Ho H IH]; [constructor|]. destruct (Ig i Hi) as (_&_&_&X&Y&_). cbn [map]. rewrite X. constructor; [now apply g_in|now apply up_row|]. now rewrite <- Y.
Qed.
Lemma of_ways u rows v : line_route irs u rows v -> exists p, rows = map g p /\ route s (rsvp_up s) u p v.
Proof.
  induction 1 as [n|r p v Hr Ho H IH]; [exists []; split; [reflexivity|constructor]|]. destruct IH as (q & -> & Q). destruct (g_of r Hr) as (i & Hi & ->). exists (i :: q). split; [reflexivity|].
  destruct (Ig i Hi) as (_&_&_&X&Y&_). rewrite <- X. constructor; [exact Hi|now apply up_row|now rewrite Y].
Qed.
Lemma ways_on u p v i : route s (rsvp_up s) u p v -> In i p -> In i (m_ifs s).
Proof. intros H Hi. exact (proj1 (route_all _ _ _ _ _ i H Hi)). Qed.
Lemma cost_ways p : (forall i, In i p -> In i (m_ifs s)) -> line_cost (map g p) = route_cost s p.
Proof.
  induction p as [|i p IH]; intros H; [reflexivity|]. cbn [map line_cost route_cost]. rewrite IH by (intros; apply H; right; auto). destruct (Ig i (H i (or_introl eq_refl))) as (_&->&_). reflexivity.
Qed.
Lemma least_ways u p v : least_cost s (rsvp_up s) u p v -> line_least irs u (map g p) v.
Proof.
  intros [A B]. split; [now apply ways_of|]. intros q Hq. apply of_ways in Hq as (q' & -> & Hq). rewrite (cost_ways p (fun i => ways_on _ _ _ i A)), (cost_ways q' (fun i => ways_on _ _ _ i Hq)). auto.
Qed.
Lemma of_least u rows v : line_least irs u rows v -> exists p, rows = map g p /\ least_cost s (rsvp_up s) u p v.
Proof.
  intros [A B]. apply of_ways in A as (p & -> & A). exists p. split; [reflexivity|]. split; [exact A|]. intros q Hq. assert (X := B _ (ways_of _ _ _ Hq)). rewrite (cost_ways p (fun i => ways_on _ _ _ i A)), (cost_ways q (fun i => ways_on _ _ _ i Hq)) in X. exact X.
Qed.
Lemma best_ways l p : best_road s l p -> line_best irs (lsp_from s l) (map g p) (lsp_to s l).
Proof.
  intros [A B]. split; [now apply least_ways|]. intros q Hq. apply of_least in Hq as (q' & -> & Hq). rewrite !map_length. auto.
Qed.
Lemma of_best l rows : line_best irs (lsp_from s l) rows (lsp_to s l) -> exists p, rows = map g p /\ best_road s l p.
Proof.
  intros [A B]. apply of_least in A as (p & -> & A). exists p. split; [reflexivity|]. split; [exact A|]. intros q Hq. assert (X := B _ (least_ways _ _ _ Hq)). now rewrite !map_length in X.
Qed.

Lemma same_line_iff r i : In r irs -> In i (m_ifs s) -> (same_line (g i) r = true <-> r = g i).
Proof.
  intros Hr Hi. unfold same_line. rewrite andb_true_iff, !String.eqb_eq. split; [|intros ->; auto]. intros [A B]. apply key_inj; auto. rewrite <- g_key by exact Hi. unfold ir_key. congruence.
Qed.
Lemma on_way_iff i p : In i (m_ifs s) -> (forall j, In j p -> In j (m_ifs s)) -> (on_way (g i) (map g p) = true <-> In i p).
Proof.
  intros Hi Hp. unfold on_way. rewrite existsb_exists. split.
  - intros (x & Hx & E). apply in_map_iff in Hx as (j & <- & Hj). apply same_line_iff in E; [|apply g_in; auto|exact Hi]. apply g_inj in E; auto. now subst.
  - intros H. exists (g i). split; [now apply in_map|]. apply same_line_iff; auto. now apply g_in.
Qed.
(** the lines that lead on, and the interfaces *)
Lemma lead_count L o n : (forall p j, In p L -> In j p -> In j (m_ifs s)) -> NoDup o -> (forall i, In i o <-> loc s i = n /\ exists p, In p L /\ In i p) ->
  List.length (lead_on irs (map (map g) L) n) = List.length o.
Proof.
  intros On No Io. rewrite <- (map_length g o). apply same_count.
  - apply NoDup_filter. eapply NoDup_of_map. exact (uf_ifs _ _ _ _ _ Uf).
  - apply nodup_map; auto. intros x y Hx Hy. apply Io in Hx as (_ & p & Hp & Hx). apply Io in Hy as (_ & q & Hq & Hy). apply g_inj; eauto.
  - intros r. unfold lead_on. rewrite filter_In, andb_true_iff, String.eqb_eq, existsb_exists, in_map_iff. split.
    + intros (Hr & A & q & Hq & O). destruct (g_of r Hr) as (i & Hi & ->). exists i. split; [reflexivity|]. apply Io. destruct (Ig i Hi) as (_&_&_&->&_). split; [exact A|].
      apply in_map_iff in Hq as (p & <- & Hp). exists p. split; [exact Hp|]. apply on_way_iff in O; auto. intros j. now apply On.
    + intros (i & <- & Hi). apply Io in Hi as (A & p & Hp & Hi). assert (Hm := On p i Hp Hi). split; [now apply g_in|]. destruct (Ig i Hm) as (_&_&_&<-&_). split; [exact A|].
      exists (map g p). split; [now apply in_map|]. apply on_way_iff; auto. intros j. now apply On.
Qed.
Lemma portion_w L outs p : (forall p j, In p L -> In j p -> In j (m_ifs s)) -> (forall n, NoDup (outs n)) -> (forall n i, In i (outs n) <-> loc s i = n /\ exists p, In p L /\ In i p) ->
  (forall j, In j p -> In j (m_ifs s)) -> (portion irs (map (map g) L) (map g p) == w (loc s) outs p)%Q.
Proof.
  intros On No Io. induction p as [|i p IH]; intros Hp; [reflexivity|]. cbn [map portion w]. rewrite IH by (intros; apply Hp; right; auto). unfold deg. destruct (Ig i (Hp i (or_introl eq_refl))) as (_&_&_&<-&_).
  rewrite (lead_count L (outs (loc s i)) (loc s i)); auto. unfold Qdiv. ring.
Qed.
Lemma filter_ways i L : In i (m_ifs s) -> (forall p j, In p L -> In j p -> In j (m_ifs s)) -> (forall p, In p L -> NoDup p) -> forall W,
  (sumq W (filter (on_way (g i)) (map (map g) L)) == sumq (fun p => inject_Z (Z.of_nat (count_occ Nat.eq_dec p i)) * W (map g p)) L)%Q.
Proof.
  intros Hi. induction L as [|p L IH]; intros On Nd W; [reflexivity|]. cbn [map filter]. rewrite (sumq_cons _ p).
  assert (X := IH (fun p j H => On p j (or_intror H)) (fun p H => Nd p (or_intror H)) W).
  assert (O := on_way_iff i p Hi (fun j => On p j (or_introl eq_refl))). assert (N := Nd p (or_introl eq_refl)).
  destruct (on_way (g i) (map g p)) eqn:Ow.
  - rewrite sumq_cons, X. assert (C : count_occ Nat.eq_dec p i = 1%nat). { apply (NoDup_count_occ' Nat.eq_dec); auto. now apply O. } rewrite C. change (inject_Z (Z.of_nat 1)) with 1%Q. ring.
  - rewrite X. assert (C : count_occ Nat.eq_dec p i = 0%nat). { apply (count_occ_not_In Nat.eq_dec). intros H. apply O in H. discriminate. } rewrite C. change (inject_Z (Z.of_nat 0)) with 0%Q. ring.
Qed.
(** a single way takes all *)
Lemma alone p u v : least_cost s (rsvp_up s) u p v -> (portion irs [map g p] (map g p) == 1)%Q.
Proof.
  intros Lc. assert (Cost : forall i, In i (m_ifs s) -> 1 <= i_cost (h_if s i)) by (destruct (ur_posed _ _ R) as (_ & C & _); exact C).
  assert (N := proj1 (ShortPaths.least_loc_nodup s (rsvp_up s) u v Cost p Lc)). assert (On : forall j, In j p -> In j (m_ifs s)) by (intros j; apply (ways_on u p v), Lc).
  assert (X : forall q, incl q p -> (portion irs [map g p] (map g q) == 1)%Q); [|exact (X p (fun i H => H))].
  induction q as [|i q IH]; intros Hq; [reflexivity|]. cbn [map portion]. rewrite IH by (intros j Hj; apply Hq; right; auto). assert (Hi := Hq i (or_introl eq_refl)).
  change [map g p] with (map (map g) [p]). destruct (Ig i (On i Hi)) as (_&_&_&<-&_). rewrite (lead_count [p] [i] (loc s i)); [reflexivity| | |].
  - intros q' j [<-|[]]. auto.
  - repeat constructor; intros [].
  - intros j. split.
    + intros [<-|[]]. split; [reflexivity|]. exists p. split; [left; auto|exact Hi].
    + intros (E & q' & [<-|[]] & Hj). left. now apply (nodup_map_inj (loc s) p N).
Qed.
Lemma alone_crossing p u v i : In i (m_ifs s) -> least_cost s (rsvp_up s) u p v -> (crossing irs [map g p] (g i) == inject_Z (Z.of_nat (count_occ Nat.eq_dec p i)))%Q.
Proof.
  intros Hi Lc. assert (Cost : forall i, In i (m_ifs s) -> 1 <= i_cost (h_if s i)) by (destruct (ur_posed _ _ R) as (_ & C & _); exact C).
  unfold crossing. change [map g p] with (map (map g) [p]). change (Qsum (map (portion irs (map (map g) [p])) (filter (on_way (g i)) (map (map g) [p])))) with (sumq (portion irs (map (map g) [p])) (filter (on_way (g i)) (map (map g) [p]))).
  rewrite (filter_ways i [p] Hi).
  - rewrite sumq_cons, sumq_nil. cbn [map]. rewrite (alone p u v Lc). ring.
  - intros q j [<-|[]]. apply (ways_on u p v), Lc.
  - intros q [<-|[]]. exact (least_nodup s (rsvp_up s) Cost _ _ _ Lc).
Qed.

Section Run.
Variable E : env.
Hypothesis HE : env_ok E.
Variable s' : st.
Hypothesis Up : update_simulation E k s = (s', Ok tt).
Let WP := ur_posed _ _ R. Let EK := ur_known _ _ R. Let CS := ur_cids _ _ R. Let LU := ur_usual _ _ R. Let Am := ur_ample _ _ R. Let EA := ur_agree _ _ R.
Let Fs := fin_fail E k HE s s' WP CS EA Up.
Let Lk := fin_like E k HE s s' WP EK CS LU Am EA Up.

Lemma an_key i : if_key s' i = if_key s i. Proof. exact (fin_key E k s s' Up i). Qed.
Lemma an_lkey l : lsp_key s' l = lsp_key s l. Proof. exact (fin_lkey E k s s' Up l). Qed.
Lemma an_dkey d : dmd_key s' d = dmd_key s d.
Proof. destruct (fin_input E k s s' Up) as (_&_&_&_&X&_). unfold dmd_key. destruct (fin_dm E k s s' Up d) as (->&->&_). destruct (X d) as (_&_&_&->). reflexivity. Qed.
Lemma named p : (forall i, In i p -> In i (m_ifs s)) -> along s' p (map g p).
Proof. intros H. unfold along. rewrite map_map. apply map_ext_in. intros i Hi. rewrite an_key. symmetry. auto using g_key. Qed.

Lemma ans_objects : lines_objects s' irs drs lrs.
Proof.
  destruct (fin_sets E k s s' Up) as (S1 & _ & S3 & S4). constructor.
  - rewrite S1. apply (perm_keys _ _ g); auto. intros i Hi. rewrite an_key. now apply g_key.
  - rewrite S3. destruct (dm_rows k irs nrs drs lrs s Uf Ds) as (f & P & F). apply (perm_keys _ _ f); auto. intros d Hd. rewrite an_dkey. destruct (F d Hd) as (A&B&_&C&_). unfold dr_key, dmd_key. congruence.
  - rewrite S4. destruct (lsp_rows k irs nrs drs lrs s Uf Ds) as (f & P & F). apply (perm_keys _ _ f); auto. intros l Hl. rewrite an_lkey. destruct (F l Hl) as (A&B&C&_). unfold lr_key, lsp_key. congruence.
Qed.
Lemma ls_row_is l r : In l (m_lsps s) -> In r lrs -> lsp_key s l = lr_key r -> ls_is s l r.
Proof.
  intros Hl Hr K. destruct (row_of_ls irs nrs drs lrs s Ds l Hl) as (x & Hx & A). assert (x = r); [|now subst]. apply (nodup_map_inj lr_key lrs (uf_lsps _ _ _ _ _ Uf)); auto.
  rewrite <- K. destruct A as (A&B&C&_). unfold lr_key, lsp_key. congruence.
Qed.
Lemma dm_row_is d r : In d (m_dms s) -> In r drs -> dmd_key s d = dr_key r -> dm_is s d r.
Proof.
  intros Hl Hr K. destruct (row_of_dm irs nrs drs lrs s Ds d Hl) as (x & Hx & A). assert (x = r); [|now subst]. apply (nodup_map_inj dr_key drs (uf_dms _ _ _ _ _ Uf)); auto.
  rewrite <- K. destruct A as (A&B&_&C&_). unfold dr_key, dmd_key. congruence.
Qed.
Lemma ls_of_row r : In r lrs -> exists l, In l (m_lsps s) /\ ls_is s l r.
Proof. intros Hr. apply (ds_ls_all _ _ _ _ _ Ds). apply first_nodup; [apply (uf_lsps _ _ _ _ _ Uf)|exact Hr]. Qed.

Lemma ans_lsp l r : In l (m_lsps s) -> In r lrs -> ls_is s l r -> lsp_answer s' irs drs lrs l r.
Proof.
  intros Hl Hr A. assert (B := A). destruct B as (F&T&_). unfold lsp_answer. destruct (placed E k HE s s' WP LU EK Up l Am Hl) as [(p & b & q & P & B & Q & W)|(P & Q & N)]; rewrite P.
  - assert (On : forall i, In i p -> In i (m_ifs s)) by (intros i; apply (ways_on _ _ _ i (proj1 (proj1 B)))). exists (map g p), q. split; [now apply named|]. split; [rewrite <- F, <- T; now apply best_ways|].
    split; [symmetry; now apply cost_ways|]. split; [exact Q|]. rewrite W. exact (wanted_row k irs nrs drs lrs s Uf Ds l r Hl A).
  - split; [exact Q|]. intros rows X. rewrite <- F, <- T in X. apply of_ways in X as (p & _ & X). exact (N p X).
Qed.

(** metrics *)
Lemma metric_row l x m : In l (m_lsps s) -> ls_is s l x -> (line_metric irs x m <-> metric s' l (Some m)).
Proof.
  intros Hl A. destruct A as (F&T&_&_&I&Mm&_). rewrite (metric_omm s' l (Some m)) by (apply (fin_metric_ok E k s s' LU Up); exact Hl). rewrite (fin_omm E k s s' Up l).
  assert (Ne := usual_omm k s l LU Hl). unfold omm in *. rewrite I, Mm in *. destruct (fin_ls E k s s' Up l) as [F' T'].
  assert (Co : (exists rows, line_least irs (lr_src x) rows (lr_dst x) /\ m = line_cost rows) <-> exists p, least_cost s' (usable s') (lsp_from s' l) p (lsp_to s' l) /\ m = route_cost s' p).
  { rewrite F', T', F, T. split.
    - intros (rows & X & ->). apply of_least in X as (p & -> & X). exists p. split; [now apply (like_least _ _ _ _ _ _ _ Lk)|]. rewrite (like_cost _ _ _ _ _ _ _ Lk (proj1 X)). apply cost_ways. intros i. apply (ways_on _ _ _ i (proj1 X)).
    - intros (p & X & ->). apply (like_least _ _ _ _ _ _ _ Lk) in X. exists (map g p). split; [now apply least_ways|]. rewrite (like_cost _ _ _ _ _ _ _ Lk (proj1 X)). symmetry. apply cost_ways. intros i. apply (ways_on _ _ _ i (proj1 X)). }
  unfold line_metric. destruct (lr_metric x) as [z|].
  - destruct (Z.eqb_spec z 0) as [->|Nz].
    + rewrite <- Co. split; [intros [[X Y]|[_ X]]; [congruence|exact X]|]. intros X. right. auto.
    + destruct (Z.ltb 0 z); [|destruct (Ne _ eq_refl)]. split.
      * intros [[X _]|[[X|X] _]]; congruence.
      * intros X. left. injection X as ->. auto.
  - rewrite <- Co. split; [intros [[X Y]|[_ X]]; [congruence|exact X]|]. intros X. right. auto.
Qed.
Lemma lsp_of_row d r l x : dm_is s d r -> ls_is s l x -> In l (m_lsps s) -> (lsp_of s' d l <-> beside r x).
Proof.
  intros (D1&D2&_) (F&T&_) Hl. unfold lsp_of, beside. destruct (fin_ls E k s s' Up l) as [-> ->], (fin_dm E k s s' Up d) as (->&->&_). destruct (fin_sets E k s s' Up) as (_&_&_&->). rewrite F, T, D1, D2. tauto.
Qed.
Lemma routed_row d r l : dm_is s d r -> lsp_of s' d l -> (routed_lsp s' l <-> exists rows, line_route irs (dr_src r) rows (dr_dst r)).
Proof.
  intros (D1&D2&_) H. assert (Hl := in_lsp E k s s' Up d l H). rewrite (fin_routed E k HE s s' WP EK LU Am Up l Hl). destruct H as (_ & F & T).
  destruct (fin_ls E k s s' Up l) as [F' T'], (fin_dm E k s s' Up d) as (F2&T2&_). rewrite F', F2, D1 in F. rewrite T', T2, D2 in T. unfold road. rewrite F, T. split.
  - intros (p & X). exists (map g p). now apply ways_of.
  - intros (rows & X). apply of_ways in X as (p & _ & X). eauto.
Qed.
Lemma preferred_row d r l x : dm_is s d r -> ls_is s l x -> In l (m_lsps s) -> (exists rows, line_route irs (dr_src r) rows (dr_dst r)) -> (preferred s' d l <-> line_preferred irs lrs r x).
Proof.
  intros D A Hl W. unfold preferred, line_preferred. rewrite (lsp_of_row d r l x D A Hl). split.
  - intros (B & Rl & m & M & H). split; [exact B|].
    assert (LO : lsp_of s' d l) by now apply (lsp_of_row d r l x D A Hl).
    destruct m as [m|].
    + exists m. split; [now apply (metric_row l x m Hl A)|]. intros y m' Hy By My. destruct (ls_of_row y Hy) as (l' & Hl' & A'). assert (LO' : lsp_of s' d l') by now apply (lsp_of_row d r l' y D A' Hl').
      destruct (H l' LO' (proj2 (routed_row d r l' D LO') W)) as (m2 & M2 & Le). apply (metric_row l' y m' Hl' A') in My. assert (X := metric_unique _ _ _ _ M2 My). subst m2. exact Le.
    + exfalso. destruct (fin_routed E k HE s s' WP EK LU Am Up l Hl) as [X _]. destruct (X Rl) as (p & Rp). unfold metric in M. destruct (mstate_of (h_ls s' l)) as [c|[c|]]; try discriminate.
      destruct (fin_ls E k s s' Up l) as [F' T']. rewrite F', T' in M. apply (M p). exact (like_route _ _ _ _ _ _ _ Lk Rp).
  - intros (B & m & M & H). split; [exact B|]. assert (LO : lsp_of s' d l) by now apply (lsp_of_row d r l x D A Hl).
    split; [now apply (routed_row d r l D LO)|]. exists (Some m). split; [now apply (metric_row l x m Hl A)|]. intros l' LO' Rl'. assert (Hl' := in_lsp E k s s' Up d l' LO').
    destruct (row_of_ls irs nrs drs lrs s Ds l' Hl') as (y & Hy & A'). destruct (routed_has_metric E k HE s s' WP EK CS LU Am EA Up l' Hl' Rl') as (m2 & M2). exists m2. split; [exact M2|].
    assert (By : beside r y) by now apply (lsp_of_row d r l' y D A' Hl'). destruct m2 as [m2|].
    + exact (H y m2 Hy By (proj2 (metric_row l' y m2 Hl' A') M2)).
    + exfalso. destruct (fin_routed E k HE s s' WP EK LU Am Up l' Hl') as [X _]. destruct (X Rl') as (p & Rp). unfold metric in M2. destruct (mstate_of (h_ls s' l')) as [c|[c|]]; try discriminate.
      destruct (fin_ls E k s s' Up l') as [F' T']. rewrite F', T' in M2. apply (M2 p). exact (like_route _ _ _ _ _ _ _ Lk Rp).
Qed.

(** demands *)
Hypothesis Off : forall n, In n nrs -> nr_shortcuts n = false.
Let Rw : with_room k s := file_plain k py_int py_float lines irs nrs drs lrs s Sy Uf Ds Off.
Let NS := fun d => OrderLsps.off_s E k s s' Up (rm_off _ _ Rw) d.
Lemma least_final u p v : least_cost s' (usable s') u p v <-> least_cost s (rsvp_up s) u p v.
Proof. symmetry. exact (like_least _ _ _ _ _ _ _ Lk). Qed.
Lemma none_row d r : dm_is s d r -> no_lsp_for s' d -> (forall x, In x lrs -> ~ beside r x) \/ forall rows, ~ line_route irs (dr_src r) rows (dr_dst r).
Proof.
  intros D N. assert (X : forall l, (exists x, In x l /\ beside r x) \/ forall x, In x l -> ~ beside r x).
  { induction l as [|x l IH]; [right; intros x []|]. destruct (string_dec (lr_src x) (dr_src r)) as [e1|n1]; [destruct (string_dec (lr_dst x) (dr_dst r)) as [e2|n2]|].
    - left. exists x. split; [left; auto|split; auto].
    - destruct IH as [(y & Hy & B)|IH]; [left; exists y; split; [right; auto|exact B]|]. right. intros y [<-|Hy]; [intros [_ B]; auto|auto].
    - destruct IH as [(y & Hy & B)|IH]; [left; exists y; split; [right; auto|exact B]|]. right. intros y [<-|Hy]; [intros [B _]; auto|auto]. }
  destruct (X lrs) as [(x & Hx & B)|H]; [right|left; exact H]. intros rows Hr. destruct (ls_of_row x Hx) as (l & Hl & A). assert (LO : lsp_of s' d l) by now apply (lsp_of_row d r l x D A Hl).
  destruct (proj2 (routed_row d r l D LO) (ex_intro _ rows Hr)) as (p & c & b & P). rewrite (N l LO) in P. discriminate.
Qed.
Lemma ans_demand d r : In d (m_dms s) -> In r drs -> dm_is s d r -> demand_answer s' irs lrs d r.
Proof.
  intros Hd Hr D. assert (D' := D). destruct D' as (D1&D2&_). destruct (fin_dm E k s s' Up d) as (F&T&_). unfold demand_answer. destruct (routed_or E k HE s s' WP EK LU Am Up d) as [H|N].
  - destruct (C07_ride E k s s' d HE WP (lu_once _ _ LU) Up Fs Hd H) as (ls & es & Ne & ND & X & -> & _). left. destruct H as (l0 & LO & Rl).
    assert (W := proj1 (routed_row d r l0 D LO) Rl). assert (Hl0 := in_lsp E k s s' Up d l0 LO). destruct (row_of_ls irs nrs drs lrs s Ds l0 Hl0) as (x0 & Hx0 & A0). split.
    { exists x0. split; [exact Hx0|]. now apply (lsp_of_row d r l0 x0 D A0 Hl0). }
    exists ls. split; [reflexivity|]. split; [exact Ne|]. split; [exact ND|]. destruct (fin_sets E k s s' Up) as (_&_&_&S4). rewrite S4. split.
    + intros l Hl. apply X in Hl. exact (in_lsp E k s s' Up d l (proj1 Hl)).
    + intros l x Hl Hx K. rewrite an_lkey in K. rewrite X. apply preferred_row; auto. now apply ls_row_is.
  - assert (A := C01_igp_paths E k s s' d HE WP Up Fs Hd N (NS d)). rewrite F, T, D1, D2 in A. assert (U := pair_unrouted E k HE s s' Rw Up d Hd). rewrite D1, D2 in U.
    destruct (d_path (h_dm s' d)) as [|ps].
    + intros rows Hrows. apply of_ways in Hrows as (p & _ & Hp). exact (proj1 U eq_refl p Hp).
    + right. destruct A as (L & -> & Ne & ND & I). split.
      * destruct (none_row d r D N) as [H|H]; [exact H|]. exfalso. destruct L as [|p L]; [contradiction|]. assert (X := proj1 (I p) (or_introl eq_refl)). apply least_final in X. exact (H _ (ways_of _ _ _ (proj1 X))).
      * exists L. split; [reflexivity|]. split; [exact Ne|]. split; [exact ND|]. split.
        -- intros p Hp. apply I, least_final in Hp. exists (map g p). split; [apply named; intros i; apply (ways_on _ _ _ i (proj1 Hp))|now apply least_ways].
        -- intros rows Hrows. apply of_least in Hrows as (p & -> & Hp). exists p. split; [now apply I, least_final|]. apply named. intros i. apply (ways_on _ _ _ i (proj1 Hp)).
Qed.

(** traffic *)
Lemma ans_amount d r L i x : In d (m_dms s) -> In r drs -> dm_is s d r -> carriers irs lrs r L -> (k = Perf -> (List.length L <= 1)%nat) -> In i (m_ifs s) -> adds k s' d i x ->
  (x == inject_Z (dr_traffic r) * crossing irs L (g i))%Q.
Proof.
  intros Hd Hr D (NL & CL & CI) Kl Hi A. assert (D' := D). destruct D' as (D1&D2&D3&_). destruct (fin_dm E k s s' Up d) as (F&T&Tr). rewrite D3 in Tr.
  assert (Cost : forall i, In i (m_ifs s) -> 1 <= i_cost (h_if s i)) by exact (proj1 (proj2 WP)).
  destruct (routed_or E k HE s s' WP EK LU Am Up d) as [H|N].
  - destruct (adds_ride k E s s' d i x HE WP (lu_once _ _ LU) Up Fs Hd H A) as (ls & N1 & I1 & ->). destruct H as (l0 & LO & Rl). assert (Hl0 := in_lsp E k s s' Up d l0 LO).
    destruct (row_of_ls irs nrs drs lrs s Ds l0 Hl0) as (x0 & Hx0 & A0). assert (B0 := proj1 (lsp_of_row d r l0 x0 D A0 Hl0) LO). destruct (CL x0 Hx0 B0) as [Len Bst].
    assert (X : forall l, lsp_of s' d l -> exists p c b, l_path (h_ls s' l) = PRouted p c b /\ best_road s l p /\ L = [map g p]).
    { intros l Hl. assert (Il := in_lsp E k s s' Up d l Hl). assert (Rd : routed_lsp s' l) by (apply (routed_row d r l D Hl), (routed_row d r l0 D LO), Rl).
      destruct (placed E k HE s s' WP LU EK Up l Am Il) as [(p & b & q & P & B & _)|(P & _)]; [|destruct Rd as (p & c & b & P'); congruence]. exists p, (route_cost s p), b. split; [exact P|]. split; [exact B|].
      destruct Hl as (_ & Fl & Tl). destruct (fin_ls E k s s' Up l) as [Fl' Tl']. rewrite Fl', F, D1 in Fl. rewrite Tl', T, D2 in Tl. assert (Z := best_ways l p B). rewrite Fl, Tl in Z. apply Bst in Z.
      destruct L as [|a [|b' L]]; [destruct Z|destruct Z as [->|[]]; reflexivity|simpl in Len; lia]. }
    destruct (X l0 LO) as (p0 & c0 & b0 & P0 & B0' & EL). unfold ridden. rewrite Tr.
    assert (C : forall l, In l ls -> crossings s' i [ILsp l] = count_occ Nat.eq_dec p0 i).
    { intros l Hl. apply I1 in Hl. destruct (X l (proj1 Hl)) as (p & c & b & P & B & EL'). rewrite (crossings_lsp _ _ _ _ _ _ P). f_equal. rewrite EL in EL'. injection EL' as EL'. symmetry.
      apply (map_inj_on g (fun j => In j (m_ifs s)) g_inj); auto; intros j; [apply (ways_on _ _ _ j (proj1 (proj1 B0')))|apply (ways_on _ _ _ j (proj1 (proj1 B)))]. }
    rewrite EL, (alone_crossing p0 _ _ i Hi (proj1 B0')).
    change (sumq (fun l => inject_Z (dr_traffic r) / count ls * inject_Z (Z.of_nat (crossings s' i [ILsp l])))%Q ls == inject_Z (dr_traffic r) * inject_Z (Z.of_nat (count_occ Nat.eq_dec p0 i)))%Q.
    rewrite (sumq_ext _ (fun _ => inject_Z (dr_traffic r) / count ls * inject_Z (Z.of_nat (count_occ Nat.eq_dec p0 i)))%Q) by (intros l Hl; rewrite (C l Hl); reflexivity).
    rewrite sumq_const. unfold count. assert (Nl : ~ (inject_Z (Z.of_nat (List.length ls)) == 0)%Q).
    { destruct ls as [|l ls]; [|unfold Qeq; simpl; lia]. exfalso. destruct (C07_ride E k s s' d HE WP (lu_once _ _ LU) Up Fs Hd) as (ls' & es & Ne & _ & Y & _); [eauto|]. destruct ls' as [|l ls']; [contradiction|]. destruct (proj2 (I1 l)). apply Y. left; auto. }
    field. exact Nl.
  - assert (A' := adds_igp k E s s' d i x HE WP (lu_ifs _ _ LU) Up Fs Hd N (NS d) A). assert (U := pair_unrouted E k HE s s' Rw Up d Hd). rewrite D1, D2 in U.
    assert (Em : (forall rows, ~ line_route irs (dr_src r) rows (dr_dst r)) -> L = []).
    { intros H. destruct L as [|p L]; [reflexivity|exfalso]. destruct (none_row d r D N) as [Nb|_].
      - assert (Y := proj1 (CI Nb p) (or_introl eq_refl)). exact (H p (proj1 Y)).
      - assert (Z : forall l, (exists x, In x l /\ beside r x) \/ forall x, In x l -> ~ beside r x).
        { induction l as [|y l IH]; [right; intros y []|]. destruct (string_dec (lr_src y) (dr_src r)) as [e1|n1]; [destruct (string_dec (lr_dst y) (dr_dst r)) as [e2|n2]|].
          - left. exists y. split; [left; auto|split; auto].
          - destruct IH as [(z & Hz & B)|IH]; [left; exists z; split; [right; auto|exact B]|]. right. intros z [<-|Hz]; [intros [_ B]; auto|auto].
          - destruct IH as [(z & Hz & B)|IH]; [left; exists z; split; [right; auto|exact B]|]. right. intros z [<-|Hz]; [intros [B _]; auto|auto]. }
        destruct (Z lrs) as [(y & Hy & B)|Nb].
        + assert (Y := proj1 (proj2 (CL y Hy B) p) (or_introl eq_refl)). exact (H p (proj1 (proj1 Y))).
        + assert (Y := proj1 (CI Nb p) (or_introl eq_refl)). exact (H p (proj1 Y)). }
    destruct (d_path (h_dm s' d)) as [|ps] eqn:P.
    + rewrite A', Em; [unfold crossing; simpl; ring|]. intros rows Hrows. apply of_ways in Hrows as (p & _ & Hp). exact (proj1 U eq_refl p Hp).
    + destruct A' as (es & De & A'). destruct (igp_shares E k HE s s' WP Up Fs (lu_ifs _ _ LU) d ps Hd N (NS d) P) as (M & e1 & o & -> & Ne & N1 & I1 & _ & E1 & O1 & X1 & S1 & _).
      assert (e1 = es) by congruence. subst e1. clear E1.
      assert (I2 : forall p, In p M <-> least_cost s (rsvp_up s) (dr_src r) p (dr_dst r)) by (intros p; rewrite I1, F, T, D1, D2; apply least_final).
      destruct (none_row d r D N) as [Nb|Nw]; [|exfalso; destruct M as [|p M]; [contradiction|]; exact (Nw _ (ways_of _ _ _ (proj1 (proj1 (I2 p) (or_introl eq_refl)))))].
      assert (On : forall p j, In p M -> In j p -> In j (m_ifs s)) by (intros p j Hp; apply I2 in Hp; apply (ways_on _ _ _ j (proj1 Hp))).
      assert (PM : Permutation L (map (map g) M)).
      { apply NoDup_Permutation; auto.
        - apply nodup_map; auto. intros p q Hp Hq. apply (map_inj_on g (fun j => In j (m_ifs s)) g_inj); intros j; eauto.
        - intros rows. rewrite (CI Nb rows). split.
          + intros H. apply of_least in H as (p & -> & H). apply in_map. now apply I2.
          + intros H. apply in_map_iff in H as (p & <- & Hp). apply least_ways. now apply I2. }
      assert (NDp : forall p, In p M -> NoDup p) by (intros p Hp; apply I2 in Hp; exact (least_nodup s (rsvp_up s) Cost _ _ _ Hp)).
      assert (X2 : forall n j, In j (o n) <-> loc s j = n /\ exists p, In p M /\ In j p) by (intros n j; rewrite X1; destruct (fin_loc E k s s' Up j) as [-> _]; reflexivity).
      assert (Lead : forall n, List.length (lead_on irs L n) = List.length (lead_on irs (map (map g) M) n)).
      { intros n. f_equal. unfold lead_on. apply filter_ext. intros q. f_equal. apply eq_true_iff_eq. rewrite !existsb_exists. split; intros (p & Hp & O); exists p; (split; [|exact O]); [exact (Permutation_in _ PM Hp)|exact (Permutation_in _ (Permutation_sym PM) Hp)]. }
      assert (Por : forall p, portion irs L p = portion irs (map (map g) M) p) by (induction p as [|q p IH]; [reflexivity|]; cbn [portion]; rewrite IH, Lead; reflexivity).
      assert (Cr : (crossing irs L (g i) == sumq (fun p => inject_Z (Z.of_nat (count_occ Nat.eq_dec p i)) * w (loc s) o p) M)%Q).
      { unfold crossing. change (sumq (portion irs L) (filter (on_way (g i)) L) == sumq (fun p => inject_Z (Z.of_nat (count_occ Nat.eq_dec p i)) * w (loc s) o p) M)%Q.
        rewrite (sumq_perm _ _ _ (perm_filter (on_way (g i)) _ _ PM)). rewrite (filter_ways i M Hi On NDp). apply sumq_ext. intros p Hp. rewrite Por, (portion_w M o p On O1 X2 (fun j => On p j Hp)). reflexivity. }
      assert (Ca : (carried s' i es == sumq (fun p => inject_Z (Z.of_nat (count_occ Nat.eq_dec p i)) * shown k (inject_Z (dr_traffic r) * w (loc s) o p)) M)%Q).
      { rewrite (carried_shares k s' _ _ _ _ i S1), Tr. apply sumq_ext. intros p Hp. rewrite crossings_count. rewrite (same_w (loc s') (loc s) o o p); [reflexivity| |reflexivity]. intros j _. apply (fin_loc E k s s' Up j). }
      rewrite Cr. clear -A' Ca Kl PM Ne I2 X2 O1 On Cost NDp. destruct (kind_dec k) as [Ek|Ek]; rewrite Ek in A', Ca.
      * rewrite A', Ca. unfold shown. rewrite <- sumq_scale. apply sumq_ext. intros p _. ring.
      * assert (Le : (List.length M <= 1)%nat). { rewrite <- (map_length (map g) M), <- (Permutation_length PM). auto. } destruct M as [|p [|p' M]]; [contradiction| |simpl in Le; lia].
        assert (Lc := proj1 (I2 p) (or_introl eq_refl)). assert (Wp : (w (loc s) o p == 1)%Q).
        { assert (N := proj1 (ShortPaths.least_loc_nodup s (rsvp_up s) _ _ Cost p Lc)). assert (Y : forall q, incl q p -> (w (loc s) o q == 1)%Q); [|exact (Y p (fun i H => H))].
          induction q as [|j q IH]; intros Hq; [reflexivity|]. cbn [w]. rewrite IH by (intros a Ha; apply Hq; right; auto). unfold deg. rewrite (same_count (o (loc s j)) [j]); [reflexivity|apply O1|repeat constructor; intros []|].
          intros a. rewrite X2. split.
          - intros (Ea & q' & [<-|[]] & Ha). left. symmetry. apply (nodup_map_inj (loc s) p N); auto. apply Hq. left; auto.
          - intros [<-|[]]. split; [reflexivity|]. exists p. split; [left; auto|]. apply Hq. left; auto. }
        unfold sumq in *. cbn [map Qsum fold_right shown] in *. rewrite Wp, Qmult_1_r, Qplus_0_r.
        assert (Rp : (roundd 10000 (inject_Z (dr_traffic r) * w (loc s) o p) == inject_Z (dr_traffic r))%Q) by (apply whole_round; rewrite Wp; ring).
        rewrite Rp, Qplus_0_r in Ca. rewrite <- inject_Z_mult in *.
        apply (rounds_compat _ _ _ _ _ Ca (Qeq_refl _)) in A'. apply rounds_unique in A'. rewrite A', (whole_round 10 _ (Z.of_nat (count_occ Nat.eq_dec p i) * dr_traffic r)) by reflexivity. rewrite Z.mul_comm. reflexivity.
Qed.
Lemma ans_traffic ways i r : (forall d, In d drs -> carriers irs lrs d (ways d) /\ (k = Perf -> (List.length (ways d) <= 1)%nat)) -> In i (m_ifs s) -> In r irs -> if_key s i = ir_key r ->
  exists q, i_traffic (h_if s' i) = TNum q /\ (q == line_traffic irs drs ways r)%Q.
Proof.
  intros W Hi Hr K. assert (r = g i) by (apply key_inj; auto). subst r. assert (A := pair_sum E k HE s s' Rw Up i Hi). destruct (Ig i Hi) as (_&_&_&_&_&_&_&_&_&Fl&_). rewrite Fl in A.
  destruct A as (q & f & Q & Fd & Sq). exists q. split; [exact Q|]. rewrite Sq. unfold line_traffic. destruct (dm_rows k irs nrs drs lrs s Uf Ds) as (h & P & H).
  change (sumq f (m_dms s) == sumq (fun d => inject_Z (dr_traffic d) * crossing irs (ways d) (g i))%Q drs)%Q. rewrite <- (sumq_perm _ _ _ P), sumq_map. apply sumq_ext. intros d Hd.
  assert (Hh : In (h d) drs) by (apply (Permutation_in _ P); now apply in_map). destruct (W (h d) Hh) as [C Kp]. apply (ans_amount d (h d)); auto.
Qed.
End Run.
End Ways.

Lemma file_answers E s' : env_ok E -> update_simulation E k s = (s', Ok tt) -> answers k s' irs nrs drs lrs.
Proof.
  intros HE Up. destruct if_rows as (g & Pg & Ig). destruct (fin_sets E k s s' Up) as (S1 & _ & S3 & S4). constructor.
  - exact (ans_objects g Pg Ig E s' Up).
  - intros l r Hl Hr K. rewrite S4 in Hl. rewrite (an_lkey E s' Up) in K. apply (ans_lsp g Pg Ig E HE s' Up l r Hl Hr). now apply ls_row_is.
  - intros Off d r Hd Hr K. rewrite S3 in Hd. rewrite (an_dkey E s' Up) in K. apply (ans_demand g Pg Ig E HE s' Up Off d r Hd Hr). now apply dm_row_is.
  - intros Off ways W i r Hi Hr K. rewrite S1 in Hi. rewrite (an_key E s' Up) in K. exact (ans_traffic g Pg Ig E HE s' Up Off ways i r W Hi Hr K).
Qed.
End Rows.
