(** FlowProofs.v - traffic of demands on their paths and on interfaces after
    update_simulation. *)
From Verif Require Import Base Graph Objects Sim Spec SpecCkt SpecSim SpecMetric GraphProofs MonadProofs RoundProofs ResProofs ObjProofs CircuitProofs
  ValidateProofs GroupProofs PathProofs QuietProofs RouteProofs LeastProofs IgpProofs Ecmp TrafficProofs ShareProofs SpecSig SigUpdate MetricProofs SpecFlow.
From Coq Require Import Lqa.

Lemma w_ext (loc loc' : nat -> string) outs p : (forall i, loc i = loc' i) -> w loc outs p = w loc' outs p.
Proof. intros H. induction p as [|i p IH]; auto. simpl. now rewrite IH, H. Qed.

Lemma F2_left {A B} (R : A -> B -> Prop) l m x : Forall2 R l m -> In x l -> exists y, In y m /\ R x y.
Proof. induction 1 as [|a b l m H F IH]; [intros []|]. intros [->|I]; [exists b; split; auto; left; auto|]. destruct (IH I) as (y & Y1 & Y2). exists y. split; auto. right; auto. Qed.

Lemma route_chain s ok u p v : route s ok u p v -> chain (loc s) (rem s) u p v.
Proof. induction 1; constructor; auto. Qed.

Section Done.
Variable E : env.
Variable k : kind.
Hypothesis HE : env_ok E.
Variables s s' : st.
Hypothesis WP : well_posed s.
Hypothesis Up : update_simulation E k s = (s', Ok tt).
Hypothesis St : same_failures s s'.
Hypothesis KU : if_keys_unique s.
Let N : NoDup (m_ifs s) := proj1 WP.
Let Cost : forall i, In i (m_ifs s) -> 1 <= i_cost (h_if s i) := proj1 (proj2 WP).
Let TD := proj2 (proj2 WP).

Lemma up_cost i : In i (m_ifs s') -> 1 <= i_cost (h_if s' i).
Proof.
  intros Hi. destruct (simulated_ex _ _ _ _ Up) as (s1 & s2 & s3 & s4 & Sm). assert (SN := sm_same_net E k HE _ _ _ _ _ _ Sm N St).
  rewrite (sn_cost _ _ SN). apply (sm_cost2 E k _ _ _ _ _ _ Sm Cost). now rewrite (sn_ifs _ _ SN) in Hi.
Qed.

(** the entries of a demand on IGP paths *)
Lemma igp_shares d ps : In d (m_dms s) -> no_lsp_for s' d -> no_shortcuts_for k s' d -> d_path (h_dm s' d) = DPaths ps ->
  exists L es outs, ps = map if_path L /\ L <> [] /\ NoDup L /\
    (forall p, In p L <-> least_cost s' (usable s') (dmd_from s' d) p (dmd_to s' d)) /\ (forall p, In p L -> p <> []) /\
    d_detail (h_dm s' d) = PDInfo es /\ (forall n, NoDup (outs n)) /\
    (forall n i, In i (outs n) <-> loc s' i = n /\ exists p, In p L /\ In i p) /\
    shares k (d_traffic (h_dm s' d)) (w (loc s') outs) L es /\
    Forall2 (fun p e => entry_key k e = Some (if_path p) /\ pi_splits e = Some (split_counts s' outs 1 p)) L es.
Proof.
  intros Hd NL NS Pd. destruct (simulated_ex _ _ _ _ Up) as (s1 & s2 & s3 & s4 & Sm).
  assert (A := igp_paths E k HE s s' d N Cost TD Up St Hd NL NS). rewrite Pd in A. destruct A as (L & -> & Ne & ND & A).
  assert (SN := sm_same_net E k HE _ _ _ _ _ _ Sm N St). pose proof (df_same _ _ _ (sm_23 _ _ _ _ _ _ _ _ Sm)) as R23.
  assert (LE : forall i, loc s3 i = loc s' i) by (intros i; rewrite (sn_loc _ _ SN); apply (rs_local _ _ _ R23)).
  assert (HL : forall p i, In p L -> In i p -> In i (m_ifs s3)).
  { intros p i Hp Hi. apply A in Hp as [R _]. destruct (route_all _ _ _ _ _ i R Hi) as [X _]. rewrite (rs_ifs _ _ _ R23). now rewrite (sn_ifs _ _ SN) in X. }
  assert (K3 := sm_keys3 E k _ _ _ _ _ _ Sm KU).
  assert (D := sm_detail E k HE _ _ _ _ _ _ Sm N d Hd). rewrite Pd in D. destruct D as (Ad & D). unfold plan in D.
  rewrite (sm_ride_not E k HE _ _ _ _ _ _ Sm WP d Hd NL _ Pd) in D. cbn [rbind] in D. apply rbind_ok in D as (es & D1 & D2).
  destruct (sm_traffic E k HE _ _ _ _ _ _ Sm N d) as [T1 T3]. rewrite T3, <- T1 in D1.
  assert (HP : forall p, In p L -> p <> []).
  { intros p Hp ->. apply rmap_ok in D1. assert (I : In [] (map if_path L)) by (change (@nil item) with (if_path []); now apply in_map).
    destruct (F2_left _ _ _ _ D1 I) as (y & _ & Y). discriminate Y. }
  exists L, es, (nexts s3 L). split; [reflexivity|]. split; [exact Ne|]. split; [exact ND|]. split; [exact A|]. split; [exact HP|].
  split; [congruence|]. split; [intros n; now apply nexts_nodup|].
  split; [intros n i; rewrite (nexts_in s3 L K3 HL), LE; reflexivity|].
  apply rmap_ok in D1. split; cycle 1.
  { assert (X : forall p a, splits_along s3 (map IIf (used s3 L)) a (if_path p) = split_counts s' (nexts s3 L) a p).
    { induction p as [|i p IH]; intros a; [reflexivity|]. cbn [if_path map splits_along item_src split_counts]. cbv zeta. rewrite next_hops.
      change (ilocal s3 i) with (loc s3 i). rewrite LE. f_equal. apply IH. }
    clear - D1 X. rewrite item_set_used in D1. revert D1. generalize L at 2 4. intros M. revert es. induction M as [|p M IH]; intros fs F; simpl in F; inversion F as [|x y l1 l2 F1 F2]; subst; constructor; auto.
    unfold path_entry in F1. rewrite X in F1. destruct (Zmax_list _); [|discriminate F1]. injection F1 as <-. destruct k; split; reflexivity. }
  unfold shares. 
  assert (X : forall M fs, (forall p, In p M -> In p L) -> Forall2 (fun x y => path_entry k s3 (item_set s3 (map if_path L)) (d_traffic (h_dm s' d)) x = Ok y) (map if_path M) fs ->
    Forall2 (fun p e => entry_path e = if_path p /\ match k with Flex => pi_traffic e == d_traffic (h_dm s' d) * w (loc s') (nexts s3 L) p
        | Perf => rounds 10000 (d_traffic (h_dm s' d) * w (loc s') (nexts s3 L) p) (pi_traffic e) end)%Q M fs); [|apply X; auto].
  induction M as [|p M IH]; intros fs Hs F; inversion F as [|x y l1 l2 F1 F2]; subst; constructor; [|apply IH; auto; intros; apply Hs; simpl; auto].
  assert (Hp := Hs p (or_introl eq_refl)). destruct (entry_value k s3 L (d_traffic (h_dm s' d)) K3 HL p Hp (HP p Hp)) as (e & X1 & X2 & X3).
  rewrite F1 in X1. injection X1 as <-. split; [exact X2|]. rewrite X3. cbv zeta.
  assert (PW := prod_w s3 L (d_traffic (h_dm s' d)) p (fun i Hi => c_pos s3 L K3 HL p i Hp Hi)). rewrite (w_ext _ (loc s') _ _ LE) in PW.
  destruct (kind_dec k) as [-> | ->]; [exact PW|]. rewrite round4_roundd. eapply rounds_compat; [exact PW|reflexivity|apply roundd_rounds].
Qed.

(** instances of the splitting lemmas *)
Section Flow.
Variables (u v : string) (L : list (list nat)) (outs : string -> list nat).
Hypothesis A : forall p, In p L <-> least_cost s' (usable s') u p v.
Lemma fl_chain p : In p L -> chain (loc s') (rem s') u p v.
Proof. intros H. apply A in H as [R _]. eapply route_chain; eauto. Qed.
Lemma fl_simple p : In p L -> NoDup (nodes (rem s') u p).
Proof. intros H. apply A in H. apply (least_simple s' (usable s') up_cost _ _ _ H). Qed.
Lemma chain_route p q x n m : route s' (usable s') p (x ++ q) m -> chain (loc s') (rem s') p x n -> route s' (usable s') p x n.
Proof.
  intros R C. revert R. induction C as [n'|i x n C IH]; intros R; [constructor|]. simpl in R. apply route_cons_inv in R as (_ & Hi & Ho & R). constructor; auto.
Qed.
Lemma fl_ex x1 y1 x2 y2 n : In (x1 ++ y1) L -> In (x2 ++ y2) L -> chain (loc s') (rem s') u x1 n -> chain (loc s') (rem s') u x2 n -> In (x1 ++ y2) L.
Proof.
  intros H1 H2 C1 C2. apply A in H1. apply A in H2. apply A. eapply (least_exchange s' (usable s') u v n x1 y1 x2 y2); eauto.
  - eapply chain_route; [apply H1|exact C1].
  - eapply chain_route; [apply H2|exact C2].
Qed.
End Flow.

Section Igp.
Variables (d : nat) (ps : list (list item)).
Hypothesis Hd : In d (m_dms s).
Hypothesis NL : no_lsp_for s' d.
Hypothesis NS : no_shortcuts_for k s' d.
Hypothesis Pd : d_path (h_dm s' d) = DPaths ps.

Lemma igp_total : exists es, d_detail (h_dm s' d) = PDInfo es /\ map entry_path es = ps /\
  match k with Flex => (total es == d_traffic (h_dm s' d))%Q
             | Perf => (Qabs (total es - d_traffic (h_dm s' d)) <= inject_Z (Z.of_nat (List.length es)) * (1 # 20000))%Q end.
Proof.
  destruct (igp_shares d ps Hd NL NS Pd) as (L & es & outs & -> & Ne & ND & A & HP & De & O1 & O2 & Sh & Sp).
  exists es. split; [exact De|]. split; [eapply shares_paths; exact Sh|].
  assert (T : (sumq (w (loc s') outs) L == 1)%Q).
  { apply (Ecmp.shares_total (loc s') (rem s') L (dmd_from s' d) (dmd_to s' d) (fl_chain _ _ _ A) (fl_simple _ _ _ A) (fl_ex _ _ _ A) ND outs O1 O2 Ne). }
  destruct (kind_dec k) as [Hk|Hk]; rewrite Hk in *.
  - rewrite (ShareProofs.shares_total _ _ _ _ Sh), T. ring.
  - assert (X := shares_perf _ _ _ _ Sh). rewrite T, Qmult_1_r in X. exact X.
Qed.
(** every entry of path_detail *)
Lemma igp_entries : exists es, d_detail (h_dm s' d) = PDInfo es /\ map entry_path es = ps /\
  forall outs, (forall n, leaving s' es n (outs n)) -> forall e, In e es ->
    exists p, entry_key k e = Some (if_path p) /\ pi_splits e = Some (split_counts s' outs 1 p) /\
      match k with Flex => pi_traffic e == divided s' outs (d_traffic (h_dm s' d)) p
                 | Perf => rounds 10000 (divided s' outs (d_traffic (h_dm s' d)) p) (pi_traffic e) end%Q.
Proof.
  destruct (igp_shares d ps Hd NL NS Pd) as (L & es & outs & -> & Ne & ND & A & HP & De & O1 & O2 & Sh & Sp).
  exists es. split; [exact De|]. split; [eapply shares_paths; exact Sh|]. intros outs' LV.
  assert (LE : forall n, List.length (outs' n) = List.length (outs n)).
  { intros n. destruct (LV n) as [ND' HO]. assert (Q : forall i, In i (outs' n) <-> In i (outs n)).
    { intros i. rewrite HO, O2. now rewrite (shares_cross _ _ _ _ _ i Sh). }
    apply Nat.le_antisymm; apply NoDup_incl_length; auto; intros i; apply Q. }
  assert (SC : forall p a, split_counts s' outs' a p = split_counts s' outs a p).
  { induction p as [|i p IH]; intros a; [reflexivity|]. cbn [split_counts]. cbv zeta. rewrite LE. f_equal. apply IH. }
  assert (DV : forall p x, (divided s' outs' x p == x * w (loc s') outs p)%Q).
  { induction p as [|i p IH]; intros x; cbn [divided w]; [ring|]. rewrite IH. unfold count, deg. rewrite LE. unfold Qdiv. ring. }
  intros e He. assert (X : exists p, (entry_path e = if_path p /\ match k with Flex => pi_traffic e == d_traffic (h_dm s' d) * w (loc s') outs p
     | Perf => rounds 10000 (d_traffic (h_dm s' d) * w (loc s') outs p) (pi_traffic e) end)%Q /\ entry_key k e = Some (if_path p) /\ pi_splits e = Some (split_counts s' outs 1 p)).
  { clear - He Sh Sp. unfold shares in Sh. revert Sp. induction Sh as [|p x L es H F IH]; [destruct He|]. intros Sp. inversion Sp; subst. destruct He as [->|He]; eauto. }
  destruct X as (p & [_ X1] & X2 & X3). exists p. split; [exact X2|]. split; [now rewrite SC|]. destruct (kind_dec k) as [K|K]; rewrite K in *.
  - rewrite DV. exact X1.
  - eapply rounds_compat; [|reflexivity|exact X1]. symmetry. apply DV.
Qed.

Lemma igp_flow : k = Flex -> exists es, d_detail (h_dm s' d) = PDInfo es /\ map entry_path es = ps /\
  (through s' (dmd_from s' d) (dmd_from s' d) es == d_traffic (h_dm s' d))%Q /\
  (through s' (dmd_from s' d) (dmd_to s' d) es == d_traffic (h_dm s' d))%Q /\
  (forall n O i, leaving s' es n O -> In i O -> (over i es == through s' (dmd_from s' d) n es / count O)%Q) /\
  (forall n O, leaving s' es n O -> n <> dmd_to s' d -> (Qsum (map (fun i => over i es) O) == through s' (dmd_from s' d) n es)%Q) /\
  (forall n I, entering s' es n I -> n <> dmd_from s' d -> (Qsum (map (fun i => over i es) I) == through s' (dmd_from s' d) n es)%Q).
Proof.
  intros Hk. destruct (igp_shares d ps Hd NL NS Pd) as (L & es & outs & -> & Ne & ND & A & HP & De & O1 & O2 & Sh & Sp). rewrite Hk in Sh.
  exists es. split; [exact De|]. split; [eapply shares_paths; exact Sh|].
  set (T := d_traffic (h_dm s' d)) in *. set (u := dmd_from s' d) in *. set (v := dmd_to s' d) in *. 
  assert (OV : forall i, (over i es == T * Ecmp.over (loc s') L outs i)%Q).
  { intros i. unfold over. rewrite (shares_sum _ _ _ _ (crosses i) Sh). apply Qmult_comp; [reflexivity|]. unfold Ecmp.over. apply sumq_ext. intros p _. now rewrite crosses_memn. }
  assert (TH : forall n, (through s' u n es == T * Ecmp.through (loc s') (rem s') L u outs n)%Q).
  { intros n. unfold through. rewrite (shares_sum _ _ _ _ (visits s' u n) Sh). apply Qmult_comp; [reflexivity|]. unfold Ecmp.through. apply sumq_ext. intros p _. now rewrite visits_mems. }
  assert (LV : forall n O, leaving s' es n O -> forall i, In i O <-> In i (outs n)).
  { intros n O [_ HO] i. rewrite HO, O2. now rewrite (shares_cross _ _ _ _ _ i Sh). }
  assert (C1 := fl_chain _ _ _ A). assert (C2 := fl_simple _ _ _ A). assert (C3 := fl_ex _ _ _ A).
  split; [|split; [|split; [|split]]].
  - rewrite TH, (through_source (loc s') (rem s') L u v C1 C2 C3 ND outs O1 O2 Ne). ring.
  - rewrite TH, (through_dest (loc s') (rem s') L u v C1 C2 C3 ND outs O1 O2 Ne). ring.
  - intros n O i HO Hi. assert (P : Permutation O (outs n)) by (apply NoDup_Permutation; [apply HO|apply O1|now apply LV]).
    rewrite OV, TH, (over_share (loc s') (rem s') L u v C1 C2 C3 ND outs O1 O2 i n); [|now apply (LV n O HO)].
    unfold count, deg. rewrite (Permutation_length P). unfold Qdiv. ring.
  - intros n O HO Hn. assert (P : Permutation O (outs n)) by (apply NoDup_Permutation; [apply HO|apply O1|now apply LV]).
    change (sumq (fun i => over i es) O == through s' u n es)%Q. rewrite (sumq_perm _ _ _ P), TH.
    rewrite (sumq_ext _ (fun i => T * Ecmp.over (loc s') L outs i)%Q) by (intros; apply OV). rewrite sumq_scale.
    now rewrite (through_out (loc s') (rem s') L u v C1 C2 C3 ND outs O1 O2 n Hn).
  - intros n I [NI HI] Hn. change (sumq (fun i => over i es) I == through s' u n es)%Q. rewrite TH.
    rewrite (sumq_ext _ (fun i => T * Ecmp.over (loc s') L outs i)%Q) by (intros; apply OV). rewrite sumq_scale.
    rewrite (through_in (loc s') (rem s') L u C2 outs n I Hn NI); [reflexivity|].
    intros i. rewrite HI. now rewrite (shares_cross _ _ _ _ _ i Sh).
Qed.
End Igp.
End Done.
