(** UtilProofs.v - interface traffic after update_simulation. *)
From Verif Require Import Base Graph Objects Sim Spec SpecCkt SpecSim SpecMetric GraphProofs MonadProofs RoundProofs ResProofs ObjProofs CircuitProofs
  ValidateProofs GroupProofs PathProofs QuietProofs RouteProofs LeastProofs IgpProofs Ecmp TrafficProofs ShareProofs SpecSig SigUpdate MetricProofs FlowProofs SpecFlow.
From Coq Require Import Lqa.

Lemma at_if_flat {A} i (f : A -> list (nat * Q)) l : (Qsum (at_if i (flat_map f l)) == sumq (fun x => Qsum (at_if i (f x))) l)%Q.
Proof. induction l as [|x l IH]; [reflexivity|]. cbn [flat_map]. rewrite at_if_app, Qsum_app, sumq_cons, IH. reflexivity. Qed.
Lemma at_if_const i (c : Q) p : (Qsum (at_if i (flat_map (fun j => [(j, c)]) p)) == inject_Z (Z.of_nat (count_occ Nat.eq_dec p i)) * c)%Q.
Proof.
  induction p as [|j p IH]; [simpl; ring|]. cbn [flat_map]. rewrite at_if_app, Qsum_app, IH. unfold at_if. cbn [filter fst]. cbn [count_occ].
  destruct (Nat.eq_dec j i) as [->|Nj].
  - rewrite Nat.eqb_refl. cbn [map snd Qsum fold_right]. rewrite Nat2Z.inj_succ. unfold Z.succ. rewrite inject_Z_plus. change (inject_Z 1) with 1%Q. ring.
  - apply Nat.eqb_neq in Nj. rewrite Nj. simpl. ring.
Qed.

Section Done.
Variable E : env.
Variable k : kind.
Hypothesis HE : env_ok E.
Variables s s1 s2 s3 s4 s' : st.
Hypothesis Sm : simulated E k s s1 s2 s3 s4 s'.
Hypothesis WP : well_posed s.
Hypothesis Up : update_simulation E k s = (s', Ok tt).
Hypothesis St : same_failures s s'.
Let N : NoDup (m_ifs s) := proj1 WP.

Lemma sm_path3 l : l_path (h_ls s3 l) = l_path (h_ls s' l).
Proof.
  rewrite (sm_lpath _ _ _ _ _ _ _ _ Sm l HE N). apply (rs_path _ _ _ (df_same _ _ _ (sm_23 _ _ _ _ _ _ _ _ Sm))).
Qed.
Lemma lsp_adds_sum ls x i : (forall l, In l ls -> routed_lsp s' l) ->
  (Qsum (at_if i (lsp_adds ls x s3)) == sumq (fun l => inject_Z (Z.of_nat (crossings s' i [ILsp l])) * x) ls)%Q.
Proof.
  intros H. unfold lsp_adds. rewrite at_if_flat. apply sumq_ext. intros l Hl. destruct (H l Hl) as (p & c & b & P).
  unfold lsp_interfaces. rewrite sm_path3, P. rewrite at_if_const. unfold crossings. simpl. rewrite P, Nat.add_0_r. reflexivity.
Qed.

(** Some LSP of the demand is routed, or none *)
Lemma lsp_cases d : (exists l, lsp_of s' d l /\ routed_lsp s' l) \/ no_lsp_for s' d.
Proof.
  set (f := fun l => String.eqb (lsp_from s' l) (dmd_from s' d) && String.eqb (lsp_to s' l) (dmd_to s' d) && match l_path (h_ls s' l) with PRouted _ _ _ => true | _ => false end).
  destruct (existsb f (m_lsps s')) eqn:X.
  - left. apply existsb_exists in X as (l & Hl & F). unfold f in F. rewrite !andb_true_iff, !String.eqb_eq in F. destruct F as [[F1 F2] F3]. exists l.
    split; [split; auto|]. destruct (l_path (h_ls s' l)) eqn:P; try discriminate. red. eauto.
  - right. intros l (Hl & F1 & F2). assert (Y : f l = false).
    { destruct (f l) eqn:Fl; auto. assert (existsb f (m_lsps s') = true) by (apply existsb_exists; eauto). congruence. }
    unfold f in Y. rewrite F1, F2, !String.eqb_refl in Y. simpl in Y.
    assert (Hl0 : In l (m_lsps s)). { destruct (sm_lsps' _ _ _ _ _ _ _ _ Sm HE N) as (A & _). destruct (sm_12 _ _ _ _ _ _ _ _ Sm) as (_ & _ & _ & _ & B & _). congruence. }
    destruct (update_settled E k HE s s' WP Up l Hl0) as [[(p & c & b & q & P & _)|[P _]] _]; [rewrite P in Y; discriminate|exact P].
Qed.

Lemma sm_share3 d ls : share_of s3 d ls = (d_traffic (h_dm s' d) / count ls)%Q.
Proof. unfold share_of, count. destruct (sm_traffic E k HE _ _ _ _ _ _ Sm N d) as [T1 T3]. now rewrite T1, T3. Qed.

(** path_detail of a demand on LSPs *)
Lemma ride_detail d : In d (m_dms s) -> NoDup (m_lsps s) -> (exists l, lsp_of s' d l /\ routed_lsp s' l) ->
  exists ls es, ls <> [] /\ NoDup ls /\ (forall l, In l ls <-> preferred s' d l) /\
    d_path (h_dm s' d) = DPaths (map (fun l => [ILsp l]) ls) /\ d_detail (h_dm s' d) = PDInfo es /\
    map entry_path es = map (fun l => [ILsp l]) ls /\
    (forall e, In e es -> match k with Flex => pi_traffic e == d_traffic (h_dm s' d) / count ls
                          | Perf => rounds 10000 (d_traffic (h_dm s' d) / count ls) (pi_traffic e) end)%Q /\
    (k = Flex -> (total es == d_traffic (h_dm s' d))%Q).
Proof.
  intros Hd NL Ex. destruct (sm_ride E k HE _ _ _ _ _ _ Sm WP Up St d Hd NL Ex) as (ls & Ne & ND & P & Pd & _ & D).
  unfold lsp_detail in D. rewrite !sm_share3 in D. exists ls. destruct (kind_dec k) as [Hk|Hk]; rewrite Hk in D; rewrite Hk.
  - eexists. split; [exact Ne|]. split; [exact ND|]. split; [exact P|]. split; [exact Pd|]. split; [exact D|].
    split; [rewrite map_map; reflexivity|]. split; [intros e He; apply in_map_iff in He as (l & <- & _); reflexivity|]. intros _.
    unfold total. rewrite map_map. cbn [pi_traffic]. change (sumq (fun _ : nat => (d_traffic (h_dm s' d) / count ls)%Q) ls == d_traffic (h_dm s' d))%Q. rewrite sumq_const. fold (count ls).
    field. unfold count. destruct ls; [congruence|]. cbn [List.length]. rewrite Nat2Z.inj_succ. intros Z. unfold Qeq in Z. simpl in Z. lia.
  - eexists. split; [exact Ne|]. split; [exact ND|]. split; [exact P|]. split; [exact Pd|]. split; [exact D|].
    split; [rewrite map_map; reflexivity|]. split; [|discriminate]. intros e He. apply in_map_iff in He as (l & <- & _). simpl. apply roundd_rounds.
Qed.

(** what one demand adds *)
Lemma ride_adds d i : In d (m_dms s) -> NoDup (m_lsps s) -> (exists l, lsp_of s' d l /\ routed_lsp s' l) ->
  exists ls, ls <> [] /\ d_path (h_dm s' d) = DPaths (map (fun l => [ILsp l]) ls) /\
    (Qsum (at_if i (plan_adds E k s3 d)) == sumq (fun l => d_traffic (h_dm s' d) / count ls * inject_Z (Z.of_nat (crossings s' i [ILsp l]))) ls)%Q.
Proof.
  intros Hd NL Ex. destruct (sm_ride E k HE _ _ _ _ _ _ Sm WP Up St d Hd NL Ex) as (ls & Ne & ND & P & Pd & O & D). exists ls. split; [exact Ne|]. split; [exact Pd|].
  unfold plan_adds. assert (P3 : d_path (h_dm s3 d) = d_path (h_dm s' d)).
  { destruct (sm_rest _ _ _ _ _ _ _ _ Sm HE N) as (_ & _ & -> & _). symmetry. apply (tf_path _ _ _ (sm_34 _ _ _ _ _ _ _ _ Sm)). }
  rewrite P3, Pd. unfold plan. rewrite O. cbn [rbind]. destruct ls as [|l0 ls0]; [congruence|]. rewrite lsp_adds_sum.
  - apply sumq_ext. intros l _. rewrite sm_share3. ring.
  - intros l Hl. apply P in Hl. apply Hl.
Qed.

Hypothesis KU : if_keys_unique s.

Lemma filter_IIf i p : List.length (filter (fun j => Nat.eqb j i) p) = crossings s' i (if_path p).
Proof. unfold crossings, if_path. induction p as [|j p IH]; auto. simpl. destruct (Nat.eqb j i); simpl; auto. Qed.

Lemma igp_adds d i : In d (m_dms s) -> In i (m_ifs s) -> no_lsp_for s' d -> no_shortcuts_for k s' d -> forall ps, d_path (h_dm s' d) = DPaths ps ->
  exists es, d_detail (h_dm s' d) = PDInfo es /\ map entry_path es = ps /\
    match k with Flex => (Qsum (at_if i (plan_adds E k s3 d)) == carried s' i es)%Q
               | Perf => rounds 10 (carried s' i es) (Qsum (at_if i (plan_adds E k s3 d))) end.
Proof.
  intros Hd Hi NL NS ps Pd. pose proof (proj1 (proj2 WP)) as Cost. pose proof (proj2 (proj2 WP)) as TD.
  destruct (igp_shares E k HE s s' WP Up St KU d ps Hd NL NS Pd) as (L & es & outs & -> & Ne & ND & A & HP & De & _ & _ & Sh & _).
  exists es. split; [exact De|]. assert (PE := shares_paths _ _ _ _ _ Sh). split; [exact PE|].
  pose proof (df_same _ _ _ (sm_23 _ _ _ _ _ _ _ _ Sm)) as R23. assert (SN := sm_same_net E k HE _ _ _ _ _ _ Sm N St).
  assert (I3 : forall j, In j (m_ifs s') -> In j (m_ifs s3)) by (intros j Hj; rewrite (rs_ifs _ _ _ R23); now rewrite (sn_ifs _ _ SN) in Hj).
  assert (HL : forall p j, In p L -> In j p -> In j (m_ifs s3)).
  { intros p j Hp Hj. apply A in Hp as [R _]. destruct (route_all _ _ _ _ _ j R Hj) as [X _]. auto. }
  assert (Hi3 : In i (m_ifs s3)). { rewrite (rs_ifs _ _ _ R23). destruct (sm_12 _ _ _ _ _ _ _ _ Sm) as (_ & -> & _). exact Hi. }
  assert (K3 := sm_keys3 E k _ _ _ _ _ _ Sm KU).
  assert (EP : forall e, In e es -> exists p, In p L /\ pinfo_items e = if_path p /\ entry_path e = if_path p).
  { intros e He. assert (X : In (entry_path e) (map if_path L)) by (rewrite <- PE; now apply in_map). apply in_map_iff in X as (p & E1 & Hp). exists p.
    split; [exact Hp|]. split; [rewrite E1; unfold pinfo_items, entry_path; destruct (pi_items e); reflexivity|symmetry; exact E1]. }
  assert (NDp : forall p, In p L -> NoDup p). { intros p Hp. apply A in Hp. apply (least_nodup s' (usable s') (up_cost E k HE s s' WP Up St) _ _ _ Hp). }
  assert (EQI : forall j p, In p L -> In j p -> (iface_eqb s3 i j = Nat.eqb j i)).
  { intros j p Hp Hj. apply eq_true_iff_eq. rewrite Nat.eqb_eq. rewrite (iface_eqb_eq s3 i j K3 Hi3 (HL _ _ Hp Hj)). split; congruence. }
  assert (CR : forall p, In p L -> List.length (filter (item_eqb s3 (IIf i)) (if_path p)) = crossings s' i (if_path p)).
  { intros p Hp. rewrite <- filter_IIf. unfold if_path. assert (Y : forall j, In j p -> iface_eqb s3 i j = Nat.eqb j i) by (intros; eapply EQI; eauto).
    clear - Y. induction p as [|j p IH]; auto. simpl. rewrite Y by (left; auto). destruct (Nat.eqb j i); simpl; rewrite IH; auto; intros; apply Y; right; auto. }
  assert (IT : item_traffic s3 es (IIf i) = carried s' i es).
  { unfold item_traffic, carried. f_equal. apply map_ext_in. intros e He. destruct (EP e He) as (p & Hp & E1 & E2). rewrite E1, E2, CR; auto. }
  assert (ZC : ~ In i (used s3 L) -> forall e, In e es -> crossings s' i (entry_path e) = O).
  { intros Nu e He. destruct (EP e He) as (p & Hp & _ & ->). rewrite <- filter_IIf. destruct (filter _ p) as [|j l] eqn:F; auto. exfalso. apply Nu.
    assert (X : In j (filter (fun j => Nat.eqb j i) p)) by (rewrite F; left; auto). apply filter_In in X as [X1 X2]. apply Nat.eqb_eq in X2. subst j.
    apply (used_spec s3 L K3 HL). eauto. }
  assert (P3 : d_path (h_dm s3 d) = DPaths (map if_path L)).
  { rewrite <- Pd. destruct (sm_rest _ _ _ _ _ _ _ _ Sm HE N) as (_ & _ & -> & _). symmetry. apply (tf_path _ _ _ (sm_34 _ _ _ _ _ _ _ _ Sm)). }
  assert (D := sm_detail E k HE _ _ _ _ _ _ Sm N d Hd). rewrite Pd in D. destruct D as (Ad & D).
  assert (PA : plan_adds E k s3 d = flat_map (fun j => item_adds k es (IIf j) s3) (used s3 L)).
  { unfold plan_adds. rewrite P3, D. unfold plan in D. rewrite (sm_ride_not E k HE _ _ _ _ _ _ Sm WP d Hd NL _ Pd) in D. cbn [rbind] in D.
    apply rbind_ok in D as (es' & _ & D). injection D as <- D. assert (es' = es) by congruence. subst es'.
    rewrite item_set_used. generalize (used s3 L). intros l. induction l as [|j l IH]; auto. simpl. now rewrite IH. }
  rewrite PA. destruct (used_spec s3 L K3 HL) as [NU IU].
  assert (SUM : (Qsum (at_if i (flat_map (fun j => item_adds k es (IIf j) s3) (used s3 L))) ==
     sumq (fun j => if Nat.eqb j i then Qsum (at_if i (item_adds k es (IIf i) s3)) else 0) (used s3 L))%Q).
  { rewrite at_if_flat. apply sumq_ext. intros j _. destruct (Nat.eqb_spec j i) as [->|Nj]; [reflexivity|].
    assert (Z : at_if i (item_adds k es (IIf j) s3) = []).
    { unfold item_adds, at_if. apply Nat.eqb_neq in Nj. destruct k; [|simpl; now rewrite Nj]. clear - Nj. induction es as [|e es IH]; auto. simpl.
      destruct (mem_item _ _ _); simpl; rewrite ?Nj; auto. }
    rewrite Z. reflexivity. }
  destruct (kind_dec k) as [Hk|Hk]; rewrite Hk in *.
  - rewrite SUM. destruct (in_dec Nat.eq_dec i (used s3 L)) as [Iu|Nu].
    + rewrite (sumq_single _ i _ NU Iu). cbn [item_adds]. rewrite at_if_flat. apply sumq_ext. intros e He. destruct (EP e He) as (p & Hp & E1 & E2). rewrite E1, E2.
      assert (C := CR p Hp). assert (NC : (crossings s' i (if_path p) <= 1)%nat).
      { rewrite <- filter_IIf. assert (X := NDp p Hp). clear - X. induction p as [|j p IH]; simpl; auto. inversion X; subst. destruct (Nat.eqb_spec j i) as [->|]; auto.
        simpl. replace (filter (fun j => Nat.eqb j i) p) with (@nil nat); [auto|]. symmetry. clear - H1. induction p as [|x p IH]; auto. simpl.
        destruct (Nat.eqb_spec x i) as [->|]; [destruct H1; left; auto|]. apply IH. intros Y; apply H1; right; auto. }
      unfold mem_item. destruct (existsb (item_eqb s3 (IIf i)) (if_path p)) eqn:X.
      * assert (crossings s' i (if_path p) = 1%nat).
        { apply existsb_exists in X as (x & X1 & X2). assert (Y : In x (filter (item_eqb s3 (IIf i)) (if_path p))) by (apply filter_In; auto).
          destruct (filter (item_eqb s3 (IIf i)) (if_path p)); [destruct Y|]. simpl in C. lia. }
        rewrite H. unfold at_if. cbn [filter fst]. rewrite Nat.eqb_refl. cbn [map snd Qsum fold_right]. change (inject_Z (Z.of_nat 1)) with 1%Q. ring.
      * assert (crossings s' i (if_path p) = O).
        { rewrite <- C. destruct (filter (item_eqb s3 (IIf i)) (if_path p)) as [|x l] eqn:F; auto. 
          assert (Y : In x (filter (item_eqb s3 (IIf i)) (if_path p))) by (rewrite F; left; auto). apply filter_In in Y as [Y1 Y2].
          assert (existsb (item_eqb s3 (IIf i)) (if_path p) = true) by (apply existsb_exists; eauto). congruence. }
        rewrite H. simpl. ring.
    + rewrite sumq_zero; [|intros j Hj; destruct (Nat.eqb_spec j i) as [->|]; [tauto|reflexivity]].
      symmetry. unfold carried. apply sumq_zero. intros e He. rewrite (ZC Nu e He). change (inject_Z (Z.of_nat 0)) with 0%Q. ring.
  - eapply rounds_compat; [reflexivity|symmetry; exact SUM|]. destruct (in_dec Nat.eq_dec i (used s3 L)) as [Iu|Nu].
    + eapply rounds_compat; [reflexivity|symmetry; apply (sumq_single _ i _ NU Iu)|]. unfold at_if. cbn [item_adds filter fst]. rewrite Nat.eqb_refl. cbn [map snd].
      rewrite IT. eapply rounds_compat; [reflexivity| |apply (roundd_rounds 10)]. cbn [Qsum fold_right]. rewrite Qplus_0_r. reflexivity.
    + eapply rounds_compat; [| |apply (roundd_rounds 10 0)].
      * symmetry. unfold carried. apply sumq_zero. intros e He. rewrite (ZC Nu e He). change (inject_Z (Z.of_nat 0)) with 0%Q. ring.
      * rewrite sumq_zero; [reflexivity|]. intros j Hj; destruct (Nat.eqb_spec j i) as [->|]; [tauto|reflexivity].
Qed.

(** interface traffic *)
Lemma sm_iftraffic i : In i (m_ifs s) -> if i_failed (h_if s' i) then i_traffic (h_if s' i) = TDown
     else exists q, i_traffic (h_if s' i) = TNum q /\ (q == sumq (fun d => Qsum (at_if i (plan_adds E k s3 d))) (m_dms s'))%Q.
Proof.
  intros Hi. destruct (util_run _ _ _ _ (sm_util _ _ _ _ _ _ _ _ Sm)) as [X _].
  pose proof (df_same _ _ _ (sm_23 _ _ _ _ _ _ _ _ Sm)) as R23. assert (CF := sm_cframe _ _ _ _ _ _ _ _ Sm HE N St).
  assert (Hi3 : In i (m_ifs s3)). { rewrite (rs_ifs _ _ _ R23). destruct (sm_12 _ _ _ _ _ _ _ _ Sm) as (_ & -> & _). exact Hi. }
  specialize (X i Hi3). destruct (cf_data _ _ _ CF i) as (_ & _ & _ & _ & _ & T & F & _). rewrite F, T.
  destruct (rs_idata _ _ _ (tf_same _ _ _ (sm_34 _ _ _ _ _ _ _ _ Sm)) i) as (_ & _ & _ & _ & _ & _ & F4 & _). rewrite F4.
  destruct (i_failed (h_if s3 i)); [apply X|]. destruct X as (q & Tq & Q). exists q. split; auto. rewrite Q, at_if_flat.
  destruct (sm_lsps' _ _ _ _ _ _ _ _ Sm HE N) as (_ & -> & _). rewrite (rs_dms _ _ _ R23). reflexivity.
Qed.

Lemma plan_unrouted d i : d_path (h_dm s' d) = DUnrouted -> (Qsum (at_if i (plan_adds E k s3 d)) = 0)%Q.
Proof.
  intros H. unfold plan_adds. assert (P3 : d_path (h_dm s3 d) = d_path (h_dm s' d)).
  { destruct (sm_rest _ _ _ _ _ _ _ _ Sm HE N) as (_ & _ & -> & _). symmetry. apply (tf_path _ _ _ (sm_34 _ _ _ _ _ _ _ _ Sm)). }
  rewrite P3, H. reflexivity.
Qed.

Lemma sm_dms_in d : In d (m_dms s') -> In d (m_dms s).
Proof. destruct (sm_lsps' _ _ _ _ _ _ _ _ Sm HE N) as (_ & -> & _). destruct (sm_12 _ _ _ _ _ _ _ _ Sm) as (_ & _ & _ & -> & _). auto. Qed.

Lemma flex_adds d i : k = Flex -> In d (m_dms s) -> In i (m_ifs s) -> NoDup (m_lsps s) -> no_shortcuts_for k s' d ->
  (Qsum (at_if i (plan_adds E k s3 d)) == demand_on s' d i)%Q.
Proof.
  intros Hk Hd Hi NL NS. unfold demand_on. destruct (d_path (h_dm s' d)) as [|ps] eqn:Pd; [now rewrite plan_unrouted|].
  destruct (lsp_cases d) as [Ex|NLs].
  - destruct (ride_adds d i Hd NL Ex) as (ls & Ne & Pd' & S). rewrite S. destruct (ride_detail d Hd NL Ex) as (ls' & es & Ne' & _ & _ & Pd2 & De & Pe & Tr & _).
    assert (ls' = ls). { assert (X : map (fun l => [ILsp l]) ls' = map (fun l => [ILsp l]) ls) by congruence. clear - X. revert ls X.
      induction ls' as [|a l IH]; intros [|b m] X; try discriminate; auto. simpl in X. injection X as -> X. f_equal. auto. }
    subst ls'. rewrite De. rewrite Hk in Tr. unfold carried. clear - Pe Tr. revert Pe Tr. generalize (d_traffic (h_dm s' d) / count ls)%Q. intros q. revert es.
    induction ls as [|l ls IH]; intros [|e es] Pe Tr; try discriminate; [reflexivity|]. cbn [map] in Pe |- *. injection Pe as P1 P2. 
    cbn [Qsum fold_right]. rewrite sumq_cons. fold (Qsum (map (fun e => inject_Z (Z.of_nat (crossings s' i (entry_path e))) * pi_traffic e)%Q es)).
    rewrite <- (IH es P2) by (intros; apply Tr; right; auto). rewrite P1, (Tr e (or_introl eq_refl)). ring.
  - destruct (igp_adds d i Hd Hi NLs NS ps Pd) as (es & De & _ & S). rewrite De. rewrite Hk in S. now rewrite Hk.
Qed.

Lemma flex_util i : k = Flex -> In i (m_ifs s) -> NoDup (m_lsps s) -> (forall d, In d (m_dms s) -> no_shortcuts_for k s' d) ->
  if i_failed (h_if s' i) then i_traffic (h_if s' i) = TDown
  else exists q, i_traffic (h_if s' i) = TNum q /\ (q == Qsum (map (fun d => demand_on s' d i) (m_dms s')))%Q.
Proof.
  intros Hk Hi NL NS. assert (X := sm_iftraffic i Hi). destruct (i_failed (h_if s' i)); auto. destruct X as (q & T & Q). exists q. split; auto.
  rewrite Q. change (sumq (fun d => Qsum (at_if i (plan_adds E k s3 d))) (m_dms s') == sumq (fun d => demand_on s' d i) (m_dms s'))%Q.
  apply sumq_ext. intros d Hd. apply sm_dms_in in Hd. apply flex_adds; auto.
Qed.
Lemma perf_util i : k = Perf -> In i (m_ifs s) -> NoDup (m_lsps s) ->
  if i_failed (h_if s' i) then i_traffic (h_if s' i) = TDown
  else exists q f, i_traffic (h_if s' i) = TNum q /\ (forall d, In d (m_dms s') -> demand_puts s' d i (f d)) /\ (q == Qsum (map f (m_dms s')))%Q.
Proof.
  intros Hk Hi NL. assert (X := sm_iftraffic i Hi). destruct (i_failed (h_if s' i)); auto. destruct X as (q & T & Q).
  exists q, (fun d => Qsum (at_if i (plan_adds E k s3 d))). split; [exact T|]. split; [|exact Q]. intros d Hd. apply sm_dms_in in Hd.
  unfold demand_puts. destruct (d_path (h_dm s' d)) as [|ps] eqn:Pd; [now rewrite plan_unrouted|]. destruct (lsp_cases d) as [Ex|NLs]; [right|left].
  - destruct (ride_adds d i Hd NL Ex) as (ls & Ne & Pd' & S). exists ls. split; [exact Ne|]. split; [congruence|]. exact S.
  - split; [exact NLs|]. assert (NS : no_shortcuts_for k s' d) by (intros Z; congruence).
    destruct (igp_adds d i Hd Hi NLs NS ps Pd) as (es & De & Pe & S). exists es. split; [exact De|]. split; [exact Pe|]. rewrite Hk in S. now rewrite Hk.
Qed.
End Done.
