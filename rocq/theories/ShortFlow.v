(** ShortFlow.v - the traffic of demands whose paths use LSPs. *)
From Verif Require Import Base Graph Objects Sim Spec SpecCkt SpecSim SpecMetric SpecFlow SpecShort GraphProofs MonadProofs RoundProofs ResProofs ObjProofs CircuitProofs
  ValidateProofs GroupProofs PathProofs QuietProofs RouteProofs LeastProofs IgpProofs Ecmp TrafficProofs ShareProofs SpecSig SigUpdate MetricProofs FlowProofs UtilProofs
  ShortPaths ShortProofs ShortMore.
From Coq Require Import Lqa.

Lemma item_eqb_same s x y : if_keys_unique s -> (forall i, x = IIf i -> In i (m_ifs s)) -> (forall i, y = IIf i -> In i (m_ifs s)) -> (item_eqb s x y = true <-> x = y).
Proof.
  intros K H H'. destruct x as [i|l], y as [j|l']; simpl; try (split; congruence).
  - rewrite iface_eqb_eq; auto. split; congruence.
  - rewrite Nat.eqb_eq. split; congruence.
Qed.
Lemma same_item_eq x y : same_item x y = true <-> x = y.
Proof. destruct x, y; simpl; try (split; congruence); rewrite Nat.eqb_eq; split; congruence. Qed.

Definition item_dec (x y : item) : {x = y} + {x <> y}.
Proof. destruct (same_item x y) eqn:E; [left; now apply same_item_eq|right; intros H; apply same_item_eq in H; congruence]. Defined.
Lemma with_sum x es : (with_item x es == sumq (fun e => if existsb (same_item x) (entry_path e) then pi_traffic e else 0)%Q es)%Q.
Proof. unfold with_item, total. exact (sumq_filter pi_traffic (fun e => existsb (same_item x) (entry_path e)) es). Qed.
Lemma once x l : NoDup l -> List.length (filter (same_item x) l) = if existsb (same_item x) l then 1%nat else 0%nat.
Proof.
  induction 1 as [|y l Hy ND IH]; auto. simpl. destruct (same_item x y) eqn:X; auto. apply same_item_eq in X. subst y. simpl. f_equal. rewrite IH.
  destruct (existsb (same_item x) l) eqn:Y; auto. apply existsb_exists in Y as (z & Z1 & Z2). apply same_item_eq in Z2. subst z. tauto.
Qed.
Lemma sumq_one x c l : NoDup l -> In x l -> (sumq (fun y => if same_item x y then c else 0) l == c)%Q.
Proof.
  induction 1 as [|y l Hy ND IH]; intros H; [destruct H|]. rewrite sumq_cons. destruct (same_item x y) eqn:X.
  - apply same_item_eq in X. subst y. rewrite sumq_zero; [ring|]. intros z Hz. destruct (same_item x z) eqn:Z; [|reflexivity]. apply same_item_eq in Z. subst z. tauto.
  - destruct H as [->|H]; [rewrite (proj2 (same_item_eq x x) eq_refl) in X; discriminate|]. rewrite IH; auto. ring.
Qed.

Section Entries.
Variables (s : st) (ps : list (list item)) (T : Q).
Hypothesis U : if_keys_unique s.
Hypothesis HL : forall q i, In q ps -> In (IIf i) q -> In i (m_ifs s).

Definition iset : list item := item_set s ps.
Lemma iset_spec : NoDup iset /\ forall x, In x iset <-> exists q, In q ps /\ In x q.
Proof.
  destruct (dedup_spec (item_eqb s) (List.concat ps)) as [A B].
  - intros x y Hx Hy. apply in_concat in Hx as (p & ? & ?). apply in_concat in Hy as (q & ? & ?). apply item_eqb_same; auto; intros i ->; eauto.
  - split; [exact A|]. intros i. unfold iset, item_set. rewrite B. rewrite in_concat. reflexivity.
Qed.
Definition onward (n : string) : list item := filter (fun x => String.eqb (leaves s x) n) iset.
Lemma onward_spec n : next_items s ps n (onward n).
Proof.
  split; [apply NoDup_filter, iset_spec|]. intros x. unfold onward. rewrite filter_In, String.eqb_eq. rewrite (proj2 iset_spec). tauto.
Qed.
Lemma onward_count n : next_hop_count s iset n = Z.of_nat (List.length (onward n)).
Proof. reflexivity. Qed.
Lemma counts_eq q : forall a, splits_along s iset a q = item_counts s onward a q.
Proof. induction q as [|x q IH]; intros a; auto. cbn [splits_along item_counts]. cbv zeta. rewrite onward_count. change (item_src s x) with (leaves s x). now rewrite IH. Qed.

Let c (x : item) : Z := Z.of_nat (List.length (onward (leaves s x))).
Fixpoint iprod (q : list item) : Z := match q with [] => 1 | x :: t => c x * iprod t end.
Lemma ic_pos q x : In q ps -> In x q -> 1 <= c x.
Proof.
  intros Hq Hx. unfold c. assert (X : In x (onward (leaves s x))) by (apply onward_spec; eauto). destruct (onward (leaves s x)); [destruct X|simpl; lia].
Qed.
Lemma counts_max q : (forall x, In x q -> 1 <= c x) -> forall a, 1 <= a -> fold_left Z.max (map snd (item_counts s onward a q)) a = a * iprod q.
Proof.
  induction q as [|x q IH]; intros H a Ha; [simpl; lia|]. cbn [item_counts map snd fold_left iprod]. cbv zeta. fold (c x). cbn [snd].
  assert (C := H x (or_introl eq_refl)). assert (A : a <= a * c x) by nia.
  rewrite Z.max_r by lia. rewrite IH; [lia| |nia]. intros; apply H; simpl; auto.
Qed.
Lemma iprod_pos q : (forall x, In x q -> 1 <= c x) -> 1 <= iprod q.
Proof. induction q as [|x q IH]; simpl; intros H; [lia|]. assert (1 <= c x) by (apply H; auto). assert (1 <= iprod q) by (apply IH; intros; apply H; auto). nia. Qed.
Lemma divided_prod q : (forall x, In x q -> 1 <= c x) -> forall t, (item_divided s onward t q == t / inject_Z (iprod q))%Q.
Proof.
  induction q as [|x q IH]; intros H t; [simpl; field|]. cbn [item_divided iprod]. fold (c x). rewrite IH by (intros; apply H; simpl; auto).
  assert (C := H x (or_introl eq_refl)). assert (P : 1 <= iprod q) by (apply iprod_pos; intros; apply H; simpl; auto).
  rewrite inject_Z_mult. field. split; intros X; unfold Qeq in X; simpl in X; lia.
Qed.
Lemma item_entry q e : In q ps -> path_entry Flex s iset T q = Ok e ->
  q <> [] /\ entry_path e = q /\ pi_items e = Some q /\ pi_splits e = Some (item_counts s onward 1 q) /\ (pi_traffic e == item_divided s onward T q)%Q.
Proof.
  intros Hq H. unfold path_entry in H. rewrite counts_eq in H. destruct q as [|x q]; [discriminate H|].
  cbn [item_counts map snd Zmax_list] in H. cbv zeta in H. cbn [snd] in H. fold (c x) in H. assert (C : forall y, In y (x :: q) -> 1 <= c y) by (intros y Hy; eapply ic_pos; eauto).
  assert (C0 := C x (or_introl eq_refl)). rewrite counts_max in H; [|intros; apply C; simpl; auto|lia].
  match type of H with Ok ?y = Ok _ => assert (Ee : e = y) by congruence end. rewrite Ee. clear H Ee.
  split; [discriminate|]. split; [reflexivity|]. split; [reflexivity|]. split; [reflexivity|]. cbn [pi_traffic]. rewrite divided_prod by exact C. cbn [iprod].
  replace (1 * c x * iprod q) with (c x * iprod q) by lia. reflexivity.
Qed.
End Entries.

Lemma next_items_ext s s' ps n O : (forall x, leaves s x = leaves s' x) -> next_items s ps n O -> next_items s' ps n O.
Proof. intros H [A B]. split; auto. intros x. rewrite B, H. reflexivity. Qed.
Lemma item_counts_ext s s' outs q : (forall x, leaves s x = leaves s' x) -> forall a, item_counts s outs a q = item_counts s' outs a q.
Proof. intros H. induction q as [|x q IH]; intros a; auto. cbn [item_counts]. now rewrite H, IH. Qed.
Lemma item_divided_ext s s' outs q : (forall x, leaves s x = leaves s' x) -> forall t, item_divided s outs t q = item_divided s' outs t q.
Proof. intros H. induction q as [|x q IH]; intros a; auto. cbn [item_divided]. now rewrite H, IH. Qed.

(** the nodes that the items of a path leave *)
Lemma rides_leaves s p gs q : rides s p gs q -> NoDup (map (loc s) p) -> NoDup (map (leaves s) q) /\ forall n, In n (map (leaves s) q) -> In n (map (loc s) p).
Proof.
  induction 1 as [|i p gs q H IH|i p j p' ls l gs q H1 H2 H3 H4 H IH]; intros N; simpl; [split; auto; constructor| |].
  - inversion N as [|? ? N1 N2]; subst. destruct (IH N2) as [A B]. split; [constructor; auto|]. intros n [<-|X]; auto.
  - simpl in N. inversion N as [|? ? N1 N2]; subst. rewrite map_app in N1, N2. destruct (IH (nodup_app_r _ _ N2)) as [A B]. split.
    + constructor; auto. rewrite <- H1. intros X. apply N1. apply in_or_app. auto.
    + intros n [<-|X]; [left; auto|]. right. rewrite map_app. apply in_or_app. auto.
Qed.

Section Done.
Variable E : env.
Hypothesis HE : env_ok E.
Variables s s1 s2 s3 s4 s' : st.
Hypothesis Sm : simulated E Flex s s1 s2 s3 s4 s'.
Hypothesis WP : well_posed s.
Hypothesis Up : update_simulation E Flex s = (s', Ok tt).
Hypothesis St : same_failures s s'.
Hypothesis KU : keys_unique s.
Hypothesis RO : refs_ok s.
Hypothesis NT : node_texts s.
Let N : NoDup (m_ifs s) := proj1 WP.

Section Demand.
Variables (d : nat) (ps : list (list item)).
Hypothesis Hd : In d (m_dms s).
Hypothesis NL : no_lsp_for s' d.
Hypothesis Pd : d_path (h_dm s' d) = DPaths ps.

Lemma sc_path q : In q ps -> exists p gs, least_cost s' (usable s') (dmd_from s' d) p (dmd_to s' d) /\ rides s' p gs q /\
  forall g l, In g gs -> In l g -> In l (m_lsps s') /\ routed_lsp s' l /\ shortcut_node s' (lsp_from s' l).
Proof.
  intros Hq. destruct (sm_shortcuts E HE s s1 s2 s3 s4 s' Sm WP Up St KU RO NT d ps Hd NL Pd) as (p0 & gs & L0 & P0 & _ & _ & B).
  apply B in Hq as [(p & L & [R|[-> _]]) _].
  - exists p, gs. split; [exact L|]. split; [exact R|]. intros g l Hg Hl. destruct (picks_members _ _ _ P0 g l Hg Hl) as [X Y].
    split; [exact X|]. split; [exact Y|]. apply (picks_from s' _ _ P0 g l Hg Hl).
  - exists p, []. split; [exact L|]. split; [apply rides_none|]. intros g l [].
Qed.
Lemma sc_items q x : In q ps -> In x q -> match x with IIf i => In i (m_ifs s') /\ usable s' i | ILsp l => In l (m_lsps s') /\ routed_lsp s' l /\ shortcut_node s' (lsp_from s' l) end.
Proof.
  intros Hq Hx. destruct (sc_path q Hq) as (p & gs & [R _] & Rd & G). assert (X := rides_items _ _ _ _ Rd x Hx). destruct x as [i|l].
  - apply (route_all _ _ _ _ _ i R X).
  - destruct X as (g & G1 & G2). eauto.
Qed.
Lemma sc_leads q : In q ps -> leads s' (dmd_from s' d) q (dmd_to s' d).
Proof. intros Hq. destruct (sc_path q Hq) as (p & gs & [R _] & Rd & _). eapply rides_leads; eauto. eapply route_chain; eauto. Qed.
Lemma sc_nodup q : In q ps -> NoDup (map (leaves s') q).
Proof.
  intros Hq. destruct (sc_path q Hq) as (p & gs & L & Rd & _). apply (rides_leaves _ _ _ _ Rd).
  apply (least_loc_nodup s' (usable s') (dmd_from s' d) (dmd_to s' d)); auto. apply (sh_cost' E HE s s1 s2 s3 s4 s'); auto.
Qed.

Lemma ifs3 : m_ifs s3 = m_ifs s'.
Proof.
  pose proof (df_same _ _ _ (sm_23 _ _ _ _ _ _ _ _ Sm)) as R23. assert (SN := sm_same_net E Flex HE _ _ _ _ _ _ Sm N St).
  rewrite (rs_ifs _ _ _ R23). now rewrite (sn_ifs _ _ SN).
Qed.
Lemma leaves3 x : leaves s3 x = leaves s' x.
Proof.
  pose proof (df_same _ _ _ (sm_23 _ _ _ _ _ _ _ _ Sm)) as R23. assert (SN := sm_same_net E Flex HE _ _ _ _ _ _ Sm N St). destruct x as [i|l]; simpl.
  - rewrite (sn_loc _ _ SN). apply (rs_local _ _ _ R23).
  - rewrite (sm_lfrom _ _ _ _ _ _ _ _ Sm) by auto. exact (rs_lsrc _ _ _ R23 l).
Qed.
Lemma sc_ifs3 q i : In q ps -> In (IIf i) q -> In i (m_ifs s3).
Proof. intros Hq Hi. rewrite ifs3. apply (sc_items q (IIf i) Hq Hi). Qed.
Let K3 : if_keys_unique s3 := sm_keys3 E Flex _ _ _ _ _ _ Sm (proj1 KU).

Lemma sc_run : exists es, d_detail (h_dm s' d) = PDInfo es /\ rmap (path_entry Flex s3 (iset s3 ps) (d_traffic (h_dm s' d))) ps = Ok es /\
  plan_adds E Flex s3 d = flat_map (fun x => item_adds Flex es x s3) (iset s3 ps).
Proof.
  assert (P3 : d_path (h_dm s3 d) = DPaths ps).
  { rewrite <- Pd. destruct (sm_rest _ _ _ _ _ _ _ _ Sm HE N) as (_ & _ & -> & _). symmetry. apply (tf_path _ _ _ (sm_34 _ _ _ _ _ _ _ _ Sm)). }
  assert (D := sm_detail E Flex HE _ _ _ _ _ _ Sm N d Hd). rewrite Pd in D. destruct D as (Ad & D). 
  assert (D' := D). unfold plan in D'. rewrite (sm_ride_not E Flex HE _ _ _ _ _ _ Sm WP d Hd NL _ Pd) in D'. cbn [rbind] in D'. apply rbind_ok in D' as (es & D1 & D2).
  destruct (sm_traffic E Flex HE _ _ _ _ _ _ Sm N d) as [T1 T3]. rewrite T3, <- T1 in D1. exists es. split; [congruence|]. split; [exact D1|].
  unfold plan_adds. rewrite P3, D. injection D2 as <- _. reflexivity.
Qed.

(** path_detail *)
Lemma sc_detail : exists es outs, d_detail (h_dm s' d) = PDInfo es /\ (forall n, next_items s' ps n (outs n)) /\
  Forall2 (fun q e => entry_path e = q /\ pi_items e = Some q /\ pi_splits e = Some (item_counts s' outs 1 q) /\
                      (pi_traffic e == item_divided s' outs (d_traffic (h_dm s' d)) q)%Q) ps es /\ (forall q, In q ps -> q <> []).
Proof.
  destruct sc_run as (es & De & R & _). exists es, (onward s3 ps). split; [exact De|].
  split; [intros n; apply (next_items_ext s3 s' ps n _ leaves3); apply onward_spec; auto; exact sc_ifs3|].
  apply rmap_ok in R. assert (X : forall qs fs, (forall q, In q qs -> In q ps) -> Forall2 (fun x y => path_entry Flex s3 (iset s3 ps) (d_traffic (h_dm s' d)) x = Ok y) qs fs ->
    Forall2 (fun q e => entry_path e = q /\ pi_items e = Some q /\ pi_splits e = Some (item_counts s' (onward s3 ps) 1 q) /\
                      (pi_traffic e == item_divided s' (onward s3 ps) (d_traffic (h_dm s' d)) q)%Q) qs fs /\ (forall q, In q qs -> q <> [])).
  { induction qs as [|q qs IH]; intros fs Hs F; inversion F as [|x y l1 l2 F1 F2]; subst; [split; [constructor|intros ? []]|].
    destruct (IH l2) as [I1 I2]; auto; [intros; apply Hs; right; auto|]. assert (Hq := Hs q (or_introl eq_refl)).
    destruct (item_entry s3 ps (d_traffic (h_dm s' d)) K3 sc_ifs3 q y Hq F1) as (A1 & A2 & A3 & A4 & A5). split.
    - constructor; auto. split; [exact A2|]. split; [exact A3|]. rewrite <- (item_counts_ext s3 s' _ _ leaves3), <- (item_divided_ext s3 s' _ _ leaves3). auto.
    - intros q' [<-|H']; auto. }
  apply X; auto.
Qed.

(** the interfaces *)
Lemma sc_adds i : In i (m_ifs s) -> exists es ls f, d_detail (h_dm s' d) = PDInfo es /\ map entry_path es = ps /\ NoDup ls /\ (forall l, In l ls <-> exists q, In q ps /\ In (ILsp l) q) /\
  (forall l, In l ls -> rounds 10 (with_item (ILsp l) es) (f l)) /\
  (Qsum (at_if i (plan_adds E Flex s3 d)) == with_item (IIf i) es + Qsum (map (fun l => inject_Z (Z.of_nat (crossings s' i [ILsp l])) * f l) ls))%Q.
Proof.
  intros Hi. destruct sc_run as (es & De & R & ->). destruct sc_detail as (es0 & outs & De0 & _ & F & _). assert (es0 = es) by congruence. subst es0.
  set (ls := flat_map (fun x => match x with ILsp l => [l] | IIf _ => [] end) (iset s3 ps)).
  destruct (iset_spec s3 ps K3 sc_ifs3) as [ND IN].
  assert (PE : map entry_path es = ps) by (clear - F; induction F as [|q e ps es (A & _) F IH]; simpl; congruence).
  assert (PI : forall e, In e es -> pinfo_items e = entry_path e) by (intros e _; unfold pinfo_items, entry_path; destruct (pi_items e); reflexivity).
  assert (EP : forall e, In e es -> In (entry_path e) ps) by (intros e He; rewrite <- PE; now apply in_map).
  assert (I3 : In i (m_ifs s3)).
  { rewrite ifs3. destruct (sh_lists E HE s s1 s2 s3 s4 s' Sm WP St) as (_ & _ & _ & _ & _ & _ & -> & _). exact Hi. }
  assert (EQ : forall x e y, (forall j, x = IIf j -> In j (m_ifs s3)) -> In e es -> In y (entry_path e) -> item_eqb s3 x y = same_item x y).
  { intros x e y Hx He Hy. apply eq_true_iff_eq. rewrite same_item_eq. apply item_eqb_same; auto. intros j ->. eapply sc_ifs3; eauto. }
  assert (MEM : forall x e, (forall j, x = IIf j -> In j (m_ifs s3)) -> In e es -> mem_item s3 x (pinfo_items e) = existsb (same_item x) (entry_path e)).
  { intros x e Hx He. rewrite PI by auto. unfold mem_item. apply eq_true_iff_eq. rewrite !existsb_exists. split; intros (y & A & B); exists y; split; auto; rewrite (EQ x e y) in *; auto. }
  assert (NDe : forall e, In e es -> NoDup (entry_path e)) by (intros e He; apply (NoDup_map_inv (leaves s')); apply sc_nodup; auto).
  assert (IT : forall l, (item_traffic s3 es (ILsp l) == with_item (ILsp l) es)%Q).
  { intros l. rewrite with_sum. unfold item_traffic. apply sumq_ext. intros e He. rewrite PI by auto.
    rewrite (filter_ext_in _ (same_item (ILsp l))) by (intros y Hy; apply (EQ (ILsp l) e y); auto; discriminate).
    rewrite once by auto. destruct (existsb _ _); [change (inject_Z (Z.of_nat 1)) with 1%Q|change (inject_Z (Z.of_nat 0)) with 0%Q]; ring. }
  exists es, ls, (fun l => round1 (item_traffic s3 es (ILsp l))). split; [exact De|]. split; [exact PE|].
  split; [|split; [|split]].
  - unfold ls. clear - ND. induction ND as [|x l Hx ND IH]; [constructor|]. destruct x as [j|m]; simpl; auto. constructor; auto. intros X. apply Hx.
    apply in_flat_map in X as ([j|m'] & A & B); [destruct B|]. destruct B as [->|[]]. exact A.
  - intros l. unfold ls. rewrite in_flat_map, <- IN. split.
    + intros ([j|m'] & A & B); [destruct B|]. destruct B as [->|[]]. exact A.
    + intros A. exists (ILsp l). split; auto. left; auto.
  - intros l _. eapply rounds_compat; [apply IT|reflexivity|apply (roundd_rounds 10)].
  - rewrite at_if_flat.
    set (g := fun x => if same_item (IIf i) x then with_item (IIf i) es else 0%Q).
    set (h := fun x => match x with ILsp l => (inject_Z (Z.of_nat (crossings s' i [ILsp l])) * round1 (item_traffic s3 es (ILsp l)))%Q | IIf _ => 0%Q end).
    transitivity (sumq (fun x => g x + h x)%Q (iset s3 ps)).
    + apply sumq_ext. intros x Hx. destruct x as [j|l]; unfold g, h; cbn [same_item].
      * destruct (Nat.eqb_spec i j) as [<-|Nj].
        { cbn [item_adds]. rewrite at_if_flat, with_sum, Qplus_0_r. apply sumq_ext. intros e He. rewrite MEM; auto; [|intros j Hj; congruence].
          destruct (existsb _ _); [|reflexivity]. unfold at_if. cbn [filter fst]. rewrite Nat.eqb_refl. cbn [map snd Qsum fold_right]. ring. }
        assert (Z : at_if i (item_adds Flex es (IIf j) s3) = []).
        { cbn [item_adds]. unfold at_if. assert (Nj' : Nat.eqb j i = false) by (apply Nat.eqb_neq; auto). clear - Nj'. induction es as [|e es IH]; auto. simpl.
          destruct (mem_item _ _ _); simpl; rewrite ?Nj'; auto. }
        rewrite Z. reflexivity.
      * cbn [item_adds]. apply IN in Hx as (q & Hq & Hx). destruct (sc_items q (ILsp l) Hq Hx) as (_ & (p & c & b & Pl) & _).
        unfold lsp_interfaces. rewrite (sm_path3 E Flex HE s s1 s2 s3 s4 s' Sm WP), Pl. rewrite at_if_const. unfold crossings. simpl. rewrite Pl, Nat.add_0_r. ring.
    + rewrite sumq_plus. apply Qplus_comp.
      * unfold g. destruct (in_dec item_dec (IIf i) (iset s3 ps)) as [Iy|In_].
        { rewrite (sumq_one (IIf i) _ (iset s3 ps) ND Iy). reflexivity. }
        rewrite sumq_zero.
        { symmetry. rewrite with_sum. apply sumq_zero. intros e He. destruct (existsb (same_item (IIf i)) (entry_path e)) eqn:X; [|reflexivity].
          exfalso. apply In_. apply IN. exists (entry_path e). split; auto. apply existsb_exists in X as (y & Y1 & Y2). apply same_item_eq in Y2. now subst. }
        intros x Hx. destruct (same_item (IIf i) x) eqn:X; [|reflexivity]. apply same_item_eq in X. subst x. tauto.
      * unfold ls. fold (sumq (fun l => inject_Z (Z.of_nat (crossings s' i [ILsp l])) * round1 (item_traffic s3 es (ILsp l)))%Q
          (flat_map (fun x => match x with ILsp l => [l] | IIf _ => [] end) (iset s3 ps))).
        rewrite sumq_flat_map. apply sumq_ext. intros [j|l] _; unfold h; unfold sumq; cbn [map Qsum fold_right]; ring.
Qed.
End Demand.

Lemma flex_loads i : In i (m_ifs s) -> 
  if i_failed (h_if s' i) then i_traffic (h_if s' i) = TDown
  else exists q f, i_traffic (h_if s' i) = TNum q /\ (forall d, In d (m_dms s') -> demand_loads s' d i (f d)) /\ (q == Qsum (map f (m_dms s')))%Q.
Proof.
  intros Hi. assert (X := sm_iftraffic E Flex HE _ _ _ _ _ _ Sm WP St i Hi). destruct (i_failed (h_if s' i)); auto. destruct X as (q & T & Q).
  exists q, (fun d => Qsum (at_if i (plan_adds E Flex s3 d))). split; [exact T|]. split; [|exact Q]. intros d Hd. apply (sm_dms_in E Flex HE _ _ _ _ _ _ Sm WP) in Hd.
  assert (NLs : NoDup (m_lsps s)) by (apply (NoDup_map_inv (lsp_key s)); apply KU).
  unfold demand_loads. destruct (d_path (h_dm s' d)) as [|ps] eqn:Pd; [now rewrite (plan_unrouted E Flex HE _ _ _ _ _ _ Sm WP)|].
  destruct (lsp_cases E Flex HE _ _ _ _ _ _ Sm WP Up d) as [Ex|NL].
  - destruct (ride_adds E Flex HE _ _ _ _ _ _ Sm WP Up St d i Hd NLs Ex) as (ls & Ne & Pd' & S). 
    destruct (ride_detail E Flex HE _ _ _ _ _ _ Sm WP Up St d Hd NLs Ex) as (ls' & es & Ne' & _ & _ & Pd2 & De & Pe & Tr & _).
    exists es. split; [exact De|]. split; [congruence|]. left. split; [exact Ex|]. rewrite S.
    assert (ls' = ls). { assert (X : map (fun l => [ILsp l]) ls' = map (fun l => [ILsp l]) ls) by congruence. clear - X. revert ls X.
      induction ls' as [|a l IH]; intros [|b m] X; try discriminate; auto. simpl in X. injection X as -> X. f_equal. auto. }
    subst ls'. unfold carried. clear - Pe Tr. revert Pe Tr. generalize (d_traffic (h_dm s' d) / count ls)%Q. intros q. revert es.
    induction ls as [|l ls IH]; intros [|e es] Pe Tr; try discriminate; [reflexivity|]. cbn [map] in Pe |- *. injection Pe as P1 P2. 
    cbn [Qsum fold_right]. rewrite sumq_cons. fold (Qsum (map (fun e => inject_Z (Z.of_nat (crossings s' i (entry_path e))) * pi_traffic e)%Q es)).
    rewrite <- (IH es P2) by (intros; apply Tr; right; auto). rewrite P1, (Tr e (or_introl eq_refl)). ring.
  - destruct (sc_adds d ps Hd NL Pd i Hi) as (es & ls & f & De & Pe & A1 & A2 & A3 & A4). exists es. split; [exact De|]. split; [exact Pe|]. right.
    split; [exact NL|]. exists ls, f. auto.
Qed.
End Done.
