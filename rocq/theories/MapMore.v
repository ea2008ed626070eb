(** MapMore.v - more lemmas about the weather map: edges of interfaces, places of nodes, dropdown lists. *)
From Coq Require Import DecimalString Sorting.Sorted Lqa.
From Verif Require Import Base Graph Objects Sim Api Spec SpecCkt SpecSim MapTypes Map SpecMap
  MonadProofs GroupProofs QuietProofs RouteProofs ObjProofs CircuitProofs ValidateProofs LspTraffic MapProofs.

Lemma whole_coloured e z s : In e (snd (create_elements s)) -> (exists q, je_util e = Some q /\ q == inject_Z z)%Q -> 0 <= z -> je_group e <> None.
Proof.
  intros H (q & U & Eq) Z0.
  assert (X : exists c, colour_for (je_util e) c).
  { rewrite U. unfold colour_for, in_band. 
    destruct (Z_le_gt_dec 100 z) as [L|L].
    { exists "darkviolet". left. split; auto. rewrite Eq. change 100%Q with (inject_Z 100). now rewrite <- Zle_Qle. }
    assert (B : forall lo hi c, In (lo, hi, c) bands -> lo <= z <= hi -> exists c', (100 <= q)%Q /\ c' = "darkviolet" \/
        (exists lo hi, In (lo, hi, c') bands /\ (inject_Z lo <= q)%Q /\ (q <= inject_Z hi)%Q)).
    { intros lo hi c I [A B]. exists c. right. exists lo, hi. split; auto. rewrite Eq, <- !Zle_Qle. auto. }
    destruct (Z_le_gt_dec z 24); [apply (B 0 24 "royalblue"); [simpl; auto|lia]|].
    destruct (Z_le_gt_dec z 49); [apply (B 25 49 "green"); [simpl; auto|lia]|].
    destruct (Z_le_gt_dec z 74); [apply (B 50 74 "yellow"); [simpl; auto|lia]|].
    destruct (Z_le_gt_dec z 89); [apply (B 75 89 "orangered"); [simpl; auto|lia]|].
    apply (B 90 99 "darkred"); [simpl; auto 10|lia]. }
  destruct X as (c & X). apply (edges_coloured s e c H) in X. congruence.
Qed.

(** ** Every interface of a circuit has one edge *)
Lemma in_split_flat {A B} (f : A -> list B) l x : In x l -> exists l1 l2, flat_map f l = flat_map f l1 ++ f x ++ flat_map f l2 /\ l = l1 ++ x :: l2.
Proof.
  intros H. apply in_split in H as (l1 & l2 & ->). exists l1, l2. split; [|reflexivity].
  rewrite flat_map_app. reflexivity.
Qed.

Lemma one_edge s i : NoDup (map (if_key s) (m_ifs s)) ->
  (forall c, In c (m_ckts s) -> In (fst c) (m_ifs s) /\ In (snd c) (m_ifs s) /\ fst c <> snd c) ->
  NoDup (m_ckts s) -> (forall c c' x, In c (m_ckts s) -> In c' (m_ckts s) -> end_of c x -> end_of c' x -> c = c') ->
  forall c, In c (m_ckts s) -> end_of c i ->
  exists l1 l2, snd (create_elements s) = l1 ++ circuit_edge s c i :: l2 /\
    forall e, In e (l1 ++ l2) -> (je_source e, je_name e) <> (loc s i, i_name (h_if s i)).
Proof.
  intros K Ends ND Disj c Hc He. destruct (in_split_flat (circuit_edges s) _ _ Hc) as (c1 & c2 & F & Sp).
  assert (Oth : forall e, In e (flat_map (circuit_edges s) c1 ++ flat_map (circuit_edges s) c2) ->
            exists c' j, In c' (m_ckts s) /\ c' <> c /\ end_of c' j /\ e = circuit_edge s c' j).
  { intros e H. rewrite <- flat_map_app in H. apply in_flat_map in H as (c' & Hc' & H).
    assert (Hn : c' <> c). { intros ->. rewrite Sp in ND. apply NoDup_remove_2 in ND. auto. }
    assert (Hm : In c' (m_ckts s)). { rewrite Sp. apply in_app_iff in Hc'. apply in_app_iff. simpl. tauto. }
    simpl in H. destruct H as [<-|[<-|[]]]; [exists c', (fst c')|exists c', (snd c')]; unfold end_of; auto. }
  assert (EndIn : forall c j, In c (m_ckts s) -> end_of c j -> In j (m_ifs s)).
  { intros c0 j H [-> | ->]; apply (Ends _ H). }
  assert (Inj : forall j, In j (m_ifs s) -> (loc s j, i_name (h_if s j)) = (loc s i, i_name (h_if s i)) -> j = i).
  { intros j Hj Ek. apply (NoDup_map_inj (if_key s) (m_ifs s) j i); auto; [eapply EndIn; eauto|].
    injection Ek as E1 E2. unfold if_key. now rewrite E1, E2. }
  destruct (Ends _ Hc) as (Ha & Hb & Hab).
  assert (Main : forall e, In e (flat_map (circuit_edges s) c1 ++ flat_map (circuit_edges s) c2) -> (je_source e, je_name e) <> (loc s i, i_name (h_if s i))).
  { intros e H Ek. destruct (Oth e H) as (c' & j & H1 & H2 & H3 & ->). cbn in Ek.
    assert (j = i) by (apply Inj; [eapply EndIn; eauto|exact Ek]). subst j. apply H2. eapply Disj; eauto. }
  cbn [snd create_elements]. rewrite F. unfold circuit_edges at 2. destruct He as [-> | ->].
  - exists (flat_map (circuit_edges s) c1), (circuit_edge s c (snd c) :: flat_map (circuit_edges s) c2). split; [reflexivity|].
    intros e H. apply in_app_iff in H. simpl in H. destruct H as [H|[<-|H]].
    + apply Main. apply in_app_iff. auto.
    + cbn. intros Ek. apply Hab. symmetry. apply Inj; auto.
    + apply Main. apply in_app_iff. auto.
  - exists (flat_map (circuit_edges s) c1 ++ [circuit_edge s c (fst c)]), (flat_map (circuit_edges s) c2). split; [now rewrite <- app_assoc|].
    intros e H. rewrite !in_app_iff in H. simpl in H. destruct H as [[H|[<-|[]]]|H].
    + apply Main. apply in_app_iff. auto.
    + cbn. intros Ek. apply Hab. apply Inj; auto.
    + apply Main. apply in_app_iff. auto.
Qed.

Lemma interface_drawn E s s' i : env_ok E -> NoDup (m_ifs s) -> cids_set Flex s -> lsps_sane s -> NoDup (map (if_key s) (m_ifs s)) ->
  (forall j, In j (m_ifs s) -> loc s j <> rem s j) -> validate_model E Flex s = (s', Ok tt) -> In i (m_ifs s) -> available s i ->
  exists e l1 l2, snd (create_elements s') = l1 ++ e :: l2 /\
    je_source e = loc s i /\ je_name e = i_name (h_if s i) /\ je_cost e = i_cost (h_if s i) /\ (je_cap e == i_cap (h_if s i))%Q /\
    shown_cid (i_cid (h_if s i)) (je_cid e) /\ shown_util s' i (je_util e) /\
    forall e', In e' (l1 ++ l2) -> (je_source e', je_name e') <> (loc s i, i_name (h_if s i)).
Proof.
  intros HE N CS SA K NL V Hi Av.
  destruct (circuits_flex E s s' HE N CS V) as (N' & Ends & Disj & Cov & Cid & _).
  destruct (validate_ok _ _ _ _ HE N V) as (P & s1 & C & T). assert (F := cc_frame _ _ _ C).
  destruct (td_rest _ _ _ _ F T) as (_&_&_&_&Ei&_). assert (L := td_loc _ _ _ _ F T).
  assert (Fi : forall x, i_name (h_if s' x) = i_name (h_if s x) /\ i_cost (h_if s' x) = i_cost (h_if s x) /\ i_cap (h_if s' x) = i_cap (h_if s x)).
  { intros x. destruct (td_if _ _ _ _ F T x) as (b & c & Hx & Hc). rewrite Hx. destruct (mis _ _ _); simpl; auto. }
  assert (Kf : forall x, if_key s' x = if_key s x).
  { intros x. unfold if_key. destruct (Fi x) as (-> & _). destruct (L x) as [-> _]. reflexivity. }
  assert (Cap : forall a b, In (a, b) (m_ckts s') -> (i_cap (h_if s a) == i_cap (h_if s b))%Q).
  { intros a b Hab. destruct (validate_verdict E Flex s s' (Ok tt) round1 HE N SA round1_ok V) as [Vd _].
    destruct (Vd P) as (errs & _ & Q & _ & Q2). destruct (Qeq_dec (i_cap (h_if s a)) (i_cap (h_if s b))) as [|NQ]; auto. exfalso.
    assert (X : In VCapacity errs) by (apply Q; simpl; eauto). assert (Y : errs <> []) by (intros ->; destruct X). apply Q2 in Y. discriminate. }
  assert (Hi' : In i (m_ifs s')) by (rewrite Ei; auto).
  destruct (proj2 (Cov i Hi') (or_introl Av)) as ([a b] & Hc & He).
  destruct (one_edge s' i) with (c := (a, b)) as (l1 & l2 & Q1 & Q2); auto.
  - rewrite Ei. erewrite map_ext; [exact K|]. intros x. apply Kf.
  - intros [x y] Hxy. destruct (Ends x y Hxy) as (H1 & H2 & H3 & H4 & H5). split; [auto|]. split; [auto|]. simpl. intros <-.
    rewrite Ei in H1. apply (NL x H1). destruct (L x) as [Lx Rx]. congruence.
  - exists (circuit_edge s' (a, b) i), l1, l2. destruct (Fi i) as (F1 & F2 & F3). destruct (L i) as [Li _]. split; [exact Q1|].
    split; [exact Li|]. split; [exact F1|]. split; [exact F2|]. destruct (Ends a b Hc) as (_ & _ & _ & _ & Eab).
    split; [|split; [|split]].
    + cbn. destruct (Fi a) as (_ & _ & ->). destruct He as [-> | ->]; cbn; [reflexivity|]. apply Cap. exact Hc.
    + cbn. rewrite <- Cid. destruct He as [-> | ->]; cbn; [apply shown_text|]. rewrite <- Eab. apply shown_text.
    + apply util_shown.
    + rewrite <- Li, <- F1. exact Q2.
Qed.

(** ** A place has one position *)
Lemma append_inj a b c : String.append a b = String.append a c -> b = c.
Proof. induction a; simpl; [auto|]. injection 1. auto. Qed.
Lemma free_not_mid x y : dash_free x -> x <> String.append "midpoint-" y.
Proof. intros F ->. simpl in F. decompose [and] F. congruence. Qed.

Lemma node_in s v : In v (fst (create_elements s)) -> exists c, In c (m_ckts s) /\
  (mid_for s c v \/ exists n, (n = i_node (h_if s (fst c)) \/ n = i_node (h_if s (snd c))) /\ node_for s n v).
Proof.
  intros H. apply in_flat_map in H as (c & Hc & H). exists c. split; [exact Hc|].
  destruct (node_parts s c) as (m & a & b & Q & M & A & B). rewrite Q in H. simpl in H. destruct H as [<-|[<-|[<-|[]]]]; eauto.
Qed.
Definition same_jnode (v w : jnode) : Prop :=
  jn_id v = jn_id w /\ jn_label v = jn_label w /\ jn_group v = jn_group w /\ jn_failed v = jn_failed w /\ jn_neighbors v = jn_neighbors w /\
  (jn_x v == jn_x w)%Q /\ (jn_y v == jn_y w)%Q.
Lemma one_place s v w : (forall c i, In c (m_ckts s) -> end_of c i -> In (i_node (h_if s i)) (m_nds s) /\ dash_free (loc s i)) ->
  NoDup (map (nd_name s) (m_nds s)) -> In v (fst (create_elements s)) -> In w (fst (create_elements s)) -> jn_id v = jn_id w -> same_jnode v w.
Proof.
  intros W ND Hv Hw Eid. apply node_in in Hv as (c & Hc & Hv). apply node_in in Hw as (c' & Hc' & Hw).
  assert (Inj : forall n m, In n (m_nds s) -> In m (m_nds s) -> nd_name s n = nd_name s m -> n = m) by (intros; eapply NoDup_map_inj; eauto).
  assert (EN : forall c n, In c (m_ckts s) -> n = i_node (h_if s (fst c)) \/ n = i_node (h_if s (snd c)) -> In n (m_nds s) /\ dash_free (nd_name s n)).
  { intros c0 n H [-> | ->]; [destruct (W c0 (fst c0) H)|destruct (W c0 (snd c0) H)]; unfold end_of; auto. }
  unfold same_jnode. destruct Hv as [Mv|(n & Hn & Nv)], Hw as [Mw|(m & Hm & Nw)].
  - destruct Mv as (I1 & L1 & G1 & F1 & B1 & X1 & Y1), Mw as (I2 & L2 & G2 & F2 & B2 & X2 & Y2).
    assert (T : mid_text s c = mid_text s c') by congruence. unfold mid_text in T. apply append_inj in T.
    destruct (EN c _ Hc (or_introl eq_refl)) as [A1 A2]. destruct (EN c' _ Hc' (or_introl eq_refl)) as [A3 A4].
    destruct (EN c _ Hc (or_intror eq_refl)) as [A5 A6]. destruct (EN c' _ Hc' (or_intror eq_refl)) as [A7 A8].
    destruct (ends_text_inj (loc s (fst c)) (loc s (fst c')) (loc s (snd c)) (loc s (snd c')) A2 A4 T) as [T1 T2].
    apply (Inj _ _ A1 A3) in T1. apply (Inj _ _ A5 A7) in T2. rewrite T1, T2 in X1, Y1.
    split; [auto|]. split; [congruence|]. split; [congruence|]. split; [congruence|]. split; [|split; lra].
    rewrite B1, B2. unfold loc. now rewrite T1, T2.
  - exfalso. destruct Mv as (I1 & _), Nw as (I2 & _). destruct (EN _ _ Hc' Hm) as [_ D]. apply (free_not_mid _ (ends_text (loc s (fst c)) (loc s (snd c))) D).
    unfold mid_text in I1. congruence.
  - exfalso. destruct Mw as (I1 & _), Nv as (I2 & _). destruct (EN _ _ Hc Hn) as [_ D]. apply (free_not_mid _ (ends_text (loc s (fst c')) (loc s (snd c'))) D).
    unfold mid_text in I1. congruence.
  - destruct Nv as (I1 & L1 & G1 & F1 & B1 & X1 & Y1), Nw as (I2 & L2 & G2 & F2 & B2 & X2 & Y2).
    destruct (EN _ _ Hc Hn) as [Q1 _]. destruct (EN _ _ Hc' Hm) as [Q2 _]. assert (n = m) by (apply Inj; congruence). subst m.
    repeat split; congruence || lra.
Qed.
