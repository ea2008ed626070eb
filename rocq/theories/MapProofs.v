(** MapProofs.v - lemmas about the weather map: names, dropdowns, colours, elements. *)
From Coq Require Import DecimalString Sorting.Sorted Lqa.
From Verif Require Import Base Graph Objects Sim Api Spec SpecCkt SpecSim MapTypes Map SpecMap
  MonadProofs GroupProofs QuietProofs RouteProofs LspTraffic.

(** ** Names *)
Lemma split_free a : dash_free a -> split_dash a = [a].
Proof.
  induction a as [|c a IH]; simpl; intros H; [reflexivity|]. destruct H as [N H]. destruct (Ascii.eqb_spec c "-"); [contradiction|]. now rewrite IH.
Qed.
Lemma split_app a b : dash_free a -> split_dash (String.append a (String.append "-" b)) = a :: split_dash b.
Proof.
  induction a as [|c a IH]; simpl; intros H; [reflexivity|]. destruct H as [N H]. destruct (Ascii.eqb_spec c "-"); [contradiction|].
  simpl in IH. now rewrite IH.
Qed.
Lemma split_ends a b : dash_free a -> dash_free b -> split_dash (ends_text a b) = [a; b].
Proof. intros A B. unfold ends_text. now rewrite split_app, split_free. Qed.

(** ** Sorting *)
Lemma leb_total a b : String.leb a b = true \/ String.leb b a = true.
Proof.
  unfold String.leb. rewrite (String.compare_antisym a b). destruct (String.compare b a); simpl; auto.
Qed.
Lemma insert_perm x l : Permutation (insert_str x l) (x :: l).
Proof.
  induction l as [|y l IH]; simpl; [auto|]. destruct (String.leb x y); [auto|].
  rewrite IH. apply perm_swap.
Qed.
Lemma sort_perm l : Permutation (sort_str l) l.
Proof. induction l as [|x l IH]; simpl; [auto|]. rewrite insert_perm. now constructor. Qed.
Lemma insert_sorted x l : alphabetical l -> alphabetical (insert_str x l).
Proof.
  unfold alphabetical. induction l as [|y l IH]; simpl; intros S; [repeat constructor|].
  destruct (String.leb x y) eqn:L; [constructor; [auto|constructor; auto]|].
  apply Sorted_inv in S as [S H]. constructor; [auto|].
  assert (Y : String.leb y x = true) by (destruct (leb_total x y); congruence).
  destruct l as [|z l]; simpl; [constructor; auto|]. destruct (String.leb x z); constructor; auto. now inversion H.
Qed.
Lemma sort_sorted l : alphabetical (sort_str l).
Proof. induction l as [|x l IH]; simpl; [constructor|]. now apply insert_sorted. Qed.
Lemma sort_In x l : In x (sort_str l) <-> In x l.
Proof. split; apply Permutation_in; [|symmetry]; apply sort_perm. Qed.
Lemma sort_NoDup l : NoDup l -> NoDup (sort_str l).
Proof. apply Permutation_NoDup. symmetry. apply sort_perm. Qed.

(** ** Groups *)
Lemma but_cache_refl s : but_cache s s.
Proof. unfold but_cache. repeat split. Qed.
Lemma but_cache_set s g : but_cache s (set_groups g s).
Proof. unfold but_cache. repeat split. Qed.

Lemma plain_apart s t : plain_names s t -> keys_apart (ofrom s t) (oto s t) (objs s t).
Proof.
  intros P a a' b b' Ha Ha' _ _. apply in_map_iff in Ha as (x & <- & Hx). apply in_map_iff in Ha' as (x' & <- & Hx').
  apply ends_text_inj; apply P; auto.
Qed.
Lemma build_grouped E s t : env_ok E -> plain_names s t -> grouped s t (build_groups E (ofrom s t) (oto s t) (objs s t)).
Proof.
  intros HE P. pose proof (plain_apart s t P) as K. split; [now apply groups_fst_nodup|].
  intros key ls. rewrite groups_in by auto. split; intros (a & b & H); exists a, b; unfold members in *; simpl in *; tauto.
Qed.

Lemma groups_exact E s t : env_ok E -> plain_names s t -> (t = TLsp -> cache_current s) ->
  exists s' g, groups_of E t s = (s', Ok g) /\ but_cache s s' /\ (t = TDemand -> s' = s) /\ grouped s t g /\
    (t = TLsp -> grouped s' TLsp (m_groups s')).
Proof.
  intros HE P C. destruct t.
  - exists s. eexists. split; [reflexivity|]. split; [apply but_cache_refl|]. split; [auto|]. split; [exact (build_grouped E s TDemand HE P)|]. discriminate.
  - specialize (C eq_refl). cbn [groups_of]. unfold parallel_lsp_groups. rewrite bind_gets. destruct (m_groups s) as [|g0 gs] eqn:G.
    + rewrite bind_gets, bind_modify. pose proof (build_grouped E s TLsp HE P) as B. cbn [ofrom oto objs] in B.
      change (lsp_from s) with (lsrc s) in B. change (lsp_to s) with (ldst s) in B.
      eexists. eexists. split; [reflexivity|]. split; [apply but_cache_set|]. split; [discriminate|]. split; [exact B|]. intros _. exact B.
    + exists s, (g0 :: gs). split; [reflexivity|]. split; [apply but_cache_refl|]. split; [auto|]. destruct C as [C|C]; [congruence|].
      split; [rewrite <- G; exact C|]. intros _. exact C.
Qed.

(** keys of the groups *)
Lemma grouped_key s t g key : grouped s t g -> (In key (map fst g) <-> exists x, In x (objs s t) /\ key = ends_text (ofrom s t x) (oto s t x)).
Proof.
  intros [_ G]. rewrite in_map_iff. split.
  - intros ([k ls] & H & Hin). simpl in H. subst k. apply G in Hin as (a & b & -> & N & Q). destruct ls as [|x ls]; [congruence|].
    assert (Hx : In x (x :: ls)) by (simpl; auto). rewrite Q in Hx. apply filter_In in Hx as [Hx E0]. apply andb_true_iff in E0 as [A B].
    apply String.eqb_eq in A, B. exists x. subst. auto.
  - intros (x & Hx & ->). eexists (_, _). split; [reflexivity|]. apply G. exists (ofrom s t x), (oto s t x). split; [reflexivity|]. split; [|reflexivity].
    intros C. assert (I : In x []) by (rewrite <- C; apply filter_In; rewrite !String.eqb_refl; auto). destruct I.
Qed.

(** ** Colours *)
Lemma range_names : map (fun kv => (range_ends (fst kv), snd kv)) util_ranges =
  [(Some (0, 24), "royalblue"); (Some (25, 49), "green"); (Some (50, 74), "yellow"); (Some (75, 89), "orangered"); (Some (90, 99), "darkred");
   (None, "darkviolet"); (None, "dimgrey")].
Proof. vm_compute. reflexivity. Qed.

Lemma find_image {A B} (f : A -> B) (p : B -> bool) l : option_map f (find (fun x => p (f x)) l) = find p (map f l).
Proof. induction l as [|x l IH]; simpl; [reflexivity|]. destruct (p (f x)); auto. Qed.

Definition band_of (q : Q) : option string :=
  option_map snd (find (fun rc : option (Z * Z) * string => match fst rc with Some (lo, hi) => Qleb (inject_Z lo) q && Qleb q (inject_Z hi) | None => false end)
    [(Some (0, 24), "royalblue"); (Some (25, 49), "green"); (Some (50, 74), "yellow"); (Some (75, 89), "orangered"); (Some (90, 99), "darkred");
     (None, "darkviolet"); (None, "dimgrey")]).
Lemma edge_group_eq u : edge_group u =
  match u with None => Some "dimgrey" | Some q => if Qleb 100 q then Some "darkviolet" else band_of q end.
Proof.
  destruct u as [q|]; [|reflexivity]. unfold edge_group. destruct (Qleb 100 q); [reflexivity|].
  unfold band_of. rewrite <- range_names.
  rewrite <- (find_image (fun kv : string * string => (range_ends (fst kv), snd kv))
    (fun rc => match fst rc with Some (lo, hi) => Qleb (inject_Z lo) q && Qleb q (inject_Z hi) | None => false end)).
  cbn [fst]. destruct (find _ util_ranges); reflexivity.
Qed.
Lemma Qleb_iff a b : Qleb a b = true <-> (a <= b)%Q.
Proof. unfold Qleb. apply Qle_bool_iff. Qed.
Lemma Qleb_not a b : Qleb a b = false <-> (b < a)%Q.
Proof.
  split; intros H.
  - apply Qnot_le_lt. intros C. apply Qleb_iff in C. congruence.
  - destruct (Qleb a b) eqn:X; auto. apply Qleb_iff in X. apply Qlt_not_le in H. contradiction.
Qed.
Lemma edge_group_spec u c : edge_group u = Some c <-> colour_for u c.
Proof.
  rewrite edge_group_eq. destruct u as [q|]; [|simpl; intuition congruence]. unfold colour_for.
  destruct (Qleb 100 q) eqn:H.
  - apply Qleb_iff in H. split; [injection 1 as <-; auto|]. intros [[_ ->]|(lo & hi & I & B)]; [reflexivity|].
    exfalso. simpl in I. unfold in_band in B. repeat (destruct I as [I|I]; [injection I as <- <- <-; cbv [inject_Z] in B; lra|]). destruct I.
  - apply Qleb_not in H. unfold band_of. cbn [find fst].
    destruct (Qleb (inject_Z 0) q && Qleb q (inject_Z 24))%bool eqn:B0.
    { apply andb_true_iff in B0 as [B1 B2]. apply Qleb_iff in B1, B2. simpl. split.
      - injection 1 as <-. right. exists 0, 24. unfold in_band. simpl. auto.
      - intros [[C _]|(lo & hi & I & B3 & B4)]; [exfalso; lra|]. simpl in I.
        repeat (destruct I as [I|I]; [injection I as <- <- <-; try reflexivity; exfalso; cbv [inject_Z] in *; lra|]). destruct I. }
    destruct (Qleb (inject_Z 25) q && Qleb q (inject_Z 49))%bool eqn:B5.
    { apply andb_true_iff in B5 as [B1 B2]. apply Qleb_iff in B1, B2. simpl. split.
      - injection 1 as <-. right. exists 25, 49. unfold in_band. simpl. auto.
      - intros [[C _]|(lo & hi & I & B3 & B4)]; [exfalso; lra|]. simpl in I.
        repeat (destruct I as [I|I]; [injection I as <- <- <-; try reflexivity; exfalso; cbv [inject_Z] in *; lra|]). destruct I. }
    destruct (Qleb (inject_Z 50) q && Qleb q (inject_Z 74))%bool eqn:B6.
    { apply andb_true_iff in B6 as [B1 B2]. apply Qleb_iff in B1, B2. simpl. split.
      - injection 1 as <-. right. exists 50, 74. unfold in_band. simpl. auto.
      - intros [[C _]|(lo & hi & I & B3 & B4)]; [exfalso; lra|]. simpl in I.
        repeat (destruct I as [I|I]; [injection I as <- <- <-; try reflexivity; exfalso; cbv [inject_Z] in *; lra|]). destruct I. }
    destruct (Qleb (inject_Z 75) q && Qleb q (inject_Z 89))%bool eqn:B7.
    { apply andb_true_iff in B7 as [B1 B2]. apply Qleb_iff in B1, B2. simpl. split.
      - injection 1 as <-. right. exists 75, 89. unfold in_band. simpl. auto 10.
      - intros [[C _]|(lo & hi & I & B3 & B4)]; [exfalso; lra|]. simpl in I.
        repeat (destruct I as [I|I]; [injection I as <- <- <-; try reflexivity; exfalso; cbv [inject_Z] in *; lra|]). destruct I. }
    destruct (Qleb (inject_Z 90) q && Qleb q (inject_Z 99))%bool eqn:B8.
    { apply andb_true_iff in B8 as [B1 B2]. apply Qleb_iff in B1, B2. simpl. split.
      - injection 1 as <-. right. exists 90, 99. unfold in_band. simpl. auto 10.
      - intros [[C _]|(lo & hi & I & B3 & B4)]; [exfalso; lra|]. simpl in I.
        repeat (destruct I as [I|I]; [injection I as <- <- <-; try reflexivity; exfalso; cbv [inject_Z] in *; lra|]). destruct I. }
    simpl. split; [discriminate|]. intros [[C _]|(lo & hi & I & B3 & B4)]; [exfalso; lra|]. exfalso. apply Qleb_iff in B3, B4. simpl in I.
    repeat (destruct I as [I|I]; [injection I as <- <- <-; rewrite B3, B4 in *; discriminate|]). destruct I.
Qed.

(** ** Elements *)
Lemma shown_text c : shown_cid c (cid_text c).
Proof. destruct c; reflexivity. Qed.
Lemma shown_fun c x y : shown_cid c x -> shown_cid c y -> x = y.
Proof. destruct c; simpl; congruence. Qed.
Lemma util_shown s i : shown_util s i (utilization s i).
Proof. exact (utilization_spec s i). Qed.

Lemma made_flat {A B} (P : A -> list B -> Prop) f l : (forall x, In x l -> P x (f x)) -> made_of P l (flat_map f l).
Proof.
  intros H. exists (map f l). split; [apply flat_map_concat_map|]. induction l as [|x l IH]; simpl; [constructor|].
  constructor; [apply H; simpl; auto|]. apply IH. intros y Hy. apply H. simpl. auto.
Qed.
Lemma edge_parts s c : circuit_parts s c (circuit_edges s c).
Proof.
  exists (circuit_edge s c (fst c)), (circuit_edge s c (snd c)). split; [reflexivity|].
  split; (split; [reflexivity|]; split; [reflexivity|]; split; [reflexivity|]; split; [reflexivity|]; split; [reflexivity|]; split; [apply shown_text|apply util_shown]).
Qed.
Lemma node_parts s c : circuit_places s c (circuit_nodes s c).
Proof.
  destruct c as [a b]. eexists _, _, _. split; [reflexivity|]. split; [|split].
  - unfold mid_for. cbn [fst snd jn_id jn_label jn_group jn_failed jn_neighbors jn_x jn_y]. split; [reflexivity|]. split; [reflexivity|]. split; [reflexivity|].
    split; [reflexivity|]. split; [reflexivity|]. unfold node_x, node_y, spacing_factor. split; field.
  - unfold node_for, end_node. cbn. split; [reflexivity|]. split; [reflexivity|]. split; [reflexivity|]. split; [reflexivity|]. split; [reflexivity|].
    unfold node_x, node_y, spacing_factor. split; field.
  - unfold node_for, end_node. cbn. split; [reflexivity|]. split; [reflexivity|]. split; [reflexivity|]. split; [reflexivity|]. split; [reflexivity|].
    unfold node_x, node_y, spacing_factor. split; field.
Qed.
Lemma elements_spec s : made_of (circuit_places s) (m_ckts s) (fst (create_elements s)) /\ made_of (circuit_parts s) (m_ckts s) (snd (create_elements s)).
Proof. split; apply made_flat; intros; [apply node_parts|apply edge_parts]. Qed.
Lemma edges_coloured s e c : In e (snd (create_elements s)) -> (je_group e = Some c <-> colour_for (je_util e) c).
Proof.
  intros H. apply in_flat_map in H as (k & _ & H). simpl in H. destruct H as [<-|[<-|[]]]; apply edge_group_spec.
Qed.
