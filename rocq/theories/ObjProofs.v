(** ObjProofs.v - equality, lookups, remote interfaces. *)
From Verif Require Import Base Graph Objects Sim Api Spec MonadProofs GraphProofs RoundProofs.

(** The spec's names are the model's names. *)
Lemma loc_eq s i : ilocal s i = loc s i. Proof. reflexivity. Qed.
Lemma rem_eq s i : iremote s i = rem s i. Proof. reflexivity. Qed.
Lemma key_eq s i : ikey s i = if_key s i. Proof. reflexivity. Qed.

Lemma mem_nat_In x l : mem_nat x l = true <-> In x l.
Proof.
  unfold mem_nat. rewrite existsb_exists. split.
  - intros (y & Hy & E). apply Nat.eqb_eq in E. now subst.
  - intros H. exists x. split; auto. apply Nat.eqb_refl.
Qed.
Lemma mem_nat_false x l : mem_nat x l = false <-> ~ In x l.
Proof. rewrite <- mem_nat_In. destruct (mem_nat x l); split; congruence. Qed.

Lemma key2_eqb_eq a b : key2_eqb a b = true <-> a = b.
Proof.
  destruct a as [a1 a2], b as [b1 b2]. unfold key2_eqb; simpl. rewrite andb_true_iff, !String.eqb_eq.
  split; [intros [-> ->]; auto|intros H; injection H; auto].
Qed.
Lemma key3_eqb_eq a b : key3_eqb a b = true <-> a = b.
Proof.
  destruct a as [[a1 a2] a3], b as [[b1 b2] b3]. unfold key3_eqb; simpl. rewrite !andb_true_iff, !String.eqb_eq.
  split; [intros [[-> ->] ->]; auto|intros H; injection H; auto].
Qed.
Lemma cid_eqb_eq a b : cid_eqb a b = true <-> a = b.
Proof.
  destruct a, b; simpl; split; try congruence; try discriminate.
  - intros H. apply Z.eqb_eq in H. now subst.
  - intros H. injection H as ->. apply Z.eqb_refl.
  - intros H. apply String.eqb_eq in H. now subst.
  - intros H. injection H as ->. apply String.eqb_refl.
Qed.
Lemma cid_eqb_refl c : cid_eqb c c = true.
Proof. now apply cid_eqb_eq. Qed.

(** ** Equality *)
Lemma node_eqb_refl s n : node_eqb s n n = true.
Proof. unfold node_eqb. now rewrite Nat.eqb_refl. Qed.
Lemma iface_eqb_refl s i : iface_eqb s i i = true.
Proof. unfold iface_eqb. now rewrite Nat.eqb_refl. Qed.
Lemma node_eqb_name s a b : node_eqb s a b = true -> nd_name s a = nd_name s b.
Proof.
  unfold node_eqb, nd_name. rewrite orb_true_iff. intros [H|H].
  - apply Nat.eqb_eq in H. now subst.
  - cbv zeta in H. rewrite !andb_true_iff in H. destruct H as [[[[[H _] _] _] _] _]. now apply String.eqb_eq in H.
Qed.
Lemma iface_eqb_key s i j : iface_eqb s i j = true -> if_key s i = if_key s j.
Proof.
  unfold iface_eqb, if_key, loc. rewrite orb_true_iff. intros [H|H].
  - apply Nat.eqb_eq in H. now subst.
  - cbv zeta in H. rewrite !andb_true_iff in H. destruct H as [[[[H1 _] H2] _] _].
    apply String.eqb_eq in H2. apply node_eqb_name in H1. unfold nd_name in H1. congruence.
Qed.

Lemma NoDup_map_inj {A B} (f : A -> B) l x y : NoDup (map f l) -> In x l -> In y l -> f x = f y -> x = y.
Proof.
  induction l as [|a l IH]; simpl; intros Hn Hx Hy E; [tauto|].
  inversion Hn as [|? ? Ha Hl]; subst.
  destruct Hx as [->|Hx], Hy as [->|Hy]; auto.
  - exfalso. apply Ha. rewrite E. now apply in_map.
  - exfalso. apply Ha. rewrite <- E. now apply in_map.
Qed.

Lemma iface_eqb_eq s i j : NoDup (map (if_key s) (m_ifs s)) -> In i (m_ifs s) -> In j (m_ifs s) ->
  (iface_eqb s i j = true <-> i = j).
Proof.
  intros Hn Hi Hj. split; [|intros ->; apply iface_eqb_refl].
  intros H. apply iface_eqb_key in H. eapply NoDup_map_inj; eauto.
Qed.

Lemma mem_if_In s i l : NoDup (map (if_key s) (m_ifs s)) -> In i (m_ifs s) -> (forall j, In j l -> In j (m_ifs s)) ->
  (mem_if s i l = true <-> In i l).
Proof.
  intros Hn Hi Hl. unfold mem_if. rewrite existsb_exists. split.
  - intros (j & Hj & Ej). apply iface_eqb_eq in Ej; auto. now subst.
  - intros H. exists i. split; auto. apply iface_eqb_refl.
Qed.
Lemma mem_if_refl s i l : In i l -> mem_if s i l = true.
Proof. intros H. unfold mem_if. apply existsb_exists. exists i. split; auto. apply iface_eqb_refl. Qed.
Lemma mem_nd_refl s i l : In i l -> mem_nd s i l = true.
Proof. intros H. unfold mem_nd. apply existsb_exists. exists i. split; auto. apply node_eqb_refl. Qed.

(** ** Lookups *)
Lemma get_node_spec s name :
  match get_node s name with
  | Ok n => In n (m_nds s) /\ nd_name s n = name
  | Err e => is_model_exn e = true /\ forall n, In n (m_nds s) -> nd_name s n <> name
  end.
Proof.
  unfold get_node. destruct (filter _ (m_nds s)) as [|n l] eqn:F.
  - split; [reflexivity|]. intros n Hn En.
    assert (In n []) as []. rewrite <- F. apply filter_In. split; auto. apply String.eqb_eq. exact En.
  - assert (H : In n (n :: l)) by (left; auto). rewrite <- F in H. apply filter_In in H as [H1 H2].
    split; auto. now apply String.eqb_eq in H2.
Qed.

Lemma get_interface_spec s iname nname :
  match get_interface s iname nname with
  | Ok i => In i (m_ifs s) /\ if_key s i = (iname, nname)
  | Err e => is_model_exn e = true /\
      ((forall i, In i (m_ifs s) -> if_key s i <> (iname, nname)) \/
       (forall n, In n (m_nds s) -> nd_name s n <> nname))
  end.
Proof.
  unfold get_interface. destruct (existsb _ (m_ifs s)) eqn:X.
  - assert (G := get_node_spec s nname). destruct (get_node s nname) as [n|e]; simpl; [|tauto].
    destruct G as [G1 G2]. unfold node_interfaces, ifaces_of_name.
    match goal with |- context [filter ?f (filter ?g ?l)] => destruct (filter f (filter g l)) as [|i tl] eqn:F end.
    + exfalso. apply existsb_exists in X as (i & Hi & Ki). apply key2_eqb_eq in Ki.
      assert (In i []) as []. rewrite <- F. rewrite !filter_In. repeat split; auto.
      * apply String.eqb_eq. unfold nd_name in G2. rewrite G2. unfold ikey in Ki. congruence.
      * apply String.eqb_eq. unfold ikey in Ki. congruence.
    + assert (H : In i (i :: tl)) by (left; auto). rewrite <- F in H. rewrite !filter_In in H.
      destruct H as [[H1 H2] H3]. split; auto. apply String.eqb_eq in H2, H3. unfold if_key.
      rewrite loc_eq in H2. rewrite H2, H3. f_equal. exact G2.
  - split; [reflexivity|]. left. intros i Hi Ki. assert (existsb (fun i => key2_eqb (ikey s i) (iname, nname)) (m_ifs s) = true); [|congruence].
    apply existsb_exists. exists i. split; auto. apply key2_eqb_eq. exact Ki.
Qed.

Lemma get_demand_spec s src dst name :
  match get_demand s src dst name with
  | Ok d => In d (m_dms s) /\ dmd_key s d = (src, dst, name)
  | Err e => is_model_exn e = true /\ forall d, In d (m_dms s) -> dmd_key s d <> (src, dst, name)
  end.
Proof.
  unfold get_demand. destruct (find _ (m_dms s)) as [d|] eqn:F.
  - apply find_some in F as [F1 F2]. split; auto. now apply key3_eqb_eq in F2.
  - split; [reflexivity|]. intros d Hd K. eapply find_none in F; [|exact Hd].
    simpl in F. assert (key3_eqb (dkey s d) (src, dst, name) = true) by (apply key3_eqb_eq; exact K). congruence.
Qed.

Lemma get_lsp_spec s src dst name :
  match get_lsp s src dst name with
  | Ok d => In d (m_lsps s) /\ lsp_key s d = (src, dst, name)
  | Err e => is_model_exn e = true /\ forall d, In d (m_lsps s) -> lsp_key s d <> (src, dst, name)
  end.
Proof.
  unfold get_lsp. destruct (find _ (m_lsps s)) as [d|] eqn:F.
  - apply find_some in F as [F1 F2]. split; auto. now apply key3_eqb_eq in F2.
  - split; [reflexivity|]. intros d Hd K. eapply find_none in F; [|exact Hd].
    simpl in F. assert (key3_eqb (lkey s d) (src, dst, name) = true) by (apply key3_eqb_eq; exact K). congruence.
Qed.

Lemma get_srlg_spec s name g : get_srlg s name = Ok g -> In g (m_srs s) /\ srlg_name s g = name.
Proof.
  unfold get_srlg. destruct (filter _ (m_srs s)) as [|x [|]] eqn:F; try discriminate.
  intros H; injection H as <-. assert (H : In x [x]) by (left; auto). rewrite <- F in H.
  apply filter_In in H as [H1 H2]. split; auto. now apply String.eqb_eq in H2.
Qed.

(** ** Remote interface *)
Lemma ifs_eqb_refl s l : ifs_eqb s l l = true.
Proof. induction l; simpl; auto. now rewrite iface_eqb_refl. Qed.

Lemma node_interfaces_name s a b : nd_name s a = nd_name s b -> node_interfaces s a = node_interfaces s b.
Proof. unfold node_interfaces, nd_name. now intros ->. Qed.

Lemma get_remote_ok s i j : In i (m_ifs s) -> get_remote_interface s i = Ok j -> other_end s i j.
Proof.
  intros Hi. unfold get_remote_interface. destruct (find _ (m_ifs s)) as [x|] eqn:F; [|discriminate].
  destruct (ifs_eqb s _ _) eqn:X; [|discriminate]. intros H; injection H as <-.
  apply find_some in F as [F1 F2]. apply andb_true_iff in F2 as [F2 F3].
  apply String.eqb_eq in F2. apply cid_eqb_eq in F3.
  repeat split; auto.
  assert (Hin : In i (node_interfaces s (i_node (h_if s i)))).
  { unfold node_interfaces, ifaces_of_name. apply filter_In. split; auto. apply String.eqb_refl. }
  destruct (node_interfaces s (i_node (h_if s i))) as [|y yl] eqn:Y; [destruct Hin|].
  destruct (node_interfaces s (i_rem (h_if s x))) as [|z zl] eqn:Z; [discriminate|].
  simpl in X. apply andb_true_iff in X as [X _]. apply iface_eqb_key in X.
  assert (Ly : loc s y = loc s i).
  { assert (H : In y (y :: yl)) by (left; auto). rewrite <- Y in H. apply filter_In in H as [_ H].
    now apply String.eqb_eq in H. }
  assert (Lz : loc s z = rem s x).
  { assert (H : In z (z :: zl)) by (left; auto). rewrite <- Z in H. apply filter_In in H as [_ H].
    now apply String.eqb_eq in H. }
  unfold if_key in X. congruence.
Qed.

Lemma get_remote_total s i : (exists j, other_end s i j) ->
  (forall x, In x (m_ifs s) -> loc s x = rem s i -> i_cid (h_if s x) = i_cid (h_if s i) -> rem s x = loc s i) ->
  exists j, get_remote_interface s i = Ok j.
Proof.
  intros [j (J1 & J2 & J3 & J4)] Hall. unfold get_remote_interface.
  destruct (find _ (m_ifs s)) as [x|] eqn:F.
  - apply find_some in F as [F1 F2]. apply andb_true_iff in F2 as [F2 F3].
    apply String.eqb_eq in F2. apply cid_eqb_eq in F3.
    rewrite (node_interfaces_name s (i_rem (h_if s x)) (i_node (h_if s i))); [|exact (Hall x F1 F2 F3)].
    rewrite ifs_eqb_refl. eauto.
  - eapply find_none in F; [|exact J1]. simpl in F. rewrite loc_eq, rem_eq, J2, String.eqb_refl in F. simpl in F.
    rewrite J4, cid_eqb_refl in F. discriminate.
Qed.
