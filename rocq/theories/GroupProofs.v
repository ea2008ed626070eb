(** GroupProofs.v - the dict of parallel LSPs or demands. *)
From Verif Require Import Base Graph Objects Sim Spec SpecCkt MonadProofs.

Lemma ends_text_inj a : forall a' b b', dash_free a -> dash_free a' -> ends_text a b = ends_text a' b' -> a = a' /\ b = b'.
Proof.
  unfold ends_text. induction a as [|c a IH]; intros [|c' a'] b b' H H' E; simpl in *.
  - injection E as E. auto.
  - injection E as E1 E2. destruct H' as [N _]. congruence.
  - injection E as E1 E2. destruct H as [N _]. congruence.
  - injection E as E1 E2. destruct H as [_ H]. destruct H' as [_ H']. destruct (IH a' b b' H H' E2). subst. auto.
Qed.

Lemma dict_set_absent {V} k (v : V) d : ~ In k (map fst d) -> dict_set k v d = (d ++ [(k, v)])%list.
Proof.
  induction d as [|[k' v'] d IH]; simpl; intros H; auto. destruct (String.eqb_spec k k') as [->|N]; [tauto|]. rewrite IH by tauto. reflexivity.
Qed.
Lemma dict_del_absent {V} k (d : list (string * V)) : ~ In k (map fst d) -> dict_del k d = d.
Proof.
  unfold dict_del. induction d as [|[k' v'] d IH]; simpl; intros H; auto. destruct (String.eqb_spec k k') as [->|N]; [tauto|]. simpl. rewrite IH by tauto. reflexivity.
Qed.
Lemma dict_get_in {V} k (v : V) d : NoDup (map fst d) -> (dict_get k d = Some v <-> In (k, v) d).
Proof.
  induction d as [|[k' v'] d IH]; simpl; intros N; [split; [discriminate|tauto]|]. inversion N as [|? ? N1 N2]; subst.
  destruct (String.eqb_spec k k') as [->|Nk].
  - split; [injection 1 as ->; auto|]. intros [H|H]; [congruence|]. exfalso. apply N1. apply in_map_iff. exists (k', v). auto.
  - rewrite IH by auto. split; [auto|]. intros [H|H]; [congruence|auto].
Qed.
Lemma dict_get_none {V} k (d : list (string * V)) : dict_get k d = None <-> ~ In k (map fst d).
Proof.
  induction d as [|[k' v'] d IH]; simpl; [tauto|]. destruct (String.eqb_spec k k') as [->|Nk].
  - split; [discriminate|tauto].
  - rewrite IH. intuition congruence.
Qed.

Section Groups.
Variables (src dst : nat -> string) (objs : list nat).

Definition members (p : string * string) : list nat :=
  filter (fun o => String.eqb (src o) (fst p) && String.eqb (dst o) (snd p)) objs.
Definition gkey (p : string * string) : string := pair_key (fst p) (snd p).
Definition nonempty (p : string * string) : bool := match members p with [] => false | _ => true end.

Definition gstep (d : list (string * list nat)) (p : string * string) : list (string * list nat) :=
  match members p with [] => dict_del (gkey p) d | l => dict_set (gkey p) l d end.

Lemma gfold P : NoDup (map gkey P) -> forall d, (forall p, In p P -> ~ In (gkey p) (map fst d)) ->
  fold_left gstep P d = (d ++ map (fun p => (gkey p, members p)) (filter nonempty P))%list.
Proof.
  induction P as [|p P IH]; intros N d H; [simpl; now rewrite app_nil_r|].
  simpl in N. inversion N as [|? ? N1 N2]; subst. cbn [fold_left filter]. unfold gstep at 2. unfold nonempty at 1.
  assert (Hp := H p (or_introl eq_refl)).
  destruct (members p) as [|o l] eqn:M.
  - rewrite dict_del_absent by auto. apply IH; auto. intros q Hq. apply H. simpl; auto.
  - rewrite dict_set_absent by auto. rewrite IH; auto.
    + rewrite <- app_assoc. simpl. rewrite M. reflexivity.
    + intros q Hq. rewrite map_app, in_app_iff. intros [C|C]; [apply (H q); simpl; auto|].
      destruct C as [C|[]]. simpl in C. apply N1. rewrite C. apply in_map. auto.
Qed.

Lemma nested_fold A B d : fold_left (fun d sn => fold_left (fun d dn =>
      match filter (fun o => String.eqb (src o) sn && String.eqb (dst o) dn) objs with
      | [] => dict_del (pair_key sn dn) d
      | l => dict_set (pair_key sn dn) l d
      end) B d) A d = fold_left gstep (list_prod A B) d.
Proof.
  revert d. induction A as [|a A IH]; intros d; simpl; auto. rewrite fold_left_app, IH. f_equal.
  clear. revert d. induction B as [|b B IH]; intros d; simpl; auto.
Qed.

(** whatever the texts are, the members of a group have its text *)
Lemma build_groups_sound E key l o : dict_get key (build_groups E src dst objs) = Some l -> In o l -> In o objs /\ pair_key (src o) (dst o) = key.
Proof.
  unfold build_groups. rewrite nested_fold. generalize (list_prod (set_iter E (map src objs)) (set_iter E (map dst objs))). intros P.
  assert (X : forall P d, (forall kl o, In kl d -> In o (snd kl) -> In o objs /\ pair_key (src o) (dst o) = fst kl) ->
     forall kl o, In kl (fold_left gstep P d) -> In o (snd kl) -> In o objs /\ pair_key (src o) (dst o) = fst kl).
  { clear. induction P as [|p P IH]; intros d H; [exact H|]. cbn [fold_left]. apply IH. intros kl o Hkl Ho. unfold gstep in Hkl.
    destruct (members p) as [|a m] eqn:M.
    - unfold dict_del in Hkl. apply filter_In in Hkl as [Hkl _]. eauto.
    - assert (D : In kl d \/ kl = (gkey p, a :: m)).
      { revert Hkl. generalize (a :: m). clear. intros v. induction d as [|[k' v'] d IH]; simpl; [intros [<-|[]]; auto|].
        destruct (String.eqb (gkey p) k') eqn:Q; simpl; intros [Hkl|Hkl]; auto.
        - apply String.eqb_eq in Q. subst. auto.
        - destruct (IH Hkl); auto. }
      destruct D as [D| ->]; [eauto|]. cbn [snd] in Ho. rewrite <- M in Ho. unfold members in Ho. apply filter_In in Ho as [O1 O2].
      apply andb_true_iff in O2 as [O2 O3]. apply String.eqb_eq in O2. apply String.eqb_eq in O3. split; auto. unfold gkey. simpl. now rewrite O2, O3. }
  intros H Ho. assert (I : forall d, dict_get key d = Some l -> In (key, l) d).
  { clear. induction d as [|[k' v'] d IH]; simpl; [discriminate|]. destruct (String.eqb_spec key k') as [->|]; [injection 1 as ->; auto|auto]. }
  apply I in H. apply (X P [] (fun kl o Hkl => match Hkl with end) _ _ H Ho).
Qed.

Lemma NoDup_prod {X Y} (A : list X) (B : list Y) : NoDup A -> NoDup B -> NoDup (list_prod A B).
Proof.
  intros HA HB. induction HA as [|a A Na HA IH]; simpl; [constructor|].
  assert (D1 : NoDup (map (fun y => (a, y)) B)).
  { clear IH Na. induction HB as [|b B Nb HB IH']; simpl; constructor; auto. intros C. apply in_map_iff in C as (y & E & Hy). congruence. }
  assert (D2 : forall x, In x (map (fun y => (a, y)) B) -> ~ In x (list_prod A B)).
  { intros [x y] H1 H2. apply in_map_iff in H1 as (z & E & _). injection E as <- <-. apply in_prod_iff in H2 as [H2 _]. auto. }
  revert D1 D2 IH. generalize (map (fun y => (a, y)) B) (list_prod A B). clear. intros l1 l2 D1 D2 D3.
  induction l1 as [|x l1 IH]; simpl; auto. inversion D1; subst. constructor.
  - rewrite in_app_iff. intros [C|C]; [auto|]. apply (D2 x); simpl; auto.
  - apply IH; auto. intros y Hy. apply D2. simpl; auto.
Qed.

Definition keys_apart : Prop := forall a a' b b', In a (map src objs) -> In a' (map src objs) ->
  In b (map dst objs) -> In b' (map dst objs) -> ends_text a b = ends_text a' b' -> a = a' /\ b = b'.

Definition all_pairs (E : env) := list_prod (set_iter E (map src objs)) (set_iter E (map dst objs)).

Lemma in_all_pairs E p : env_ok E -> (In p (all_pairs E) <-> In (fst p) (map src objs) /\ In (snd p) (map dst objs)).
Proof. intros HE. destruct p as [a b]. unfold all_pairs. rewrite in_prod_iff. simpl. rewrite !(proj2 (ok_iter _ HE _)). reflexivity. Qed.

Lemma gkeys_nodup E : env_ok E -> keys_apart -> NoDup (map gkey (all_pairs E)).
Proof.
  intros HE K. assert (N : NoDup (all_pairs E)) by (apply NoDup_prod; apply (ok_iter _ HE)).
  assert (I : forall p q, In p (all_pairs E) -> In q (all_pairs E) -> gkey p = gkey q -> p = q).
  { intros [a b] [a' b'] H1 H2 H3. apply in_all_pairs in H1 as [? ?]; auto. apply in_all_pairs in H2 as [? ?]; auto. simpl in *.
    destruct (K a a' b b'); auto. congruence. }
  revert N I. generalize (all_pairs E). clear. induction l as [|p l IH]; simpl; intros N I; constructor; inversion N; subst.
  - intros C. apply in_map_iff in C as (q & E & Hq). apply I in E; auto. subst. auto.
  - apply IH; auto.
Qed.

Lemma build_groups_eq E : env_ok E -> keys_apart ->
  build_groups E src dst objs = map (fun p => (gkey p, members p)) (filter nonempty (all_pairs E)).
Proof.
  intros HE K. unfold build_groups. rewrite nested_fold. change (list_prod _ _) with (all_pairs E). rewrite gfold; auto.
  now apply gkeys_nodup.
Qed.

Lemma members_in p o : In o (members p) <-> In o objs /\ src o = fst p /\ dst o = snd p.
Proof. unfold members. rewrite filter_In, andb_true_iff, !String.eqb_eq. reflexivity. Qed.

Lemma nonempty_iff p : nonempty p = true <-> exists o, In o objs /\ src o = fst p /\ dst o = snd p.
Proof.
  unfold nonempty. split.
  - destruct (members p) as [|o l] eqn:M; [discriminate|]. intros _. exists o. apply members_in. rewrite M. simpl; auto.
  - intros (o & Ho). apply members_in in Ho. destruct (members p); [destruct Ho|reflexivity].
Qed.

Lemma groups_fst_nodup E : env_ok E -> keys_apart -> NoDup (map fst (build_groups E src dst objs)).
Proof.
  intros HE K. rewrite build_groups_eq by auto. rewrite map_map. simpl. assert (N := gkeys_nodup E HE K).
  revert N. generalize (all_pairs E). clear. induction l as [|p l IH]; simpl; intros N; [constructor|]. inversion N as [|? ? N1 N2]; subst.
  destruct (nonempty p); auto. simpl. constructor; auto. intros C. apply N1. apply in_map_iff in C as (q & Eq & Hq). apply in_map_iff.
  exists q. split; auto. apply filter_In in Hq. tauto.
Qed.

Lemma groups_in E key l : env_ok E -> keys_apart ->
  (In (key, l) (build_groups E src dst objs) <->
   exists a b, key = ends_text a b /\ l = members (a, b) /\ l <> []).
Proof.
  intros HE K. rewrite build_groups_eq by auto. rewrite in_map_iff. split.
  - intros ([a b] & H & Hp). injection H as <- <-. apply filter_In in Hp as [_ Hn]. exists a, b. split; auto. split; auto.
    intros C. unfold nonempty in Hn. rewrite C in Hn. discriminate.
  - intros (a & b & -> & -> & N). exists (a, b). split; auto. apply filter_In.
    assert (Hn : nonempty (a, b) = true) by (unfold nonempty; destruct (members (a, b)); congruence). split; auto.
    apply nonempty_iff in Hn as (o & Ho & H1 & H2). simpl in H1, H2. subst a b. apply in_all_pairs; auto. cbn [fst snd]. split; now apply in_map.
Qed.

(** The group of one pair of names *)
Lemma group_get E a b : env_ok E -> keys_apart ->
  (forall a' b', In a' (map src objs) -> In b' (map dst objs) -> ends_text a b = ends_text a' b' -> a = a' /\ b = b') ->
  dict_get (pair_key a b) (build_groups E src dst objs) = match members (a, b) with [] => None | l => Some l end.
Proof.
  intros HE K D. destruct (members (a, b)) as [|o l] eqn:M.
  - apply dict_get_none. intros C. apply in_map_iff in C as ([key l] & H & Hin). simpl in H. subst key.
    apply groups_in in Hin as (a' & b' & Ek & -> & N); auto.
    destruct (members (a', b')) as [|o l] eqn:M'; [congruence|].
    assert (Ho : In o (members (a', b'))) by (rewrite M'; simpl; auto). apply members_in in Ho as (Ho & H1 & H2). simpl in H1, H2.
    subst a' b'. destruct (D (src o) (dst o)) as [-> ->]; auto using in_map. congruence.
  - apply dict_get_in; [now apply groups_fst_nodup|]. apply groups_in; auto. exists a, b. rewrite M. repeat split; auto. discriminate.
Qed.
End Groups.
