(** MemberProofs.v - SRLG membership calls and the failed setters. *)
From Verif Require Import Base Graph Objects Sim Api Spec SpecFail SpecMember MonadProofs ObjProofs QueryProofs RepairProofs.

(** ** Setters *)
Lemma if_assign i b s s' r : iface_set_failed i b s = (s', r) -> if_assigned s s' i b r.
Proof.
  intros H. destruct b.
  - unfold iface_set_failed in H. injection H as <- <-. split; [repeat split|]. split; [intros x Nx; simpl; now rewrite fupd_other by congruence|].
    split; [|split; intros Hb; discriminate Hb]. intros _. split; [reflexivity|]. simpl. rewrite fupd_same. repeat split.
  - rewrite set_failed_false_run in H. destruct (infs s (i_srlgs (h_if s i))) eqn:F.
    + injection H as <- <-. apply infs_iff in F. split; [repeat split|]. split; [intros x Nx; simpl; now rewrite fupd_other by congruence|].
      split; [intros Hb; discriminate Hb|]. split; [|tauto]. intros _ _. split; [eauto|]. simpl. rewrite fupd_same. repeat split.
    + apply infs_false in F. destruct (_ && _) eqn:U; injection H as <- <-.
      * apply andb_true_iff in U as [U1 U2]. apply negb_true_iff in U1, U2.
        split; [repeat split|]. split; [intros x Nx; simpl; now rewrite fupd_other by congruence|]. split; [intros Hb; discriminate Hb|]. split; [tauto|].
        intros _ _. split; [reflexivity|]. split; [|intros X; destruct X; split; auto]. intros _. simpl. rewrite fupd_same. repeat split.
      * split; [repeat split|]. split; [intros x Nx; simpl; now rewrite fupd_other by congruence|]. split; [intros Hb; discriminate Hb|]. split; [tauto|].
        intros _ _. split; [reflexivity|]. split.
        -- intros [U1 U2]. rewrite U1, U2 in U. discriminate U.
        -- intros _. simpl. rewrite fupd_same. repeat split.
Qed.
Lemma nd_assign n b s s' r : node_set_failed n b s = (s', r) -> nd_assigned s s' n b r.
Proof.
  intros H. destruct b.
  - injection H as <- <-. split; [repeat split|]. split; [intros x Nx; simpl; now rewrite fupd_other by congruence|].
    simpl. rewrite fupd_same. repeat (split; [reflexivity|]). split; [auto|]. split; intros Hb; discriminate Hb.
  - unfold node_set_failed in H. rewrite bind_gets in H. change (existsb (fun g => sr_failed (h_sr s g)) (n_srlgs (h_nd s n))) with (infs s (n_srlgs (h_nd s n))) in H.
    destruct (infs s (n_srlgs (h_nd s n))) eqn:F; injection H as <- <-.
    + apply infs_iff in F. split; [repeat split|]. split; [intros x Nx; simpl; now rewrite fupd_other by congruence|].
      simpl. rewrite fupd_same. repeat (split; [reflexivity|]). split; [intros Hb; discriminate Hb|]. split; [|tauto]. intros _ _. simpl. eauto.
    + apply infs_false in F. split; [repeat split|]. split; [intros x Nx; simpl; now rewrite fupd_other by congruence|].
      simpl. rewrite fupd_same. repeat (split; [reflexivity|]). split; [intros Hb; discriminate Hb|]. split; [tauto|]. intros _ _. simpl. auto.
Qed.

(** Interface.fail_interface and Interface.unfail_interface *)
Lemma if_fail_exact i j s s' r : In i (m_ifs s) -> sole_other_end s i j -> iface_fail i s = (s', r) ->
  r = Ok tt /\ only_ifs s s' /\ (forall x, x = i \/ x = j -> downed (h_if s x) (h_if s' x)) /\ (forall x, x <> i -> x <> j -> h_if s' x = h_if s x).
Proof.
  intros Hi Ho H. unfold iface_fail in H. rewrite bind_reads, (get_remote_unique s i j Hi Ho) in H. cbn [iface_set_failed] in H. rewrite bind_modify in H.
  injection H as <- <-. split; [reflexivity|]. split; [repeat split|]. split.
  - intros x Hx. simpl. unfold fupd. destruct (Nat.eqb_spec j x) as [->|N1].
    + destruct (Nat.eqb_spec i x) as [->|N2]; repeat split.
    + destruct (Nat.eqb_spec i x) as [->|N2]; [repeat split|]. destruct Hx; congruence.
  - intros x N1 N2. simpl. rewrite !fupd_other by congruence. reflexivity.
Qed.
Lemma if_unfail_exact i j s s' r : In i (m_ifs s) -> sole_other_end s i j -> iface_unfail i s = (s', r) ->
  (~ ends_up s i /\ s' = s /\ exists m, r = Err (ModelException m)) \/
  (ends_up s i /\ exists s1 r1, if_assigned s s1 i false r1 /\
     ((r1 <> Ok tt /\ r = r1 /\ s' = s1) \/ (r1 = Ok tt /\ if_assigned s1 s' j false r))).
Proof.
  intros Hi Ho H. unfold iface_unfail in H. rewrite bind_reads, (get_remote_unique s i j Hi Ho), !bind_gets in H.
  destruct (negb (n_failed (h_nd s (i_node (h_if s i)))) && negb (n_failed (h_nd s (i_rem (h_if s i))))) eqn:U.
  - apply andb_true_iff in U as [U1 U2]. apply negb_true_iff in U1, U2. right. split; [split; auto|].
    destruct (iface_set_failed i false s) as [s1 r1] eqn:X. exists s1, r1. split; [now apply if_assign|].
    destruct r1 as [[]|e].
    + right. split; [reflexivity|]. rewrite (bind_run _ _ _ _ _ X) in H. now apply if_assign.
    + left. split; [discriminate|]. unfold bind in H. rewrite X in H. injection H as <- <-. auto.
  - injection H as <- <-. left. split; [|eauto]. intros [A B]. rewrite A, B in U. discriminate U.
Qed.

(** ** Looking up an SRLG *)
Lemma get_srlg_unique s name : NoDup (map (srlg_name s) (m_srs s)) ->
  match get_srlg s name with Ok g => srlg_called s name g | Err e => is_model_exn e = true /\ no_srlg_called s name end.
Proof.
  intros N. unfold get_srlg. destruct (filter _ (m_srs s)) as [|g l] eqn:F.
  - split; [reflexivity|]. intros g Hg E. assert (I : In g (filter (fun g => String.eqb (sr_name (h_sr s g)) name) (m_srs s))) by (apply filter_In; split; auto; now apply String.eqb_eq).
    rewrite F in I. destruct I.
  - assert (A : forall x, In x (g :: l) -> In x (m_srs s) /\ srlg_name s x = name).
    { intros x Hx. rewrite <- F in Hx. apply filter_In in Hx as [X1 X2]. apply String.eqb_eq in X2. auto. }
    destruct l as [|h l]; [apply A; left; auto|]. exfalso. destruct (A g (or_introl eq_refl)) as [G1 G2], (A h (or_intror (or_introl eq_refl))) as [H1 H2].
    assert (g = h) by (apply (NoDup_map_inj _ _ g h N G1 H1); congruence). subst h.
    assert (ND : NoDup (g :: g :: l)) by (rewrite <- F; apply NoDup_filter; now apply NoDup_map_inv in N). inversion ND as [|? ? X _]. apply X. left; auto.
Qed.
Lemma srlg_called_fun s name g h : NoDup (map (srlg_name s) (m_srs s)) -> srlg_called s name g -> srlg_called s name h -> g = h.
Proof. intros N [A B] [C D]. apply (NoDup_map_inj _ _ g h N A C). congruence. Qed.
Lemma no_name s name : no_srlg_called s name -> mem_str name (map (fun g => sr_name (h_sr s g)) (m_srs s)) = false.
Proof.
  intros H. destruct (mem_str name _) eqn:M; auto. exfalso. unfold mem_str in M. apply existsb_exists in M as (x & Hx & E). apply String.eqb_eq in E. subst x.
  apply in_map_iff in Hx as (g & E & Hg). apply (H g Hg E).
Qed.
Lemma set_add_In x l y : In y (set_add_ref x l) <-> In y l \/ y = x.
Proof.
  unfold set_add_ref. destruct (mem_nat x l) eqn:M.
  - apply mem_nat_In in M. split; [auto|]. intros [?| ->]; auto.
  - rewrite in_app_iff. simpl. intuition.
Qed.
Lemma set_add_nodup x l : NoDup l -> NoDup (set_add_ref x l).
Proof.
  intros N. unfold set_add_ref. destruct (mem_nat x l) eqn:M; auto. apply mem_nat_false in M.
  apply NoDup_rev in N. rewrite <- (rev_involutive (l ++ [x])). apply NoDup_rev. rewrite rev_app_distr. simpl. constructor; auto. now rewrite <- in_rev.
Qed.
Lemma refs_remove_In x l y : In y (refs_remove x l) <-> In y l /\ y <> x.
Proof. unfold refs_remove. rewrite filter_In, negb_true_iff, Nat.eqb_neq. intuition. Qed.

(** ** Membership *)
Lemma sole_stable s s' i j : m_ifs s' = m_ifs s -> (forall n, n_name (h_nd s' n) = n_name (h_nd s n)) ->
  (forall x, i_node (h_if s' x) = i_node (h_if s x) /\ i_rem (h_if s' x) = i_rem (h_if s x) /\ i_cid (h_if s' x) = i_cid (h_if s x)) ->
  sole_other_end s i j -> sole_other_end s' i j.
Proof.
  intros M N I H.
  assert (L : forall x, loc s' x = loc s x) by (intros x; unfold loc; destruct (I x) as (-> & _); apply N).
  assert (R : forall x, rem s' x = rem s x) by (intros x; unfold rem; destruct (I x) as (_ & -> & _); apply N).
  assert (C : forall x, i_cid (h_if s' x) = i_cid (h_if s x)) by (intros x; apply I).
  destruct H as [(H1 & H2 & H3 & H4) H5]. split.
  - unfold other_end. rewrite M, !L, !R, !C. auto.
  - intros x. rewrite M, L, R, !C. auto.
Qed.

(** creating an SRLG, as add_srlg and add_to_srlg do *)
Definition mk_srlg (s : st) (name : string) : st :=
  set_srs (m_srs s ++ [s_next s]) (bump_next (upd_sr (s_next s) (fun _ => mkSrlg name false) s)).
Lemma srlg_new_run {B} s name (f : unit -> nat -> M B) : no_srlg_called s name -> (forall g, In g (m_srs s) -> (g < s_next s)%nat) ->
  bind (srlg_new name) (fun g => bind (modify (fun s => set_srs (set_add_ref g (m_srs s)) s)) (fun u => f u g)) s = f tt (s_next s) (mk_srlg s name).
Proof.
  intros Hn Hb.
  assert (NI : mem_nat (s_next s) (m_srs s) = false) by (apply mem_nat_false; intros H; apply Hb in H; lia).
  assert (X : srlg_new name s = (mk_srlg s name, Ok (s_next s))).
  { unfold srlg_new. rewrite bind_gets. cbv beta. rewrite (no_name s name Hn). rewrite bind_gets, !bind_modify. unfold ret, mk_srlg. f_equal.
    unfold set_add_ref. simpl m_srs. rewrite NI. reflexivity. }
  rewrite (bind_run _ _ _ _ _ X), bind_modify. f_equal. unfold set_add_ref, mk_srlg. simpl m_srs.
  replace (mem_nat (s_next s) (m_srs s ++ [s_next s])) with true; [reflexivity|]. symmetry. apply mem_nat_In, in_or_app. right. left. reflexivity.
Qed.
Lemma mk_srlg_new s name : (forall g, In g (m_srs s) -> (g < s_next s)%nat) -> new_srlg s (mk_srlg s name) (s_next s) name.
Proof.
  intros Hb. unfold new_srlg, srlg_name, mk_srlg. simpl. rewrite fupd_same.
  split; [intros H; apply Hb in H; lia|]. repeat (split; [reflexivity|]). split; [|repeat split]. intros x Nx. now rewrite fupd_other by congruence.
Qed.

Definition add_if (g i j : nat) (s : st) : st :=
  upd_if j (fun r => if_srlgs (set_add_ref g (i_srlgs r)) r) (upd_if i (fun r => if_srlgs (set_add_ref g (i_srlgs r)) r) s).
Lemma add_if_join g i j s : ifs_join s (add_if g i j s) g (fun x => x = i \/ x = j).
Proof.
  intros x. unfold add_if. simpl. unfold fupd.
  destruct (Nat.eqb_spec j x) as [->|N1]; [destruct (Nat.eqb_spec i x) as [->|N2]|destruct (Nat.eqb_spec i x) as [->|N2]]; simpl;
    (split; [repeat split|]); (split; [intros; auto using set_add_nodup|]); intros h; rewrite ?set_add_In; intuition congruence.
Qed.
Lemma upd_if_rest f s i : (forall r, if_rest r (f r)) -> forall x, if_rest (h_if s x) (h_if (upd_if i f s) x).
Proof. intros H x. simpl. unfold fupd. destruct (Nat.eqb_spec i x) as [->|]; auto. repeat split. Qed.

Lemma if_join_run g i j s : In i (m_ifs s) -> sole_other_end s i j ->
  bind (modify (upd_if i (fun r => if_srlgs (set_add_ref g (i_srlgs r)) r))) (fun _ =>
    bind (reads (fun s => get_remote_interface s i)) (fun j => modify (upd_if j (fun r => if_srlgs (set_add_ref g (i_srlgs r)) r)))) s
  = (add_if g i j s, Ok tt).
Proof.
  intros Hi Ho. rewrite bind_modify, bind_reads.
  rewrite (get_remote_unique _ i j); [reflexivity|exact Hi|]. apply (sole_stable s); auto.
  intros x. destruct (upd_if_rest (fun r => if_srlgs (set_add_ref g (i_srlgs r)) r) s i) with (x := x) as (_ & _ & _ & A & B & C & _); [repeat split|auto].
Qed.

Theorem if_add i j name create s s' r : NoDup (map (srlg_name s) (m_srs s)) -> (forall g, In g (m_srs s) -> (g < s_next s)%nat) ->
  In i (m_ifs s) -> sole_other_end s i j -> iface_add_to_srlg i name create s = (s', r) ->
  (forall g, srlg_called s name g -> r = Ok tt /\ only_ifs s s' /\ ifs_join s s' g (fun x => x = i \/ x = j)) /\
  (no_srlg_called s name -> create = true -> r = Ok tt /\ exists g, new_srlg s s' g name /\ h_nd s' = h_nd s /\ ifs_join s s' g (fun x => x = i \/ x = j)) /\
  (no_srlg_called s name -> create = false -> s' = s /\ exists m, r = Err (ModelException m)).
Proof.
  intros N Hb Hi Ho H. unfold iface_add_to_srlg in H. rewrite bind_gets in H. cbv beta in H. assert (G := get_srlg_unique s name N).
  destruct (get_srlg s name) as [g|e].
  - rewrite (if_join_run g i j s Hi Ho) in H. injection H as <- <-. split; [|split; intros X; destruct G as [G1 G2]; destruct (X g G1 G2)].
    intros h Hh. rewrite (srlg_called_fun s name h g N Hh G). split; [reflexivity|]. split; [repeat split|]. apply add_if_join.
  - destruct G as [_ G]. split; [intros h [A B]; destruct (G h A B)|]. destruct create; split; intros _ Hc; try discriminate Hc.
    + cbv iota in H. rewrite (srlg_new_run s name (fun _ g => bind (modify (upd_if i (fun r => if_srlgs (set_add_ref g (i_srlgs r)) r))) (fun _ =>
        bind (reads (fun s => get_remote_interface s i)) (fun j => modify (upd_if j (fun r => if_srlgs (set_add_ref g (i_srlgs r)) r)))))) in H by auto.
      rewrite (if_join_run (s_next s) i j (mk_srlg s name) Hi) in H by (apply (sole_stable s); auto). injection H as <- <-. split; [reflexivity|].
      exists (s_next s). split; [|split; [reflexivity|apply (add_if_join (s_next s) i j (mk_srlg s name))]].
      destruct (mk_srlg_new s name Hb) as (A1 & A2 & A3 & A4 & A5 & A6). repeat split; auto.
    + injection H as <- <-. eauto.
Qed.

Theorem nd_add n name create s s' r : NoDup (map (srlg_name s) (m_srs s)) -> (forall g, In g (m_srs s) -> (g < s_next s)%nat) ->
  node_add_to_srlg n name create s = (s', r) ->
  (forall g, srlg_called s name g -> r = Ok tt /\ only_nodes s s' /\ nds_join s s' g (fun x => x = n)) /\
  (no_srlg_called s name -> create = true -> r = Ok tt /\ exists g, new_srlg s s' g name /\ h_if s' = h_if s /\ nds_join s s' g (fun x => x = n)) /\
  (no_srlg_called s name -> create = false -> s' = s /\ exists m, r = Err (ModelException m)).
Proof.
  intros N Hb H. unfold node_add_to_srlg in H. rewrite bind_gets in H. cbv beta in H. assert (G := get_srlg_unique s name N).
  assert (J : forall g t, nds_join t (upd_nd n (fun r => nd_srlgs (set_add_ref g (n_srlgs r)) r) t) g (fun x => x = n)).
  { intros g t x. simpl. unfold fupd. destruct (Nat.eqb_spec n x) as [->|Nx]; simpl; (split; [repeat split|]); (split; [intros; auto using set_add_nodup|]); intros h; rewrite ?set_add_In; intuition congruence. }
  destruct (get_srlg s name) as [g|e].
  - injection H as <- <-. split; [|split; intros X; destruct G as [G1 G2]; destruct (X g G1 G2)].
    intros h Hh. rewrite (srlg_called_fun s name h g N Hh G). split; [reflexivity|]. split; [repeat split|]. apply J.
  - destruct G as [_ G]. split; [intros h [A B]; destruct (G h A B)|]. destruct create; split; intros _ Hc; try discriminate Hc.
    + cbv iota in H. rewrite (srlg_new_run s name (fun _ g => modify (upd_nd n (fun r => nd_srlgs (set_add_ref g (n_srlgs r)) r)))) in H by auto.
      injection H as <- <-. split; [reflexivity|].
      exists (s_next s). split; [|split; [reflexivity|apply (J (s_next s) (mk_srlg s name))]].
      destruct (mk_srlg_new s name Hb) as (A1 & A2 & A3 & A4 & A5 & A6). repeat split; auto.
    + injection H as <- <-. eauto.
Qed.

Theorem srlg_add name s s' r : (forall g, In g (m_srs s) -> (g < s_next s)%nat) -> add_srlg name s = (s', r) ->
  (forall g, srlg_called s name g -> s' = s /\ exists m, r = Err (ModelException m)) /\
  (no_srlg_called s name -> r = Ok tt /\ exists g, new_srlg s s' g name /\ h_if s' = h_if s /\ h_nd s' = h_nd s).
Proof.
  intros Hb H. unfold add_srlg in H. rewrite bind_gets in H. cbv beta in H. split.
  - intros g [G1 G2]. replace (mem_str name (map (fun g => sr_name (h_sr s g)) (m_srs s))) with true in H.
    + injection H as <- <-. eauto.
    + symmetry. unfold mem_str. apply existsb_exists. exists name. split; [|apply String.eqb_refl]. apply in_map_iff. exists g. auto.
  - intros Hn. rewrite (no_name s name Hn) in H. cbv iota in H.
    assert (X := srlg_new_run s name (fun u (_ : nat) => ret u) Hn Hb).
    assert (Y : bind (srlg_new name) (fun g => modify (fun s => set_srs (set_add_ref g (m_srs s)) s)) s = (mk_srlg s name, Ok tt)).
    { change (mk_srlg s name, Ok tt) with (ret tt (mk_srlg s name)). rewrite <- X. unfold bind. destruct (srlg_new name s) as [t [a|e]]; reflexivity. }
    rewrite Y in H. injection H as <- <-. split; [reflexivity|]. exists (s_next s). split; [now apply mk_srlg_new|split; reflexivity].
Qed.

Lemma mem_if_self s i l : In i l -> mem_if s i l = true.
Proof. intros H. unfold mem_if. apply existsb_exists. exists i. split; auto. unfold iface_eqb. now rewrite Nat.eqb_refl. Qed.
Lemma mem_nd_self s i l : In i l -> mem_nd s i l = true.
Proof. intros H. unfold mem_nd. apply existsb_exists. exists i. split; auto. unfold node_eqb. now rewrite Nat.eqb_refl. Qed.
Lemma mem_srlg_ifaces s i g : In i (m_ifs s) -> In g (i_srlgs (h_if s i)) -> mem_if s i (srlg_ifaces s g) = true.
Proof. intros A B. apply mem_if_self. unfold srlg_ifaces. apply filter_In. split; auto. now apply mem_nat_In. Qed.
Lemma mem_srlg_nodes s n g : In n (m_nds s) -> In g (n_srlgs (h_nd s n)) -> mem_nd s n (srlg_nodes s g) = true.
Proof. intros A B. apply mem_nd_self. unfold srlg_nodes. apply filter_In. split; auto. now apply mem_nat_In. Qed.

Definition drop_if (g i : nat) (s : st) : st := upd_if i (fun r => if_srlgs (refs_remove g (i_srlgs r)) r) s.
Lemma drop_if_rest g i s x : if_rest (h_if s x) (h_if (drop_if g i s) x).
Proof. apply (upd_if_rest (fun r => if_srlgs (refs_remove g (i_srlgs r)) r)). repeat split. Qed.
Lemma drop_if_leave g i s : ifs_leave s (drop_if g i s) g (fun x => x = i).
Proof.
  intros x. split; [apply drop_if_rest|]. intros h. unfold drop_if. simpl. unfold fupd. destruct (Nat.eqb_spec i x) as [->|N]; simpl; rewrite ?refs_remove_In; intuition congruence.
Qed.
Lemma drop_if_leave2 g i j s : ifs_leave s (drop_if g j (drop_if g i s)) g (fun x => x = i \/ x = j).
Proof.
  intros x. assert (A := drop_if_rest g i s x). assert (B := drop_if_rest g j (drop_if g i s) x). split.
  - destruct A as (?&?&?&?&?&?&?&?&?&?&?&?), B as (?&?&?&?&?&?&?&?&?&?&?&?). repeat split; congruence.
  - intros h. destruct (drop_if_leave g i s x) as [_ X], (drop_if_leave g j (drop_if g i s) x) as [_ Y]. rewrite Y, X. intuition.
Qed.

Theorem if_remove i j name s s' r : NoDup (map (srlg_name s) (m_srs s)) -> In i (m_ifs s) -> sole_other_end s i j -> i <> j ->
  iface_remove_from_srlg i name s = (s', r) ->
  (no_srlg_called s name -> s' = s /\ exists m, r = Err (ModelException m)) /\
  (forall g, srlg_called s name g ->
    (~ In g (i_srlgs (h_if s i)) -> s' = s /\ r = Err KeyError) /\
    (In g (i_srlgs (h_if s i)) -> ~ In g (i_srlgs (h_if s j)) -> r = Err KeyError /\ only_ifs s s' /\ ifs_leave s s' g (fun x => x = i)) /\
    (In g (i_srlgs (h_if s i)) -> In g (i_srlgs (h_if s j)) ->
       exists s1, only_ifs s s1 /\ ifs_leave s s1 g (fun x => x = i \/ x = j) /\ if_assigned s1 s' i false r)).
Proof.
  intros N Hi Ho Nij H. unfold iface_remove_from_srlg in H. rewrite bind_gets in H. cbv beta in H. assert (G := get_srlg_unique s name N).
  destruct (get_srlg s name) as [g|e].
  2:{ destruct G as [_ G]. injection H as <- <-. split; [eauto|]. intros g [A B]. destruct (G g A B). }
  split; [intros X; destruct G as [G1 G2]; destruct (X g G1 G2)|]. intros h Hh. rewrite (srlg_called_fun s name h g N Hh G). clear h Hh.
  assert (Hj : In j (m_ifs s)) by (destruct Ho as [(A & _) _]; exact A).
  rewrite bind_gets in H. cbv beta in H.
  destruct (mem_nat g (i_srlgs (h_if s i))) eqn:Mi.
  - assert (Ii := Mi). apply mem_nat_In in Ii. split; [tauto|].
    rewrite (mem_srlg_ifaces s i g Hi Ii), bind_ret, bind_gets in H. cbv beta in H. rewrite Mi, bind_ret, bind_modify in H.
    change (upd_if i _ s) with (drop_if g i s) in H. rewrite bind_reads in H.
    rewrite (get_remote_unique (drop_if g i s) i j) in H.
    2: exact Hi.
    2:{ apply (sole_stable s); auto. intros x. destruct (drop_if_rest g i s x) as (_&_&_&?&?&?&_). auto. }
    rewrite !bind_gets in H. cbv beta in H.
    assert (Hjs : h_if (drop_if g i s) j = h_if s j) by (unfold drop_if; simpl; now rewrite fupd_other by congruence).
    destruct (mem_nat g (i_srlgs (h_if s j))) eqn:Mj.
    + assert (Ij := Mj). apply mem_nat_In in Ij. split; [tauto|]. intros _ _.
      rewrite (mem_srlg_ifaces (drop_if g i s) j g) in H; [|exact Hj|now rewrite Hjs].
      rewrite bind_ret, bind_gets in H. cbv beta in H. rewrite Hjs, Mj, bind_ret, bind_modify in H.
      change (upd_if j _ (drop_if g i s)) with (drop_if g j (drop_if g i s)) in H.
      exists (drop_if g j (drop_if g i s)). split; [repeat split|]. split; [apply drop_if_leave2|now apply if_assign].
    + assert (Ij := Mj). apply mem_nat_false in Ij. split; [|tauto]. intros _ _.
      destruct (mem_if (drop_if g i s) j (srlg_ifaces (drop_if g i s) g)).
      * rewrite bind_ret, bind_gets in H. cbv beta in H. rewrite Hjs, Mj in H. injection H as <- <-. split; [reflexivity|]. split; [repeat split|apply drop_if_leave].
      * injection H as <- <-. split; [reflexivity|]. split; [repeat split|apply drop_if_leave].
  - assert (Ii := Mi). apply mem_nat_false in Ii. split; [|split; tauto]. intros _.
    destruct (mem_if s i (srlg_ifaces s g)).
    + rewrite bind_ret, bind_gets in H. cbv beta in H. rewrite Mi in H. injection H as <- <-. auto.
    + injection H as <- <-. auto.
Qed.

Theorem nd_remove n name s s' r : NoDup (map (srlg_name s) (m_srs s)) -> In n (m_nds s) ->
  node_remove_from_srlg n name s = (s', r) ->
  (no_srlg_called s name -> s' = s /\ exists m, r = Err (ModelException m)) /\
  (forall g, srlg_called s name g ->
    (~ In g (n_srlgs (h_nd s n)) -> s' = s /\ r = Err KeyError) /\
    (In g (n_srlgs (h_nd s n)) -> exists s1, only_nodes s s1 /\ nds_leave s s1 g (fun x => x = n) /\ nd_assigned s1 s' n false r)).
Proof.
  intros N Hn H. unfold node_remove_from_srlg in H. rewrite bind_gets in H. cbv beta in H. assert (G := get_srlg_unique s name N).
  destruct (get_srlg s name) as [g|e].
  2:{ destruct G as [_ G]. injection H as <- <-. split; [eauto|]. intros g [A B]. destruct (G g A B). }
  split; [intros X; destruct G as [G1 G2]; destruct (X g G1 G2)|]. intros h Hh. rewrite (srlg_called_fun s name h g N Hh G). clear h Hh.
  rewrite bind_gets in H. cbv beta in H.
  destruct (mem_nat g (n_srlgs (h_nd s n))) eqn:Mi.
  - assert (Ii := Mi). apply mem_nat_In in Ii. split; [tauto|]. intros _.
    rewrite (mem_srlg_nodes s n g Hn Ii), bind_ret, bind_gets in H. cbv beta in H. rewrite Mi, bind_ret, bind_modify in H.
    eexists. split; [|split; [|apply nd_assign; exact H]]; [repeat split|].
    intros x. simpl. unfold fupd. destruct (Nat.eqb_spec n x) as [->|Nx]; simpl; (split; [repeat split|]); intros h; rewrite ?refs_remove_In; intuition congruence.
  - assert (Ii := Mi). apply mem_nat_false in Ii. split; [|tauto]. intros _.
    destruct (mem_nd s n (srlg_nodes s g)).
    + rewrite bind_ret, bind_gets in H. cbv beta in H. rewrite Mi in H. injection H as <- <-. auto.
    + injection H as <- <-. auto.
Qed.
