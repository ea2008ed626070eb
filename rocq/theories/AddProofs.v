(** AddProofs.v - add_demand, add_rsvp_lsp, add_circuit, add_node. *)
From Verif Require Import Base Graph Objects Sim Api Spec MonadProofs GraphProofs RoundProofs Frames ApiFrames ObjProofs ApiProofs.

Lemma Qltb_true a b : Qltb a b = true <-> (a < b)%Q.
Proof.
  unfold Qltb. rewrite negb_true_iff. split.
  - intros H. apply Qnot_le_lt. intros C. apply Qle_bool_iff in C. congruence.
  - intros H. destruct (Qle_bool b a) eqn:X; auto. apply Qle_bool_iff in X. exfalso. eapply Qlt_not_le; eauto.
Qed.
Lemma Qltb_false a b : Qltb a b = false <-> (b <= a)%Q.
Proof.
  unfold Qltb. rewrite negb_false_iff. apply Qle_bool_iff.
Qed.

Lemma set_add_ref_fresh x l : ~ In x l -> set_add_ref x l = (l ++ [x])%list.
Proof. intros H. unfold set_add_ref. apply mem_nat_false in H. now rewrite H. Qed.

Lemma alloc_ifs s : allocated s -> forall x, In x (m_ifs s) -> (x < s_next s)%nat.
Proof. intros H x Hx. apply H. apply in_or_app; auto. Qed.
Lemma alloc_nds s : allocated s -> forall x, In x (m_nds s) -> (x < s_next s)%nat.
Proof. intros H x Hx. apply H. rewrite !in_app_iff; auto. Qed.
Lemma alloc_dms s : allocated s -> forall x, In x (m_dms s) -> (x < s_next s)%nat.
Proof. intros H x Hx. apply H. rewrite !in_app_iff; auto. Qed.
Lemma alloc_lsps s : allocated s -> forall x, In x (m_lsps s) -> (x < s_next s)%nat.
Proof. intros H x Hx. apply H. rewrite !in_app_iff; auto. Qed.
Lemma alloc_srs s : allocated s -> forall x, In x (m_srs s) -> (x < s_next s)%nat.
Proof. intros H x Hx. apply H. rewrite !in_app_iff; auto 6. Qed.
Lemma fresh_nin (l : list nat) n : (forall x, In x l -> (x < n)%nat) -> ~ In n l.
Proof. intros H C. apply H in C. lia. Qed.

Section Add.
Variable E : env.
Variable k : kind.

(** *** add_demand *)
Lemma add_demand_run src dst t name s s' r :
  add_demand E k src dst t name s = (s', r) ->
  let v a b := mkDemand a b t name DUnrouted PDInitial in
  (exists e, r = Err e /\ s' = s /\ (get_node s src = Err e \/ get_node s dst = Err e)) \/
  ((t < 0)%Q /\ r = Err ValueError /\ s' = s /\ (exists a, get_node s src = Ok a) /\ (exists b, get_node s dst = Ok b)) \/
  (exists a b, get_node s src = Ok a /\ get_node s dst = Ok b /\ (0 <= t)%Q /\
     let s1 := put_dm (v a b) s in
     (existsb (fun d' => key3_eqb (dkey s1 d') (dkey s1 (s_next s))) (m_dms s) = true /\
        is_model_exn (match r with Err e => e | _ => ValueError end) = true /\ s' = s1) \/
     (existsb (fun d' => key3_eqb (dkey s1 d') (dkey s1 (s_next s))) (m_dms s) = false /\
        validate_model E k (set_dms (set_add_ref (s_next s) (m_dms s)) s1) = (s', r))).
Proof.
  unfold add_demand, demand_new, bind, reads, gets, modify, ret, raise.
  destruct (get_node s src) as [a|e] eqn:Ga.
  2: { intros H; injection H as <- <-. left. exists e. auto. }
  destruct (get_node s dst) as [b|e] eqn:Gb.
  2: { intros H; injection H as <- <-. left. exists e. auto. }
  destruct (Qltb t 0) eqn:Et.
  { intros H; injection H as <- <-. right; left. apply Qltb_true in Et. split; auto. split; auto. split; auto. split; eauto. }
  apply Qltb_false in Et.
  intros H. right; right. exists a, b. split; auto. split; auto. split; auto.
  unfold put_dm. cbn [m_dms] in *.
  match type of H with context [existsb ?f ?l] => destruct (existsb f l) eqn:X end.
  - injection H as <- <-. left. repeat split; auto.
  - right. split; auto.
Qed.

Lemma dkey_put_other s v d : d <> s_next s -> dkey (put_dm v s) d = dmd_key s d.
Proof. intros H. unfold dkey, dsrc, ddst, dmd_key, dmd_from, dmd_to, put_dm; simpl. rewrite fupd_other; auto. Qed.
Lemma dkey_put_new s v : dkey (put_dm v s) (s_next s) = (n_name (h_nd s (d_src v)), n_name (h_nd s (d_dst v)), d_name v).
Proof. unfold dkey, dsrc, ddst, put_dm; simpl. rewrite fupd_same. reflexivity. Qed.

Lemma add_demand_exact src dst t name s s' r : allocated s ->
  add_demand E k src dst t name s = (s', r) ->
  let known x := exists n, In n (m_nds s) /\ nd_name s n = x in
  let unknown x := forall n, In n (m_nds s) -> nd_name s n <> x in
  let taken := exists d, In d (m_dms s) /\ dmd_key s d = (src, dst, name) in
  (exists e, r = Err e /\ m_dms s' = m_dms s /\ (forall d, In d (m_dms s) -> h_dm s' d = h_dm s d) /\
     (((unknown src \/ unknown dst) /\ is_model_exn e = true) \/
      (known src /\ known dst /\ (t < 0)%Q /\ e = ValueError) \/
      (known src /\ known dst /\ (0 <= t)%Q /\ taken /\ is_model_exn e = true))) \/
  (known src /\ known dst /\ (0 <= t)%Q /\ ~ taken /\
   exists d a b, ~ In d (m_dms s) /\ m_dms s' = (m_dms s ++ [d])%list /\
     In a (m_nds s) /\ nd_name s a = src /\ In b (m_nds s) /\ nd_name s b = dst /\
     h_dm s' d = mkDemand a b t name DUnrouted PDInitial /\
     (forall d', In d' (m_dms s) -> h_dm s' d' = h_dm s d')).
Proof.
  intros Hal H known unknown taken.
  assert (Gsrc := get_node_spec s src). assert (Gdst := get_node_spec s dst).
  assert (Hfr : forall d, In d (m_dms s) -> d <> s_next s).
  { intros d Hd ->. apply alloc_dms in Hd; auto. lia. }
  apply add_demand_run in H as [(e & -> & -> & Hg)|[(Ht & -> & -> & [a Ha] & [b Hb])|(a & b & Ga & Gb & Ht & H)]].
  - left. exists e. split; auto. split; auto. split; auto. left.
    destruct Hg as [Hg|Hg]; [rewrite Hg in Gsrc|rewrite Hg in Gdst]; tauto.
  - left. exists ValueError. split; auto. split; auto. split; auto. right; left.
    rewrite Ha in Gsrc. rewrite Hb in Gdst. repeat split; auto; red; eauto.
  - rewrite Ga in Gsrc. rewrite Gb in Gdst. destruct Gsrc as [Gs1 Gs2], Gdst as [Gd1 Gd2].
    cbv zeta in H. set (s1 := put_dm _ s) in H.
    assert (Kn : dkey s1 (s_next s) = (src, dst, name)).
    { unfold s1. rewrite dkey_put_new; simpl. unfold nd_name in *. now rewrite Gs2, Gd2. }
    assert (Ko : forall d, In d (m_dms s) -> dkey s1 d = dmd_key s d).
    { intros d Hd. unfold s1. apply dkey_put_other. auto. }
    destruct H as [(X & He & ->)|(X & Hv)].
    + left. destruct r as [u|e]; [discriminate|]. exists e. split; auto. split; [reflexivity|].
      split; [intros d Hd; simpl; apply fupd_other; intros C; apply (Hfr d Hd); auto|].
      right; right. repeat split; auto; try (red; eauto; fail).
      apply existsb_exists in X as (d & Hd & Kd). apply key3_eqb_eq in Kd. exists d. split; auto.
      rewrite <- Ko, Kd; auto.
    + right. split; [red; eauto|]. split; [red; eauto|]. split; [auto|].
      split.
      { intros (d & Hd & Kd). assert (X' : existsb (fun d' => key3_eqb (dkey s1 d') (dkey s1 (s_next s))) (m_dms s) = true).
        { apply existsb_exists. exists d. split; auto. apply key3_eqb_eq. rewrite Kn, Ko; auto. }
        congruence. }
      apply (pres_run _ _ _ _ _ (val_frame_validate E k)) in Hv. destruct Hv as [_ _ Vdm _ (V1 & V2 & V3 & V4 & V5) _ _ _ _ _ _ _ _].
      assert (Nin : ~ In (s_next s) (m_dms s)) by (apply fresh_nin, alloc_dms; auto).
      exists (s_next s), a, b. split; auto.
      split; [rewrite V3; simpl; now apply set_add_ref_fresh|].
      repeat split; auto.
      * rewrite Vdm. simpl. apply fupd_same.
      * intros d Hd. rewrite Vdm. simpl. apply fupd_other. intros C. apply (Hfr d Hd). auto.
Qed.

(** *** add_rsvp_lsp *)
Lemma lkey_put_other s v d : d <> s_next s -> lkey (put_ls v s) d = lsp_key s d.
Proof. intros H. unfold lkey, lsrc, ldst, lsp_key, lsp_from, lsp_to, put_ls; simpl. rewrite fupd_other; auto. Qed.
Lemma lkey_put_new s v : lkey (put_ls v s) (s_next s) = (n_name (h_nd s (l_src v)), n_name (h_nd s (l_dst v)), l_name v).
Proof. unfold lkey, lsrc, ldst, put_ls; simpl. rewrite fupd_same. reflexivity. Qed.

Lemma add_lsp_exact src dst name s s' r : allocated s ->
  add_rsvp_lsp E k src dst name s = (s', r) ->
  let known x := exists n, In n (m_nds s) /\ nd_name s n = x in
  let unknown x := forall n, In n (m_nds s) -> nd_name s n <> x in
  let taken := exists l, In l (m_lsps s) /\ lsp_key s l = (src, dst, name) in
  (exists e, r = Err e /\ is_model_exn e = true /\ m_lsps s' = m_lsps s /\
     (forall l, In l (m_lsps s) -> h_ls s' l = h_ls s l) /\
     (unknown src \/ unknown dst \/ taken)) \/
  (known src /\ known dst /\ ~ taken /\ m_groups s' = m_groups s /\
   exists l a b, ~ In l (m_lsps s) /\ m_lsps s' = (m_lsps s ++ [l])%list /\
     In a (m_nds s) /\ nd_name s a = src /\ In b (m_nds s) /\ nd_name s b = dst /\
     h_ls s' l = mkLsp a b name PInit RInit RInit None None None /\
     (forall l', In l' (m_lsps s) -> h_ls s' l' = h_ls s l')).
Proof.
  intros Hal H known unknown taken.
  assert (Gsrc := get_node_spec s src). assert (Gdst := get_node_spec s dst).
  assert (Hfr : forall d, In d (m_lsps s) -> s_next s <> d).
  { intros d Hd C. apply alloc_lsps in Hd; auto. lia. }
  unfold add_rsvp_lsp, lsp_new, bind, reads, gets, modify, ret, raise in H.
  destruct (get_node s src) as [a|e].
  2: { injection H as <- <-. left. exists e. repeat split; auto; tauto. }
  destruct (get_node s dst) as [b|e].
  2: { injection H as <- <-. left. exists e. repeat split; auto; tauto. }
  destruct Gsrc as [Gs1 Gs2], Gdst as [Gd1 Gd2].
  fold (put_ls (mkLsp a b name PInit RInit RInit None None None) s) in H.
  set (s1 := put_ls _ s) in H.
  assert (Kn : lkey s1 (s_next s) = (src, dst, name)).
  { unfold s1. rewrite lkey_put_new; simpl. unfold nd_name in *. now rewrite Gs2, Gd2. }
  assert (Ko : forall d, In d (m_lsps s) -> lkey s1 d = lsp_key s d).
  { intros d Hd. unfold s1. apply lkey_put_other. intros C. apply (Hfr d Hd). auto. }
  assert (Et : existsb (fun l' => key3_eqb (lkey s1 l') (lkey s1 (s_next s))) (m_lsps s) = true <-> taken).
  { rewrite existsb_exists. split; intros (l & Hl & Kl); exists l; split; auto.
    - apply key3_eqb_eq in Kl. rewrite <- Ko by auto. congruence.
    - apply key3_eqb_eq. rewrite Ko by auto. congruence. }
  change (m_lsps s1) with (m_lsps s) in H.
  match type of H with context [existsb ?f ?l] => destruct (existsb f l) eqn:X end.
  - injection H as <- <-. left. eexists. split; [reflexivity|]. split; [reflexivity|]. split; [reflexivity|].
    split; [|tauto]. intros l Hl. simpl. apply fupd_other; auto.
  - right. split; [red; eauto|]. split; [red; eauto|].
    split; [intros C; apply Et in C; congruence|].
    apply (pres_run _ _ _ _ _ (val_frame_validate E k)) in H. destruct H as [_ _ _ Vls (V1 & V2 & V3 & V4 & V5) Vg _ _ _ _ _ _ _].
    split; [rewrite Vg; reflexivity|].
    exists (s_next s), a, b. split; [apply fresh_nin, alloc_lsps; auto|].
    split; [rewrite V4; simpl; apply set_add_ref_fresh, fresh_nin, alloc_lsps; auto|].
    repeat split; auto.
    + rewrite Vls. simpl. apply fupd_same.
    + intros d Hd. rewrite Vls. simpl. apply fupd_other. auto.
Qed.

(** *** add_node *)


(** *** add_circuit *)
Lemma set_add_if_new s i l : (forall j, In j l -> if_key s j <> if_key s i) -> set_add_if s i l = (l ++ [i])%list.
Proof.
  intros H. unfold set_add_if. destruct (mem_if s i l) eqn:X; auto. exfalso.
  unfold mem_if in X. apply existsb_exists in X as (j & Hj & Ej). apply iface_eqb_key in Ej. apply (H j Hj). auto.
Qed.

Lemma if_key_put_other s v i : i <> s_next s -> if_key (put_if v s) i = if_key s i.
Proof. intros H. unfold if_key, loc, put_if; simpl. rewrite fupd_other; auto. Qed.
Lemma if_key_put_new s v : if_key (put_if v s) (s_next s) = (i_name v, n_name (h_nd s (i_node v))).
Proof. unfold if_key, loc, put_if; simpl. rewrite fupd_same. reflexivity. Qed.

Lemma iface_new_run name cost cap a b c rsvp pct s s' r :
  iface_new name cost cap a b c rsvp pct s = (s', r) ->
  ((cost < 1 \/ (cap <= 0)%Q) /\ s' = s /\ exists e, r = Err e /\ is_model_exn e = true) \/
  (1 <= cost /\ (0 < cap)%Q /\ r = Ok (s_next s) /\
   s' = put_if (mkIface name cost cap a b c (TNum 0) false 0 [] rsvp pct false) s).
Proof.
  unfold iface_new. destruct (Z.ltb_spec cost 1).
  { intros H1; injection H1 as <- <-. left. split; auto. split; auto. eexists; split; reflexivity. }
  destruct (Qltb 0 cap) eqn:Ec; simpl.
  - apply Qltb_true in Ec. unfold bind, gets, modify, ret. intros H1; injection H1 as <- <-. right. repeat split; auto.
  - apply Qltb_false in Ec. intros H1; injection H1 as <- <-. left. split; auto. split; auto. eexists; split; reflexivity.
Qed.

Lemma fold_max_ge l : forall a, a <= fold_left Z.max l a /\ (forall x, In x l -> x <= fold_left Z.max l a).
Proof.
  induction l as [|y l IH]; simpl; intros a; [split; [lia|tauto]|].
  destruct (IH (Z.max a y)) as [H1 H2]. split; [lia|]. intros x [->|Hx]; [lia|auto].
Qed.
Lemma fold_max_in l : forall a, fold_left Z.max l a = a \/ In (fold_left Z.max l a) l.
Proof.
  induction l as [|y l IH]; simpl; intros a; [auto|].
  destruct (IH (Z.max a y)) as [H|H]; [rewrite H; destruct (Z.max_spec a y) as [[_ ->]|[_ ->]]; auto|auto].
Qed.
Lemma Zmax_list_some l c : Zmax_list l = Some c -> In c l /\ forall x, In x l -> x <= c.
Proof.
  destruct l as [|a l]; simpl; [discriminate|]. intros H; injection H as <-.
  destruct (fold_max_ge l a) as [H1 H2]. split.
  - destruct (fold_max_in l a) as [->|H]; auto.
  - intros x [<-|Hx]; auto.
Qed.

(** circuit ids as a PerformanceModel numbers them *)
Lemma next_cid_spec s c : next_cid s = Ok c ->
  (m_ifs s = [] /\ c = CInt 1) \/
  (exists z, c = CInt (z + 1) /\ (exists i, In i (m_ifs s) /\ i_cid (h_if s i) = CInt z) /\
     forall i, In i (m_ifs s) -> exists y, i_cid (h_if s i) = CInt y /\ y <= z).
Proof.
  unfold next_cid, all_cids. destruct (m_ifs s) as [|i0 l0] eqn:Em; simpl map; cbv beta iota.
  - intros H; injection H as <-. auto.
  - set (ids := i_cid (h_if s i0) :: map (fun i => i_cid (h_if s i)) l0).
    assert (Hids : forall i, In i (i0 :: l0) <-> In i (i0 :: l0)) by tauto.
    match goal with |- context [forallb ?f ?l] => change l with ids; destruct (forallb f ids) eqn:F end; [|discriminate].
    match goal with |- context [Zmax_list ?l] => destruct (Zmax_list l) as [z|] eqn:Z end; [|discriminate]. intros H; injection H as <-. right. exists z. split; auto.
    apply Zmax_list_some in Z as [Z1 Z2].
    assert (Hmap : ids = map (fun i => i_cid (h_if s i)) (i0 :: l0)) by reflexivity.
    split.
    + apply in_flat_map in Z1 as (c & Hc & Hz). rewrite Hmap in Hc. apply in_map_iff in Hc as (i & Ei & Hi).
      exists i. split; auto. destruct c; simpl in Hz; try tauto. destruct Hz as [->|[]]. auto.
    + intros i Hi. rewrite forallb_forall in F.
      assert (Hc : In (i_cid (h_if s i)) ids) by (rewrite Hmap; apply in_map_iff; eauto).
      specialize (F _ Hc). destruct (i_cid (h_if s i)) as [|y|] eqn:Ec; try discriminate.
      exists y. split; auto. apply Z2. apply in_flat_map. exists (CInt y). split; auto. left; auto.
Qed.

Lemma add_circuit_exact a b na nb ca cb cap c s s' r : allocated s ->
  (na, nd_name s a) <> (nb, nd_name s b) ->
  add_circuit E k a b na nb ca cb cap c s = (s', r) ->
  let key_used key := exists i, In i (m_ifs s) /\ if_key s i = key in
  let cid_used x := exists i, In i (m_ifs s) /\ i_cid (h_if s i) = x in
  (exists e, r = Err e /\ m_ifs s' = m_ifs s /\ (forall i, In i (m_ifs s) -> h_if s' i = h_if s i) /\
     ((k = Flex /\ (c = CNone \/ cid_used c) /\ is_model_exn e = true) \/
      (k = Perf /\ c = CNone /\ (exists i, In i (m_ifs s) /\ forall z, i_cid (h_if s i) <> CInt z) /\ e = TypeError) \/
      ((ca < 1 \/ cb < 1 \/ (cap <= 0)%Q) /\ is_model_exn e = true) \/
      ((key_used (na, nd_name s a) \/ key_used (nb, nd_name s b)) /\ is_model_exn e = true))) \/
  (1 <= ca /\ 1 <= cb /\ (0 < cap)%Q /\ ~ key_used (na, nd_name s a) /\ ~ key_used (nb, nd_name s b) /\
   exists ia ib c' s1,
     (k = Flex -> c' = c /\ c <> CNone /\ ~ cid_used c) /\
     (k = Perf -> c <> CNone -> c' = c) /\
     (k = Perf -> c = CNone -> (m_ifs s = [] /\ c' = CInt 1) \/
         exists z, c' = CInt (z + 1) /\ cid_used (CInt z) /\
           forall i, In i (m_ifs s) -> exists y, i_cid (h_if s i) = CInt y /\ y <= z) /\
     ~ In ia (m_ifs s) /\ ~ In ib (m_ifs s) /\ ia <> ib /\
     m_ifs s1 = (m_ifs s ++ [ia; ib])%list /\ (forall i, In i (m_ifs s) -> h_if s1 i = h_if s i) /\
     m_nds s1 = m_nds s /\ m_dms s1 = m_dms s /\ m_lsps s1 = m_lsps s /\ m_srs s1 = m_srs s /\
     h_nd s1 = h_nd s /\ h_dm s1 = h_dm s /\ h_ls s1 = h_ls s /\ h_sr s1 = h_sr s /\
     h_if s1 ia = mkIface na ca cap a b c' (TNum 0) false 0 [] true 100 false /\
     h_if s1 ib = mkIface nb cb cap b a c' (TNum 0) false 0 [] true 100 false /\
     validate_model E k s1 = (s', r) /\ m_ifs s' = m_ifs s1).
Proof.
  intros Hal Hne H key_used cid_used.
  unfold add_circuit in H. apply bind_inv in H as [(sa & c' & Hc & H)|(e & Hc & ->)].
  2: { left. exists e. split; auto. destruct k eqn:Ek.
    - destruct c; [injection Hc as <- <-; repeat split; auto; left; auto | |].
      all: unfold bind, gets, ret, raise in Hc;
        match type of Hc with context [existsb ?f ?l] => destruct (existsb f l) eqn:X; [|discriminate] end;
        injection Hc as <- <-; repeat split; auto; left; split; auto; split; auto; right;
        apply existsb_exists in X as (x & Hx & Ex); apply cid_eqb_eq in Ex; subst x;
        unfold all_cids in Hx; apply in_map_iff in Hx as (i & Ei & Hi); exists i; auto.
    - destruct c; try discriminate. unfold reads in Hc. injection Hc as <- Hc. repeat split; auto. right; left.
      split; auto. split; auto. unfold next_cid in Hc. destruct (all_cids s) as [|x l] eqn:A; [discriminate|].
      match type of Hc with context [forallb ?f (x :: l)] => destruct (forallb f (x :: l)) eqn:F end.
      + match type of Hc with context [Zmax_list ?l] => destruct (Zmax_list l) eqn:Z end; [discriminate|]. exfalso.
        simpl in F. destruct x; simpl in F; discriminate.
      + injection Hc as <-. split; auto.
        assert (X : exists y, In y (x :: l) /\ (match y with CInt _ => true | _ => false end) = false).
        { clear - F. induction (x :: l) as [|y yl IH]; [discriminate|]. simpl in F.
          destruct (match y with CInt _ => true | _ => false end) eqn:Y; [|exists y; split; [left; auto|auto]].
          destruct (IH F) as (z & Hz & Ez). exists z. split; [right|]; auto. }
        destruct X as (y & Hy & Ey). rewrite <- A in Hy. unfold all_cids in Hy. apply in_map_iff in Hy as (i & Ei & Hi).
        exists i. split; auto. intros z Cz. rewrite Ei in Cz. rewrite Cz in Ey. discriminate. }
  assert (Hsa : sa = s /\ (k = Flex -> c' = c /\ c <> CNone /\ ~ cid_used c) /\
     (k = Perf -> c <> CNone -> c' = c) /\
     (k = Perf -> c = CNone -> (m_ifs s = [] /\ c' = CInt 1) \/
         exists z, c' = CInt (z + 1) /\ cid_used (CInt z) /\
           forall i, In i (m_ifs s) -> exists y, i_cid (h_if s i) = CInt y /\ y <= z)).
  { destruct k.
    - destruct c; [discriminate| |];
        unfold bind, gets, ret, raise in Hc;
        match type of Hc with context [existsb ?f ?l] => destruct (existsb f l) eqn:X; [discriminate|] end;
        injection Hc as <- <-; repeat split; auto; try discriminate;
        intros (i & Hi & Ei);
        match type of X with ?t = false => assert (t = true); [|congruence] end;
        apply existsb_exists; eexists; (split; [unfold all_cids; apply in_map_iff; exists i; split; [reflexivity|auto]|]);
        rewrite Ei; apply cid_eqb_refl.
    - destruct c; [unfold reads in Hc; injection Hc as <- Hc|injection Hc as <- <-|injection Hc as <- <-].
      + split; auto. split; [discriminate|]. split; [congruence|]. intros _ _. apply next_cid_spec; auto.
      + split; auto. split; [discriminate|]. split; [auto|discriminate].
      + split; auto. split; [discriminate|]. split; [auto|discriminate]. }
  destruct Hsa as (-> & C1 & C2 & C3). clear Hc.
  apply bind_inv in H as [(sb & ia & H1 & H)|(e & H1 & ->)].
  2: { apply iface_new_run in H1 as [(Hbad & -> & e' & He & Hm)|(_ & _ & Hx & _)]; [|discriminate].
    injection He as <-. left. exists e. repeat split; auto. right; right; left. tauto. }
  apply iface_new_run in H1 as [(_ & _ & e' & He & _)|(Hca & Hcap & Hia & ->)]; [discriminate|].
  injection Hia as ->. set (va := mkIface na ca cap a b c' _ _ _ _ _ _ _) in *. set (s2 := put_if va s) in *.
  assert (Hfr : forall i, In i (m_ifs s) -> i <> s_next s).
  { intros i Hi C. apply alloc_ifs in Hi; auto. lia. }
  assert (Hold2 : forall i, In i (m_ifs s) -> h_if s2 i = h_if s i).
  { intros i Hi. unfold s2, put_if. simpl. apply fupd_other. intros C. apply (Hfr i Hi). auto. }
  apply bind_inv in H as [(sb & ib & H1 & H)|(e & H1 & ->)].
  2: { apply iface_new_run in H1 as [(Hbad & -> & e' & He & Hm)|(_ & _ & Hx & _)]; [|discriminate].
    injection He as <-. left. exists e. repeat split; auto. right; right; left. tauto. }
  apply iface_new_run in H1 as [(_ & _ & e' & He & _)|(Hcb & _ & Hib & ->)]; [discriminate|].
  injection Hib as ->. set (vb := mkIface nb cb cap b a c' _ _ _ _ _ _ _) in *.
  change (s_next s2) with (S (s_next s)) in *.
  set (s3 := put_if vb s2) in *.
  assert (Hold3 : forall i, In i (m_ifs s) -> h_if s3 i = h_if s i).
  { intros i Hi. unfold s3, put_if. simpl. rewrite fupd_other; [apply Hold2; auto|]. intros C. subst i.
    apply alloc_ifs in Hi; auto. change (s_next s2) with (S (s_next s)) in Hi. lia. }
  assert (Hia3 : h_if s3 (s_next s) = va).
  { unfold s3, put_if; simpl. rewrite fupd_other by lia. unfold s2, put_if; simpl. apply fupd_same. }
  assert (Hib3 : h_if s3 (S (s_next s)) = vb).
  { unfold s3, put_if; simpl. apply fupd_same. }
  assert (Ka : if_key s3 (s_next s) = (na, nd_name s a)). { unfold if_key, loc. now rewrite Hia3. }
  assert (Kb : if_key s3 (S (s_next s)) = (nb, nd_name s b)). { unfold if_key, loc. now rewrite Hib3. }
  assert (Ko : forall i, In i (m_ifs s) -> if_key s3 i = if_key s i).
  { intros i Hi. unfold if_key, loc. now rewrite Hold3. }
  assert (Hk : forall key, has_ikey s3 key = true <-> key_used key).
  { intros key. unfold has_ikey. rewrite existsb_exists. change (m_ifs s3) with (m_ifs s).
    split; intros (i & Hi & Ei); exists i; split; auto.
    - apply key2_eqb_eq in Ei. rewrite key_eq, Ko in Ei; auto.
    - apply key2_eqb_eq. rewrite key_eq, Ko; auto. }
  rewrite bind_gets in H; rewrite bind_gets in H. change ikey with if_key in H. rewrite  Ka, Kb in H.
  destruct (has_ikey s3 (na, nd_name s a)) eqn:Ua.
  { simpl in H. injection H as <- <-. left. eexists. split; [reflexivity|]. split; [reflexivity|]. split; auto.
    right; right; right. split; [|reflexivity]. left. apply Hk; auto. }
  destruct (has_ikey s3 (nb, nd_name s b)) eqn:Ub.
  { simpl in H. injection H as <- <-. left. eexists. split; [reflexivity|]. split; [reflexivity|]. split; auto.
    right; right; right. split; [|reflexivity]. right. apply Hk; auto. }
  change (false || false)%bool with false in H. cbv iota in H.
  assert (Na : ~ key_used (na, nd_name s a)) by (intros C; apply Hk in C; congruence).
  assert (Nb : ~ key_used (nb, nd_name s b)) by (intros C; apply Hk in C; congruence).
  rewrite bind_modify, bind_modify in H. cbv beta in H.
  change (m_ifs s3) with (m_ifs s) in H.
  rewrite (set_add_if_new s3 (s_next s) (m_ifs s)) in H.
  2: { intros j Hj C. apply Na. exists j. split; auto. rewrite <- Ko, C; auto. }
  change (m_ifs (set_ifs (m_ifs s ++ [s_next s]) s3)) with (m_ifs s ++ [s_next s])%list in H.
  rewrite (set_add_if_new _ (S (s_next s)) (m_ifs s ++ [s_next s])%list) in H.
  2: { intros j Hj. apply in_app_or in Hj as [Hj|[<-|[]]].
    - change (if_key s3 j <> if_key s3 (S (s_next s))). rewrite Ko, Kb by auto. intros C. apply Nb. exists j; auto.
    - change (if_key s3 (s_next s) <> if_key s3 (S (s_next s))). rewrite Ka, Kb. auto. }
  right. split; auto. split; auto. split; auto. split; auto. split; auto.
  match type of H with validate_model E k ?st = _ => set (s4 := st) in * end.
  exists (s_next s), (S (s_next s)), c', s4.
  split; auto. split; auto. split; auto.
  split; [apply fresh_nin, alloc_ifs; auto|].
  split; [intros C; apply alloc_ifs in C; auto; lia|]. split; [lia|].
  split; [unfold s4; simpl; rewrite <- app_assoc; reflexivity|].
  split; [exact Hold3|].
  repeat (split; [first [reflexivity | exact Hia3 | exact Hib3]|]).
  split; [exact H|].
  apply (pres_run _ _ _ _ _ (val_frame_validate E k)) in H. apply H.
Qed.

End Add.

(** *** what add_demand and add_rsvp_lsp leave alone *)
Definition rest_dm (k : kind) (s s' : st) : Prop :=
  m_ifs s' = m_ifs s /\ m_nds s' = m_nds s /\ m_lsps s' = m_lsps s /\ m_srs s' = m_srs s /\
  h_nd s' = h_nd s /\ h_ls s' = h_ls s /\ h_sr s' = h_sr s /\
  (forall i, same_if_data (h_if s i) (h_if s' i)) /\ (forall i, i_traffic (h_if s' i) = i_traffic (h_if s i)).
Definition rest_ls (k : kind) (s s' : st) : Prop :=
  m_ifs s' = m_ifs s /\ m_nds s' = m_nds s /\ m_dms s' = m_dms s /\ m_srs s' = m_srs s /\
  h_nd s' = h_nd s /\ h_dm s' = h_dm s /\ h_sr s' = h_sr s /\
  (forall i, same_if_data (h_if s i) (h_if s' i)) /\ (forall i, i_traffic (h_if s' i) = i_traffic (h_if s i)).

Lemma rest_dm_preorder k : preorder (rest_dm k).
Proof.
  constructor.
  - intros s. repeat split.
  - unfold rest_dm. intros a b c (?&?&?&?&?&?&?&A&A') (?&?&?&?&?&?&?&B&B').
    do 7 (split; [congruence|]). split; intros i; [eauto using same_if_data_trans|]. now rewrite B'.
Qed.
Lemma rest_ls_preorder k : preorder (rest_ls k).
Proof.
  constructor.
  - intros s. repeat split.
  - unfold rest_ls. intros a b c (?&?&?&?&?&?&?&A&A') (?&?&?&?&?&?&?&B&B').
    do 7 (split; [congruence|]). split; intros i; [eauto using same_if_data_trans|]. now rewrite B'.
Qed.

Lemma add_demand_rest E k src dst t name : pres (rest_dm k) (add_demand E k src dst t name).
Proof.
  assert (HR := rest_dm_preorder k).
  unfold add_demand. repeat pres_step HR.
  - apply pres_demand_new; auto. intros s _. repeat split.
  - apply pres_modify. intros s. repeat split.
  - intros s. destruct (val_frame_validate E k s) as [? ? ? ? (?&?&?&?&?) ? ? ? ? ? ? ? ?]. repeat split; auto; apply vf_data.
Qed.
Lemma add_lsp_rest E k src dst name : pres (rest_ls k) (add_rsvp_lsp E k src dst name).
Proof.
  assert (HR := rest_ls_preorder k).
  unfold add_rsvp_lsp. repeat pres_step HR.
  - apply pres_lsp_new; auto. intros s. repeat split.
  - apply pres_modify. intros s. repeat split.
  - intros s. destruct (val_frame_validate E k s) as [? ? ? ? (?&?&?&?&?) ? ? ? ? ? ? ? ?]. repeat split; auto; apply vf_data.
Qed.
