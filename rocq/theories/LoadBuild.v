(** LoadBuild.v - load_model_file builds the model its lines describe. *)
From Verif Require Import Base Graph Objects Sim Api Loader Spec SpecLoad GraphProofs MonadProofs RoundProofs Frames ApiFrames ObjProofs AddProofs PathProofs LoadProofs LoadRun.

Notation ifirsts := (firsts ir_key key2_eqb).
Notation dfirsts := (firsts dr_key key3_eqb).
Notation lfirsts := (firsts lr_key key3_eqb).

(** What the node rows read so far say about a node. *)
Definition placed (nrs : list nd_row) (s : st) (n : nat) : Prop :=
  exists r, nd_is s n r /\ (last_with nr_name nrs r \/ r = mkNdRow (nd_name s n) 0 0 false /\ forall x, In x nrs -> nr_name x <> nd_name s n).

Record inv (irs : list if_row) (nrs : list nd_row) (drs : list dm_row) (lrs : list ls_row) (s : st) : Prop := {
  v_if : forall i, In i (m_ifs s) -> (i < s_next s)%nat /\ (i_node (h_if s i) < s_next s)%nat /\ (i_rem (h_if s i) < s_next s)%nat;
  v_nd : forall n, In n (m_nds s) -> (n < s_next s)%nat;
  v_ifs : Forall2 (if_is s) (m_ifs s) (ifirsts irs);
  v_nodup : NoDup (map (nd_name s) (m_nds s));
  v_names : forall x, (exists n, In n (m_nds s) /\ nd_name s n = x) <-> mentioned irs nrs x;
  v_placed : forall n, In n (m_nds s) -> placed nrs s n;
  v_refs : forall i, In i (m_ifs s) -> In (i_node (h_if s i)) (m_nds s) /\ (In (i_rem (h_if s i)) (m_nds s) \/ rem s i = loc s i);
  v_dm : forall d, In d (m_dms s) -> (d < s_next s)%nat /\ In (d_src (h_dm s d)) (m_nds s) /\ In (d_dst (h_dm s d)) (m_nds s);
  v_dms : Forall2 (dm_is s) (m_dms s) (dfirsts drs);
  v_ls : forall l, In l (m_lsps s) -> (l < s_next s)%nat /\ In (l_src (h_ls s l)) (m_nds s) /\ In (l_dst (h_ls s l)) (m_nds s);
  v_lsps : Forall2 (ls_is s) (m_lsps s) (lfirsts lrs);
  v_bare : bare s }.

Lemma inv_init : inv [] [] [] [] init_st.
Proof.
  constructor; simpl; try (intros x []); try constructor; auto.
  - intros (n & [] & _).
  - intros [(r & [] & _)|(r & [] & _)].
Qed.

Lemma dm_is_stable s s' d r : stable s s' -> (d < s_next s)%nat -> (d_src (h_dm s d) < s_next s)%nat -> (d_dst (h_dm s d) < s_next s)%nat ->
  dm_is s d r -> dm_is s' d r.
Proof.
  intros S H1 H2 H3. unfold dm_is, dmd_from, dmd_to. rewrite (sb_dm _ _ S d H1). rewrite (sb_nd _ _ S _ H2), (sb_nd _ _ S _ H3). auto.
Qed.
Lemma ls_is_stable s s' d r : stable s s' -> (d < s_next s)%nat -> (l_src (h_ls s d) < s_next s)%nat -> (l_dst (h_ls s d) < s_next s)%nat ->
  ls_is s d r -> ls_is s' d r.
Proof.
  intros S H1 H2 H3. unfold ls_is, lsp_from, lsp_to. rewrite (sb_ls _ _ S d H1). rewrite (sb_nd _ _ S _ H2), (sb_nd _ _ S _ H3). auto.
Qed.

(** Objects already there keep satisfying the invariant. *)
Section Keep.
Variables (irs : list if_row) (nrs : list nd_row) (drs : list dm_row) (lrs : list ls_row) (s s' : st) (extra : list nat).
Hypothesis I : inv irs nrs drs lrs s.
Hypothesis S : stable s s'.
Hypothesis Mn : m_nds s' = m_nds s ++ extra.

Lemma keep_nd_lt n : In n (m_nds s) -> (n < s_next s')%nat.
Proof. intros H. apply (v_nd _ _ _ _ _ I) in H. assert (X := sb_next _ _ S). lia. Qed.
Lemma keep_name n : In n (m_nds s) -> nd_name s' n = nd_name s n.
Proof. intros H. apply (sb_nd _ _ S). now apply (v_nd _ _ _ _ _ I). Qed.
Lemma keep_if i : In i (m_ifs s) -> (i < s_next s')%nat /\ (i_node (h_if s' i) < s_next s')%nat /\ (i_rem (h_if s' i) < s_next s')%nat.
Proof. intros H. destruct (v_if _ _ _ _ _ I i H) as (A & B & C). rewrite (sb_if _ _ S i A). assert (X := sb_next _ _ S). lia. Qed.
Lemma keep_loc i : In i (m_ifs s) -> loc s' i = loc s i /\ rem s' i = rem s i.
Proof.
  intros H. destruct (v_if _ _ _ _ _ I i H) as (A & B & C). unfold loc, rem. rewrite (sb_if _ _ S i A). split; apply (sb_nd _ _ S); auto.
Qed.
Lemma keep_ifs : Forall2 (if_is s') (m_ifs s) (ifirsts irs).
Proof.
  apply (Forall2_impl_l (if_is s)); [|apply I]. intros i r Hi. destruct (v_if _ _ _ _ _ I i Hi) as (A & B & C). apply if_is_stable; auto.
Qed.
Lemma keep_refs i : In i (m_ifs s) -> In (i_node (h_if s' i)) (m_nds s') /\ (In (i_rem (h_if s' i)) (m_nds s') \/ rem s' i = loc s' i).
Proof.
  intros H. destruct (v_if _ _ _ _ _ I i H) as (A & _ & _). destruct (keep_loc i H) as [-> ->]. rewrite (sb_if _ _ S i A), Mn, !in_app_iff.
  destruct (v_refs _ _ _ _ _ I i H) as [B [C|C]]; auto.
Qed.
Lemma keep_dm d : In d (m_dms s) -> (d < s_next s')%nat /\ In (d_src (h_dm s' d)) (m_nds s') /\ In (d_dst (h_dm s' d)) (m_nds s').
Proof.
  intros H. destruct (v_dm _ _ _ _ _ I d H) as (A & B & C). rewrite (sb_dm _ _ S d A), Mn, !in_app_iff. assert (X := sb_next _ _ S). split; [lia|auto].
Qed.
Lemma keep_dms : Forall2 (dm_is s') (m_dms s) (dfirsts drs).
Proof.
  apply (Forall2_impl_l (dm_is s)); [|apply I]. intros d r Hd. destruct (v_dm _ _ _ _ _ I d Hd) as (A & B & C).
  apply dm_is_stable; auto; now apply (v_nd _ _ _ _ _ I).
Qed.
Lemma keep_ls d : In d (m_lsps s) -> (d < s_next s')%nat /\ In (l_src (h_ls s' d)) (m_nds s') /\ In (l_dst (h_ls s' d)) (m_nds s').
Proof.
  intros H. destruct (v_ls _ _ _ _ _ I d H) as (A & B & C). rewrite (sb_ls _ _ S d A), Mn, !in_app_iff. assert (X := sb_next _ _ S). split; [lia|auto].
Qed.
Lemma keep_lsps : Forall2 (ls_is s') (m_lsps s) (lfirsts lrs).
Proof.
  apply (Forall2_impl_l (ls_is s)); [|apply I]. intros d r Hd. destruct (v_ls _ _ _ _ _ I d Hd) as (A & B & C).
  apply ls_is_stable; auto; now apply (v_nd _ _ _ _ _ I).
Qed.
End Keep.

Lemma Forall2_key {A B K} (P : A -> B -> Prop) (f : A -> K) (g : B -> K) (eqb : K -> K -> bool) key l l' :
  (forall a b, P a b -> f a = g b) -> Forall2 P l l' -> existsb (fun a => eqb (f a) key) l = existsb (fun b => eqb (g b) key) l'.
Proof. intros H F. induction F as [|a b l l' X F IH]; simpl; auto. now rewrite (H a b X), IH. Qed.

Section Load.
Variable k : kind.
Variable py_int : string -> option Z.
Variable py_float : string -> option Q.

(** ** Interface lines *)
Lemma if_line_inv line r irs drs lrs s : inv irs [] drs lrs s -> if_read k py_int py_float line = Some r ->
  exists s', load_if_line k py_int py_float line s = (s', Ok tt) /\ inv (irs ++ [r]) [] drs lrs s'.
Proof.
  intros I R. destruct (if_line_some k py_int py_float line r s) as (s' & i & a & b & extra & H & S & Hn & Bi & Hi & Ba & Bb & Na & Nb & Mi & Mn & Ex & ND & Ia & Ib & Ix & D1 & D2 & D3 & D4 & D5); auto.
  { apply I. } { intros i Hi. destruct (v_if _ _ _ _ _ I i Hi) as (A & B & _). auto. } { apply I. }
  exists s'. split; auto.
  assert (Ri : if_is s' i r).
  { unfold if_is, loc, rem. rewrite Hi. simpl. unfold nd_name in Na, Nb. rewrite Na, Nb. repeat split. }
  assert (Ki : forall j x, if_is s j x -> if_key s j = ir_key x) by (intros j x (A & _ & _ & B & _); unfold if_key, ir_key; congruence).
  assert (Sub : forall j, In j (m_ifs s') -> In j (m_ifs s) \/ j = i).
  { rewrite Mi. destruct (existsb _ _); auto. intros j Hj. apply in_app_or in Hj as [Hj|[<-|[]]]; auto. }
  constructor.
  - intros j Hj. destruct (Sub j Hj) as [Hj'| ->]; [now apply (keep_if _ _ _ _ _ _ I S)|]. rewrite Hi. simpl. lia.
  - intros n. rewrite Mn, in_app_iff. intros [Hn'|Hn']; [now apply (keep_nd_lt _ _ _ _ _ _ I S)|]. now apply Ex.
  - rewrite firsts_snoc. unfold first_step.
    rewrite <- (Forall2_key (if_is s) (if_key s) ir_key key2_eqb (ir_key r) _ _ Ki (v_ifs _ _ _ _ _ I)). rewrite Mi.
    destruct (existsb _ _); [apply (keep_ifs _ _ _ _ _ _ I S)|]. apply Forall2_app; [apply (keep_ifs _ _ _ _ _ _ I S)|constructor; auto].
  - exact ND.
  - intros x. split.
    + intros (n & Hn' & <-). rewrite Mn, in_app_iff in Hn'. destruct Hn' as [Hn'|Hn'].
      * rewrite (keep_name _ _ _ _ _ _ I S n Hn'). assert (M := proj1 (v_names _ _ _ _ _ I (nd_name s n)) (ex_intro _ n (conj Hn' eq_refl))).
        destruct M as [(y & Hy & M)|(y & [] & _)]. left. exists y. split; auto. apply in_or_app; auto.
      * left. exists r. split; [apply in_or_app; right; left; auto|]. now apply Ex.
    + intros [(y & Hy & M)|(y & [] & _)]. apply in_app_or in Hy as [Hy|[<-|[]]].
      * destruct (proj2 (v_names _ _ _ _ _ I x) (or_introl (ex_intro _ y (conj Hy M)))) as (n & N1 & N2). exists n.
        split; [rewrite Mn; apply in_or_app; auto|]. now rewrite (keep_name _ _ _ _ _ _ I S n N1).
      * destruct M as [-> | ->]; [exists a; auto|exact Ix].
  - intros n. rewrite Mn, in_app_iff. intros [Hn'|Hn'].
    + destruct (v_placed _ _ _ _ _ I n Hn') as (p & P1 & P2). assert (L := v_nd _ _ _ _ _ I n Hn'). exists p.
      unfold nd_is, nd_name in *. rewrite Hn by auto. auto.
    + destruct (Ex n Hn') as (_ & E & _). exists (mkNdRow (nd_name s' n) 0 0 false). split; [|right; split; auto; intros x []].
      unfold nd_is. rewrite E. simpl. repeat split.
  - intros j Hj. destruct (Sub j Hj) as [Hj'| ->]; [now apply (keep_refs _ _ _ _ _ _ _ I S Mn)|].
    unfold rem, loc. rewrite Hi. simpl. split; auto. destruct Ib as [Ib|Ib]; auto. right. change (nd_name s' b = nd_name s' a). congruence.
  - rewrite D1. intros d Hd. now apply (keep_dm _ _ _ _ _ _ _ I S Mn).
  - rewrite D1. now apply (keep_dms _ _ _ _ _ _ I S).
  - rewrite D2. intros d Hd. now apply (keep_ls _ _ _ _ _ _ _ I S Mn).
  - rewrite D2. now apply (keep_lsps _ _ _ _ _ _ I S).
  - destruct (v_bare _ _ _ _ _ I) as (B1 & B2 & B3). unfold bare. rewrite D3, D4, D5. auto.
Qed.

(** ** Node lines *)
Lemma last_other {A K} (key : A -> K) l r x : last_with key l r -> key x <> key r -> last_with key (l ++ [x]) r.
Proof.
  intros (pre & post & -> & H) N. exists pre, (post ++ [x]). split; [now rewrite <- app_assoc|]. intros y Hy. apply in_app_or in Hy as [Hy|[<-|[]]]; auto.
Qed.
Lemma last_new {A K} (key : A -> K) l r : last_with key (l ++ [r]) r.
Proof. exists l, []. split; auto. Qed.

Lemma nd_line_none line s : nd_read py_int line = None -> exists s' e, load_node_line py_int line s = (s', Err e).
Proof.
  unfold nd_read, load_node_line. cbv zeta. intros H.
  assert (N0 : node_new (nth 0 (split_tab line) "") s = (put_nd (newnode (nth 0 (split_tab line) "")) s, Ok (s_next s))) by reflexivity.
  rewrite (bind_run _ _ _ _ _ N0), bind_reads. destruct (shortcut_flag _); [discriminate|]. eauto.
Qed.

Lemma placed_other nrs r s s' n : placed nrs s n -> h_nd s' n = h_nd s n -> nd_name s n <> nr_name r -> placed (nrs ++ [r]) s' n.
Proof.
  intros (p & P1 & P2) E N. exists p. unfold nd_is, nd_name in *. rewrite E. split; auto.
  destruct P2 as [P2|(-> & P2)]; [left|right; split; auto].
  - apply last_other; auto. intros C. apply N. rewrite C. apply P1.
  - intros x Hx. apply in_app_or in Hx as [Hx|[<-|[]]]; auto.
Qed.

Lemma nd_line_inv line r irs nrs drs lrs s : inv irs nrs drs lrs s -> nd_read py_int line = Some r ->
  exists s', load_node_line py_int line s = (s', Ok tt) /\ inv irs (nrs ++ [r]) drs lrs s'.
Proof.
  intros I R. unfold nd_read in R. unfold load_node_line. set (fs := split_tab line) in *. cbv zeta in *.
  destruct (shortcut_flag (nth_error fs 3)) as [sc|] eqn:F; [|discriminate]. injection R as <-.
  set (nm := nth 0 fs "") in *. rewrite !int_or_zero_num. set (lon := num0 py_int (nth_error fs 1)). set (lat := num0 py_int (nth_error fs 2)).
  set (row := mkNdRow nm lon lat sc).
  set (s0 := put_nd (newnode nm) s).
  assert (N0 : node_new nm s = (s0, Ok (s_next s))) by reflexivity. rewrite (bind_run _ _ _ _ _ N0), bind_reads, bind_gets.
  assert (S0 : stable s s0) by apply stable_put_nd.
  assert (M0 : m_nds s0 = m_nds s ++ []) by (rewrite app_nil_r; reflexivity).
  assert (E0 : forall n, In n (m_nds s) -> h_nd s0 n = h_nd s n) by (intros n Hn; apply fupd_lt; now apply (v_nd _ _ _ _ _ I)).
  assert (K0 : forall n, In n (m_nds s) -> nd_name s0 n = nd_name s n) by (intros n Hn; unfold nd_name; now rewrite E0).
  destruct (mem_str nm (node_names s0)) eqn:P.
  - apply mem_names in P as (m & Hm & Em). change (m_nds s0) with (m_nds s) in Hm.
    rewrite bind_reads. assert (G := get_node_spec s0 nm). destruct (get_node s0 nm) as [m'|e]; [|exfalso; now apply (proj2 G m)].
    destruct G as [G1 G2]. change (m_nds s0) with (m_nds s) in G1.
    set (s' := upd_nd m' (fun r => nd_shortcuts sc (nd_pos (inject_Z lat) (inject_Z lon) r)) s0). exists s'. split; [reflexivity|].
    assert (S : stable s s').
    { apply (stable_trans _ s0); auto. constructor; auto. intros x Hx. simpl. apply fupd_cases; intros; subst; auto. }
    assert (Mn : m_nds s' = m_nds s ++ []) by (rewrite app_nil_r; reflexivity).
    constructor.
    + intros j Hj. now apply (keep_if _ _ _ _ _ _ I S).
    + intros n Hn. now apply (keep_nd_lt _ _ _ _ _ _ I S).
    + apply (keep_ifs _ _ _ _ _ _ I S).
    + change (m_nds s') with (m_nds s). rewrite (map_ext_in (nd_name s') (nd_name s)); [apply I|]. intros n Hn. now apply (keep_name _ _ _ _ _ _ I S).
    + intros x. change (m_nds s') with (m_nds s). split.
      * intros (n & Hn & <-). rewrite (keep_name _ _ _ _ _ _ I S n Hn).
        destruct (proj1 (v_names _ _ _ _ _ I (nd_name s n)) (ex_intro _ n (conj Hn eq_refl))) as [X|(y & Hy & X)]; [left; auto|right].
        exists y. split; auto. apply in_or_app; auto.
      * intros X. assert (Y : mentioned irs nrs x \/ x = nm).
        { destruct X as [X|(y & Hy & X)]; [left; left; auto|]. apply in_app_or in Hy as [Hy|[<-|[]]]; [left; right; eauto|right; auto]. }
        destruct Y as [Y|Y]; [apply (v_names _ _ _ _ _ I) in Y as (n & N1 & N2); exists n; split; auto; now rewrite (keep_name _ _ _ _ _ _ I S n N1)|].
        exists m'. split; auto. rewrite (keep_name _ _ _ _ _ _ I S m' G1), <- K0, G2; auto.
    + change (m_nds s') with (m_nds s). intros n Hn. destruct (Nat.eq_dec n m') as [->|Ne].
      * exists row. split; [|left; apply last_new]. destruct (v_placed _ _ _ _ _ I m' G1) as (p & (_ & _ & _ & _ & Q1 & Q2) & _).
        assert (Hm' : h_nd s' m' = nd_shortcuts sc (nd_pos (inject_Z lat) (inject_Z lon) (h_nd s m'))).
        { rewrite <- (E0 m' G1). apply fupd_same. }
        rewrite K0 in G2 by auto. unfold nd_is, nd_name in *. rewrite Hm'. simpl. repeat split; auto.
      * apply (placed_other nrs row s); [now apply (v_placed _ _ _ _ _ I)| |].
        -- unfold s'. simpl. rewrite fupd_other by auto. now apply E0.
        -- intros C. apply Ne. apply (NoDup_map_inj (nd_name s) (m_nds s)); auto; [apply I|]. rewrite <- (K0 m'), G2 by auto. exact C.
    + intros j Hj. now apply (keep_refs _ _ _ _ _ _ _ I S Mn).
    + intros d Hd. now apply (keep_dm _ _ _ _ _ _ _ I S Mn).
    + now apply (keep_dms _ _ _ _ _ _ I S).
    + intros d Hd. now apply (keep_ls _ _ _ _ _ _ _ I S Mn).
    + now apply (keep_lsps _ _ _ _ _ _ I S).
    + apply I.
  - assert (P' : forall m, In m (m_nds s) -> nd_name s m <> nm).
    { intros m Hm C. assert (T : mem_str nm (node_names s0) = true); [|congruence]. apply mem_names. exists m. split; auto. now rewrite K0. }
    rewrite !bind_modify. unfold modify.
    set (s1 := upd_nd (s_next s) (nd_shortcuts sc) s0).
    assert (A1 : set_add_nd s1 (s_next s) (m_nds s1) = m_nds s ++ [s_next s]).
    { change (m_nds s1) with (m_nds s). apply set_add_nd_new. intros m Hm C. apply (P' m Hm).
      assert (X : nd_name s1 (s_next s) = nm) by (unfold nd_name, s1; simpl; rewrite !fupd_same; reflexivity). rewrite X in C. rewrite <- C.
      unfold nd_name, s1. simpl. assert (L := v_nd _ _ _ _ _ I m Hm). now rewrite !fupd_lt. }
    rewrite A1.
    set (s' := upd_nd (s_next s) (fun r => nd_shortcuts sc (nd_pos (inject_Z lat) (inject_Z lon) r)) (set_nds (m_nds s ++ [s_next s]) s1)).
    exists s'. split; [reflexivity|].
    assert (L' : forall x, (x < s_next s)%nat -> h_nd s' x = h_nd s x) by (intros x Hx; simpl; now rewrite !fupd_lt).
    assert (S : stable s s').
    { constructor; simpl; auto; try lia. intros x Hx. now rewrite !fupd_lt. }
    assert (Mn : m_nds s' = m_nds s ++ [s_next s]) by reflexivity.
    assert (Hnew : h_nd s' (s_next s) = mkNode nm false (inject_Z lat) (inject_Z lon) [] sc) by (simpl; rewrite !fupd_same; reflexivity).
    assert (Nnew : nd_name s' (s_next s) = nm) by (unfold nd_name; rewrite Hnew; auto).
    constructor.
    + intros j Hj. now apply (keep_if _ _ _ _ _ _ I S).
    + intros n. rewrite Mn, in_app_iff. intros [Hn|[<-|[]]]; [now apply (keep_nd_lt _ _ _ _ _ _ I S)|simpl; lia].
    + apply (keep_ifs _ _ _ _ _ _ I S).
    + rewrite Mn. apply names_snoc; [rewrite (map_ext_in (nd_name s') (nd_name s)); [apply I|]; intros n Hn; now apply (keep_name _ _ _ _ _ _ I S)|].
      intros m Hm. rewrite Nnew, (keep_name _ _ _ _ _ _ I S m Hm). auto.
    + intros x. rewrite Mn. split.
      * intros (n & Hn & <-). apply in_app_or in Hn as [Hn|[<-|[]]].
        -- rewrite (keep_name _ _ _ _ _ _ I S n Hn).
           destruct (proj1 (v_names _ _ _ _ _ I (nd_name s n)) (ex_intro _ n (conj Hn eq_refl))) as [X|(y & Hy & X)]; [left; auto|right].
           exists y. split; auto. apply in_or_app; auto.
        -- right. exists row. split; [apply in_or_app; right; left; auto|]. rewrite Nnew. reflexivity.
      * intros X. assert (Y : mentioned irs nrs x \/ x = nm).
        { destruct X as [X|(y & Hy & X)]; [left; left; auto|]. apply in_app_or in Hy as [Hy|[<-|[]]]; [left; right; eauto|right; auto]. }
        destruct Y as [Y|Y].
        -- apply (v_names _ _ _ _ _ I) in Y as (n & N1 & N2). exists n. split; [apply in_or_app; auto|]. now rewrite (keep_name _ _ _ _ _ _ I S n N1).
        -- exists (s_next s). split; [apply in_or_app; right; left; auto|]. now rewrite Nnew.
    + intros n. rewrite Mn, in_app_iff. intros [Hn|[<-|[]]].
      * apply (placed_other nrs row s); [now apply (v_placed _ _ _ _ _ I)| |].
        -- apply L'. now apply (v_nd _ _ _ _ _ I).
        -- now apply P'.
      * exists row. split; [|left; apply last_new]. unfold nd_is. rewrite Nnew, Hnew. simpl. repeat split.
    + intros j Hj. now apply (keep_refs _ _ _ _ _ _ _ I S Mn).
    + intros d Hd. now apply (keep_dm _ _ _ _ _ _ _ I S Mn).
    + now apply (keep_dms _ _ _ _ _ _ I S).
    + intros d Hd. now apply (keep_ls _ _ _ _ _ _ _ I S Mn).
    + now apply (keep_lsps _ _ _ _ _ _ I S).
    + apply I.
Qed.

(** ** Demand and LSP lines *)
Lemma named_spec irs nrs drs lrs s x : inv irs nrs drs lrs s ->
  match get_node s x with
  | Ok n => In n (m_nds s) /\ nd_name s n = x /\ mentioned irs nrs x
  | Err _ => ~ mentioned irs nrs x
  end.
Proof.
  intros I. assert (G := get_node_spec s x). destruct (get_node s x) as [n|e].
  - destruct G as [G1 G2]. split; auto. split; auto. apply (v_names _ _ _ _ _ I). eauto.
  - intros M. apply (v_names _ _ _ _ _ I) in M as (n & N1 & N2). now apply (proj2 G n).
Qed.

Definition dm_ok irs nrs (line : string) (r : dm_row) : Prop :=
  dm_read py_int line = Some r /\ mentioned irs nrs (dr_src r) /\ mentioned irs nrs (dr_dst r).
Definition ls_ok irs nrs (line : string) (r : ls_row) : Prop :=
  ls_read py_int py_float line = Some r /\ mentioned irs nrs (lr_src r) /\ mentioned irs nrs (lr_dst r).

Lemma dm_line_run line irs nrs drs lrs s : inv irs nrs drs lrs s ->
  (exists s' r, load_demand_line py_int line s = (s', Ok tt) /\ dm_ok irs nrs line r /\ inv irs nrs (drs ++ [r]) lrs s') \/
  (exists s' e, load_demand_line py_int line s = (s', Err e) /\ forall r, ~ dm_ok irs nrs line r).
Proof.
  intros I. unfold load_demand_line, dm_ok, dm_read. set (fs := split_tab line). cbv zeta. unfold field, node_named.
  destruct (nth_error fs 0) as [a|] eqn:F0; cbn [lift_opt]; [rewrite bind_ret|right; eexists _, _; split; [reflexivity|intros r [X _]; discriminate X]].
  rewrite bind_reads. assert (Ga := named_spec _ _ _ _ s a I). destruct (get_node s a) as [na|e].
  2:{ right. eexists _, _. split; [reflexivity|]. intros r (X & Y & _). apply Ga. destruct (nth_error fs 1), (nth_error fs 2) as [t|], (nth_error fs 3); try discriminate.
      destruct (py_int t); [|discriminate]. destruct (0 <=? z)%Z; [|discriminate]. injection X as <-. exact Y. }
  destruct (nth_error fs 1) as [b|] eqn:F1; cbn [lift_opt]; [rewrite bind_ret|right; eexists _, _; split; [reflexivity|intros r [X _]; discriminate X]].
  rewrite bind_reads. assert (Gb := named_spec _ _ _ _ s b I). destruct (get_node s b) as [nb|e].
  2:{ right. eexists _, _. split; [reflexivity|]. intros r (X & _ & Y). apply Gb. destruct (nth_error fs 2) as [t|], (nth_error fs 3); try discriminate.
      destruct (py_int t); [|discriminate]. destruct (0 <=? z)%Z; [|discriminate]. injection X as <-. exact Y. }
  destruct (nth_error fs 2) as [t|] eqn:F2; cbn [lift_opt]; [rewrite bind_ret|right; eexists _, _; split; [reflexivity|intros r [X _]; discriminate X]].
  destruct (py_int t) as [z|] eqn:Pt; cbn [lift_opt]; [rewrite bind_ret|right; eexists _, _; split; [reflexivity|intros r [X _]; destruct (nth_error fs 3); discriminate X]].
  destruct (nth_error fs 3) as [nm|] eqn:F3; cbn [lift_opt]; [rewrite bind_ret|right; eexists _, _; split; [reflexivity|intros r [X _]; discriminate X]].
  unfold demand_new. assert (Ez : Qltb (inject_Z z) 0 = negb (0 <=? z)%Z).
  { destruct (Z.leb_spec 0 z); simpl; [apply Qltb_false; unfold Qle; simpl; lia|apply Qltb_true; unfold Qlt; simpl; lia]. }
  rewrite Ez. destruct (0 <=? z)%Z; cbn [negb]; [|right; eexists _, _; split; [reflexivity|intros r [X _]; discriminate X]].
  left. set (name := if String.eqb nm "" then "none" else nm). set (row := mkDmRow a b z name).
  destruct Ga as (Ga1 & Ga2 & Ga3), Gb as (Gb1 & Gb2 & Gb3).
  set (v := mkDemand na nb (inject_Z z) name DUnrouted PDInitial). set (s0 := put_dm v s).
  match goal with |- exists s' r, bind ?m ?f s = _ /\ _ => assert (N0 : m s = (s0, Ok (s_next s))) by reflexivity end.
  rewrite (bind_run _ _ _ _ _ N0), bind_gets.
  assert (S0 : stable s s0) by apply stable_put_dm.
  assert (Kd : forall d x, dm_is s d x -> dmd_key s d = dr_key x) by (intros d x (A & B & _ & C & _); unfold dmd_key, dr_key; congruence).
  assert (Kn : dmd_key s0 (s_next s) = dr_key row).
  { unfold dmd_key, dmd_from, dmd_to, s0, put_dm. simpl. rewrite fupd_same. simpl. unfold nd_name in *. rewrite Ga2, Gb2. reflexivity. }
  assert (D : existsb (fun d' => key3_eqb (dkey s0 d') (dkey s0 (s_next s))) (m_dms s0) = existsb (fun x => key3_eqb (dr_key x) (dr_key row)) (dfirsts drs)).
  { rewrite <- (Forall2_key (dm_is s) (dmd_key s) dr_key key3_eqb (dr_key row) _ _ Kd (v_dms _ _ _ _ _ I)).
    change (dkey s0 (s_next s)) with (dmd_key s0 (s_next s)). rewrite Kn. change (m_dms s0) with (m_dms s). apply existsb_ext_in. intros d Hd.
    change (dkey s0 d) with (dmd_key s0 d). f_equal. destruct (v_dm _ _ _ _ _ I d Hd) as (L & _). unfold dmd_key, dmd_from, dmd_to, s0, put_dm. simpl. now rewrite !fupd_lt. }
  rewrite D.
  set (dup := existsb (fun x => key3_eqb (dr_key x) (dr_key row)) (dfirsts drs)).
  set (s' := set_dms (if dup then m_dms s else m_dms s ++ [s_next s]) s0).
  exists s', row. split.
  { unfold s'. destruct dup; [destruct s0 eqn:Es; unfold s0 in Es; unfold put_dm in Es; injection Es; intros; subst; reflexivity|].
    unfold modify. f_equal. change (m_dms s0) with (m_dms s). rewrite set_add_ref_fresh; auto. intros C. apply (v_dm _ _ _ _ _ I) in C. lia. }
  split; [split; [reflexivity|auto]|].
  assert (S : stable s s') by (destruct S0; constructor; auto).
  assert (Mn : m_nds s' = m_nds s ++ []) by (rewrite app_nil_r; reflexivity).
  assert (Rn : dm_is s' (s_next s) row).
  { unfold dm_is, dmd_from, dmd_to, s', s0, put_dm. simpl. rewrite fupd_same. simpl. unfold nd_name in *. rewrite Ga2, Gb2. repeat split. }
  constructor.
  - intros j Hj. now apply (keep_if _ _ _ _ _ _ I S).
  - intros n Hn. now apply (keep_nd_lt _ _ _ _ _ _ I S).
  - apply (keep_ifs _ _ _ _ _ _ I S).
  - apply I.
  - apply I.
  - apply I.
  - intros j Hj. now apply (keep_refs _ _ _ _ _ _ _ I S Mn).
  - intros d Hd. assert (X : In d (m_dms s) \/ d = s_next s).
    { unfold s' in Hd. simpl in Hd. destruct dup; auto. apply in_app_or in Hd as [Hd|[<-|[]]]; auto. }
    destruct X as [X| ->]; [now apply (keep_dm _ _ _ _ _ _ _ I S Mn)|]. unfold s', s0, put_dm. simpl. rewrite fupd_same. simpl. split; [lia|auto].
  - rewrite firsts_snoc. unfold first_step. fold dup. unfold s' at 2. cbn [m_dms set_dms]. destruct dup; [apply (keep_dms _ _ _ _ _ _ I S)|].
    apply Forall2_app; [apply (keep_dms _ _ _ _ _ _ I S)|constructor; auto].
  - intros d Hd. now apply (keep_ls _ _ _ _ _ _ _ I S Mn).
  - now apply (keep_lsps _ _ _ _ _ _ I S).
  - apply I.
Qed.

Lemma ls_line_run line irs nrs drs lrs s : inv irs nrs drs lrs s ->
  (exists s' r, load_lsp_line py_int py_float line s = (s', Ok tt) /\ ls_ok irs nrs line r /\ inv irs nrs drs (lrs ++ [r]) s') \/
  (exists s' e, load_lsp_line py_int py_float line s = (s', Err e) /\ e <> ValueError /\ forall r, ~ ls_ok irs nrs line r).
Proof.
  intros I. unfold load_lsp_line, ls_ok, ls_read. set (fs := split_tab line). cbv zeta. unfold field, node_named.
  destruct (nth_error fs 0) as [a|] eqn:F0; cbn [lift_opt]; [rewrite bind_ret|right; eexists _, _; split; [reflexivity|split; [discriminate|intros r [X _]; discriminate X]]].
  rewrite bind_reads. assert (Ga := named_spec _ _ _ _ s a I). assert (Gx := get_node_spec s a). destruct (get_node s a) as [na|e].
  2:{ right. eexists _, _. split; [reflexivity|]. split; [intros ->; destruct Gx as [Gx _]; discriminate Gx|]. intros r (X & Y & _). apply Ga. destruct (nth_error fs 1), (nth_error fs 2) as [t|]; try discriminate.
      injection X as <-. exact Y. }
  destruct (nth_error fs 1) as [b|] eqn:F1; cbn [lift_opt]; [rewrite bind_ret|right; eexists _, _; split; [reflexivity|split; [discriminate|intros r [X _]; discriminate X]]].
  rewrite bind_reads. assert (Gb := named_spec _ _ _ _ s b I). assert (Gy := get_node_spec s b). destruct (get_node s b) as [nb|e].
  2:{ right. eexists _, _. split; [reflexivity|]. split; [intros ->; destruct Gy as [Gy _]; discriminate Gy|]. intros r (X & _ & Y). apply Gb. destruct (nth_error fs 2) as [t|]; try discriminate.
      injection X as <-. exact Y. }
  destruct (nth_error fs 2) as [nm|] eqn:F2; cbn [lift_opt]; [rewrite bind_ret|right; eexists _, _; split; [reflexivity|split; [discriminate|intros r [X _]; discriminate X]]].
  left.
  change (match nth_error fs 3 with Some t => py_float t | None => None end) with (readable py_float (nth_error fs 3)).
  change (match nth_error fs 4 with Some t => py_int t | None => None end) with (readable py_int (nth_error fs 4)).
  set (cfg := readable py_float (nth_error fs 3)). set (mm := readable py_int (nth_error fs 4)).
  set (row := mkLsRow a b nm cfg mm).
  destruct Ga as (Ga1 & Ga2 & Ga3), Gb as (Gb1 & Gb2 & Gb3).
  set (v := mkLsp na nb nm PInit RInit RInit cfg None mm). set (s0 := put_ls v s).
  assert (N0 : lsp_new na nb nm cfg mm s = (s0, Ok (s_next s))) by reflexivity.
  rewrite (bind_run _ _ _ _ _ N0), bind_gets.
  assert (S0 : stable s s0) by apply stable_put_ls.
  assert (Kd : forall d x, ls_is s d x -> lsp_key s d = lr_key x) by (intros d x (A & B & C & _); unfold lsp_key, lr_key; congruence).
  assert (Kn : lsp_key s0 (s_next s) = lr_key row).
  { unfold lsp_key, lsp_from, lsp_to, s0, put_ls. simpl. rewrite fupd_same. simpl. unfold nd_name in *. rewrite Ga2, Gb2. reflexivity. }
  assert (D : existsb (fun d' => key3_eqb (lkey s0 d') (lkey s0 (s_next s))) (m_lsps s0) = existsb (fun x => key3_eqb (lr_key x) (lr_key row)) (lfirsts lrs)).
  { rewrite <- (Forall2_key (ls_is s) (lsp_key s) lr_key key3_eqb (lr_key row) _ _ Kd (v_lsps _ _ _ _ _ I)).
    change (lkey s0 (s_next s)) with (lsp_key s0 (s_next s)). rewrite Kn. change (m_lsps s0) with (m_lsps s). apply existsb_ext_in. intros d Hd.
    change (lkey s0 d) with (lsp_key s0 d). f_equal. destruct (v_ls _ _ _ _ _ I d Hd) as (L & _). unfold lsp_key, lsp_from, lsp_to, s0, put_ls. simpl. now rewrite !fupd_lt. }
  rewrite D.
  set (dup := existsb (fun x => key3_eqb (lr_key x) (lr_key row)) (lfirsts lrs)).
  set (s' := set_lsps (if dup then m_lsps s else m_lsps s ++ [s_next s]) s0).
  exists s', row. split.
  { unfold s'. destruct dup; [destruct s0 eqn:Es; unfold s0 in Es; unfold put_ls in Es; injection Es; intros; subst; reflexivity|].
    unfold modify. f_equal. change (m_lsps s0) with (m_lsps s). rewrite set_add_ref_fresh; auto. intros C. apply (v_ls _ _ _ _ _ I) in C. lia. }
  split; [split; [reflexivity|auto]|].
  assert (S : stable s s') by (destruct S0; constructor; auto).
  assert (Mn : m_nds s' = m_nds s ++ []) by (rewrite app_nil_r; reflexivity).
  assert (Rn : ls_is s' (s_next s) row).
  { unfold ls_is, lsp_from, lsp_to, s', s0, put_ls. simpl. rewrite fupd_same. simpl. unfold nd_name in *. rewrite Ga2, Gb2. repeat split. }
  constructor.
  - intros j Hj. now apply (keep_if _ _ _ _ _ _ I S).
  - intros n Hn. now apply (keep_nd_lt _ _ _ _ _ _ I S).
  - apply (keep_ifs _ _ _ _ _ _ I S).
  - apply I.
  - apply I.
  - apply I.
  - intros j Hj. now apply (keep_refs _ _ _ _ _ _ _ I S Mn).
  - intros d Hd. now apply (keep_dm _ _ _ _ _ _ _ I S Mn).
  - now apply (keep_dms _ _ _ _ _ _ I S).
  - intros d Hd. assert (X : In d (m_lsps s) \/ d = s_next s).
    { unfold s' in Hd. simpl in Hd. destruct dup; auto. apply in_app_or in Hd as [Hd|[<-|[]]]; auto. }
    destruct X as [X| ->]; [now apply (keep_ls _ _ _ _ _ _ _ I S Mn)|]. unfold s', s0, put_ls. simpl. rewrite fupd_same. simpl. split; [lia|auto].
  - rewrite firsts_snoc. unfold first_step. fold dup. unfold s' at 2. cbn [m_lsps set_lsps]. destruct dup; [apply (keep_lsps _ _ _ _ _ _ I S)|].
    apply Forall2_app; [apply (keep_lsps _ _ _ _ _ _ I S)|constructor; auto].
  - apply I.
Qed.

(** ** Loops *)
Lemma loop {R} (body : string -> M unit) (ok : string -> R -> Prop) (J : list R -> st -> Prop) (P : pyexn -> Prop) :
  (forall line rows s, J rows s ->
     (exists s' r, body line s = (s', Ok tt) /\ ok line r /\ J (rows ++ [r]) s') \/
     (exists s' e, body line s = (s', Err e) /\ P e /\ forall r, ~ ok line r)) ->
  forall lines rows s, J rows s ->
    (exists s' rs, mfor lines body s = (s', Ok tt) /\ Forall2 ok lines rs /\ J (rows ++ rs) s') \/
    (exists s' e, mfor lines body s = (s', Err e) /\ P e /\ forall rs, ~ Forall2 ok lines rs).
Proof.
  intros Hb lines. induction lines as [|line lines IH]; intros rows s Hs.
  - left. exists s, []. rewrite app_nil_r. repeat split; auto; constructor.
  - simpl. destruct (Hb line rows s Hs) as [(s1 & r & H1 & O1 & J1)|(s1 & e & H1 & P1 & N1)].
    + rewrite (bind_run _ _ _ _ _ H1). destruct (IH (rows ++ [r]) s1 J1) as [(s' & rs & H2 & F & J2)|(s' & e & H2 & PE & N)].
      * left. exists s', (r :: rs). split; auto. split; [constructor; auto|]. now rewrite <- app_assoc in J2.
      * right. exists s', e. split; auto. split; auto. intros rs F. inversion F; subst. eapply N; eauto.
    + right. exists s1, e. unfold bind. rewrite H1. split; auto. split; auto. intros rs F. inversion F; subst. eapply N1; eauto.
Qed.

Notation iok := (if_row_of k py_int py_float).
Notation nok := (nd_row_of py_int).

Lemma if_loop lines : (exists s' irs, mfor lines (load_if_line k py_int py_float) init_st = (s', Ok tt) /\ Forall2 iok lines irs /\ inv irs [] [] [] s') \/
  (exists s' e, mfor lines (load_if_line k py_int py_float) init_st = (s', Err e) /\ True /\ forall rs, ~ Forall2 iok lines rs).
Proof.
  apply (loop _ iok (fun rows s => inv rows [] [] [] s) (fun _ => True)) with (rows := []); [|apply inv_init].
  intros line rows s I. destruct (if_read k py_int py_float line) as [r|] eqn:R.
  - left. destruct (if_line_inv line r rows [] [] s I R) as (s' & H & I'). exists s', r. split; auto. split; auto. now apply if_read_iff.
  - right. destruct (if_line_none k py_int py_float line s R) as (s' & e & H). exists s', e. split; auto. split; auto. intros r X. apply if_read_iff in X. congruence.
Qed.
Lemma nd_loop lines irs s : inv irs [] [] [] s ->
  (exists s' nrs, mfor lines (load_node_line py_int) s = (s', Ok tt) /\ Forall2 nok lines nrs /\ inv irs nrs [] [] s') \/
  (exists s' e, mfor lines (load_node_line py_int) s = (s', Err e) /\ True /\ forall rs, ~ Forall2 nok lines rs).
Proof.
  intros I0. apply (loop _ nok (fun rows s => inv irs rows [] [] s) (fun _ => True)) with (rows := []); [|apply I0].
  intros line rows s1 I. destruct (nd_read py_int line) as [r|] eqn:R.
  - left. destruct (nd_line_inv line r irs rows [] [] s1 I R) as (s' & H & I'). exists s', r. split; auto. split; auto. now apply nd_read_iff.
  - right. destruct (nd_line_none line s1 R) as (s' & e & H). exists s', e. split; auto. split; auto. intros r X. apply nd_read_iff in X. congruence.
Qed.
Lemma dm_loop lines irs nrs s : inv irs nrs [] [] s ->
  (exists s' drs, mfor lines (load_demand_line py_int) s = (s', Ok tt) /\ Forall2 (dm_ok irs nrs) lines drs /\ inv irs nrs drs [] s') \/
  (exists s' e, mfor lines (load_demand_line py_int) s = (s', Err e) /\ True /\ forall rs, ~ Forall2 (dm_ok irs nrs) lines rs).
Proof.
  intros I0. apply (loop _ (dm_ok irs nrs) (fun rows s => inv irs nrs rows [] s) (fun _ => True)) with (rows := []); [|apply I0].
  intros line rows s1 I. destruct (dm_line_run line _ _ _ _ _ I) as [X|(s' & e & H & X)]; [left; auto|right; eauto 6].
Qed.
Lemma ls_loop lines irs nrs drs s : inv irs nrs drs [] s ->
  (exists s' lrs, mfor lines (load_lsp_line py_int py_float) s = (s', Ok tt) /\ Forall2 (ls_ok irs nrs) lines lrs /\ inv irs nrs drs lrs s') \/
  (exists s' e, mfor lines (load_lsp_line py_int py_float) s = (s', Err e) /\ e <> ValueError /\ forall rs, ~ Forall2 (ls_ok irs nrs) lines rs).
Proof.
  intros I0. apply (loop _ (ls_ok irs nrs) (fun rows s => inv irs nrs drs rows s) (fun e => e <> ValueError)) with (rows := []); [|apply I0].
  intros line rows s1 I. exact (ls_line_run line _ _ _ _ _ I).
Qed.

(** ** Circuit ids *)
Lemma filter_head {A} (p : A -> bool) l x rest : filter p l = x :: rest ->
  exists a l', l = a ++ x :: l' /\ p x = true /\ (forall y, In y a -> p y = false) /\ filter p l' = rest.
Proof.
  induction l as [|y l IH]; simpl; [discriminate|]. destruct (p y) eqn:E.
  - intros H. injection H as -> <-. exists [], l. repeat split; auto. intros z [].
  - intros H. destruct (IH H) as (a & l' & -> & X & N & F). exists (y :: a), l'. repeat split; auto. intros z [<-|Hz]; auto.
Qed.
Lemma filter_nothing {A} (p : A -> bool) l : (forall y, In y l -> p y = false) -> filter p l = [].
Proof. induction l as [|y l IH]; simpl; intros H; auto. rewrite (H y) by auto. apply IH. intros z Hz. apply H. auto. Qed.
Lemma filter_nothing_inv {A} (p : A -> bool) l y : filter p l = [] -> In y l -> p y = false.
Proof. intros F Hy. destruct (p y) eqn:E; auto. exfalso. assert (In y (filter p l)) by (apply filter_In; auto). rewrite F in *. auto. Qed.
Lemma filter_two {A} (p : A -> bool) l : List.length (filter p l) = 2%nat <->
  exists a x b y c, l = a ++ x :: b ++ y :: c /\ p x = true /\ p y = true /\ forall z, In z (a ++ b ++ c) -> p z = false.
Proof.
  split.
  - intros H. destruct (filter p l) as [|x [|y [|? ?]]] eqn:F; try discriminate. clear H.
    apply filter_head in F as (a & l' & -> & X & Na & F). apply filter_head in F as (b & c & -> & Y & Nb & F).
    exists a, x, b, y, c. repeat split; auto. intros z. rewrite !in_app_iff. intros [Z|[Z|Z]]; auto. now apply (filter_nothing_inv p c).
  - intros (a & x & b & y & c & -> & X & Y & N). rewrite filter_app. simpl. rewrite X, filter_app. simpl. rewrite Y.
    rewrite !filter_nothing; auto; intros z Hz; apply N; rewrite !in_app_iff; auto.
Qed.

Definition cid_is (c : string) (r : if_row) : bool := match ir_cid r with CStr x => String.eqb c x | _ => false end.
Lemma cids_of_rows lines irs : k = Flex -> Forall2 iok lines irs ->
  (forall c, List.length (filter (String.eqb c) (circuit_ids_of lines)) = List.length (filter (cid_is c) irs)) /\
  (forall c, In c (circuit_ids_of lines) <-> exists r, In r irs /\ ir_cid r = CStr c) /\
  (forall r, In r irs -> exists c, ir_cid r = CStr c).
Proof.
  intros Hk F. induction F as [|line r lines irs Hr F IH].
  - simpl. split; auto. split; [|intros r []]. intros c; split; [intros []|intros (r & [] & _)].
  - destruct IH as (IH1 & IH2 & IH3). destruct Hr as (cost & cap & fs & _ & _ & _ & _ & _ & Hr). rewrite Hk in Hr. destruct Hr as (c0 & C0 & T).
    apply tsv_split in T. unfold circuit_ids_of. simpl flat_map. rewrite T. simpl nth_error. cbv iota. fold (circuit_ids_of lines).
    split; [|split].
    + intros c. cbn [app filter]. unfold cid_is at 1. rewrite C0. destruct (String.eqb c c0); simpl; now rewrite IH1.
    + intros c. cbn [app]. simpl. rewrite IH2. split.
      * intros [<-|(x & Hx & E)]; [exists r; auto|exists x; auto].
      * intros (x & [<-|Hx] & E); [left; congruence|right; eauto].
    + intros x [<-|Hx]; eauto.
Qed.
Definition twice (irs : list if_row) : Prop := forall r, In r irs ->
    exists a r1 b r2 c, irs = a ++ r1 :: b ++ r2 :: c /\ ir_cid r1 = ir_cid r /\ ir_cid r2 = ir_cid r /\
      forall x, In x (a ++ b ++ c) -> ir_cid x <> ir_cid r.
Lemma cid_is_true c r : cid_is c r = true <-> ir_cid r = CStr c.
Proof.
  unfold cid_is. destruct (ir_cid r) as [|x|x]; try (split; discriminate). rewrite String.eqb_eq. split; congruence.
Qed.
Lemma circuit_ids_spec lines irs : k = Flex -> Forall2 iok lines irs -> circuit_ids_ok lines = true <-> twice irs.
Proof.
  intros Hk F. destruct (cids_of_rows lines irs Hk F) as (H1 & H2 & H3). unfold circuit_ids_ok. rewrite forallb_forall. split.
  - intros H r Hr. destruct (H3 r Hr) as (c & C). assert (X : In c (circuit_ids_of lines)) by (apply H2; eauto).
    specialize (H c X). apply Nat.eqb_eq in H. unfold count_str in H. rewrite H1 in H.
    apply filter_two in H as (a & x & b & y & d & E & X1 & Y1 & N). exists a, x, b, y, d. rewrite C. split; auto.
    split; [now apply cid_is_true|]. split; [now apply cid_is_true|]. intros z Hz Z. apply cid_is_true in Z. rewrite (N z Hz) in Z. discriminate.
  - intros H c Hc. apply H2 in Hc as (r & Hr & C). apply Nat.eqb_eq. unfold count_str. rewrite H1. apply filter_two.
    destruct (H r Hr) as (a & x & b & y & d & E & X1 & Y1 & N). rewrite C in *. exists a, x, b, y, d. split; auto. split; [now apply cid_is_true|].
    split; [now apply cid_is_true|]. intros z Hz. destruct (cid_is c z) eqn:Z; auto. apply cid_is_true in Z. exfalso. now apply (N z).
Qed.

(** ** The whole file *)
Lemma Forall2_det {A B} (P : A -> B -> Prop) : (forall a b b', P a b -> P a b' -> b = b') -> forall l r r', Forall2 P l r -> Forall2 P l r' -> r = r'.
Proof.
  intros D l r r' F. revert r'. induction F as [|a b l r X F IH]; intros r' F'; inversion F' as [|? b' ? r'' X' F'']; subst; auto.
  f_equal; [eapply D; eauto|auto].
Qed.
Lemma Forall2_in_r {A B} (P : A -> B -> Prop) l r y : Forall2 P l r -> In y r -> exists x, In x l /\ P x y.
Proof. intros F. induction F as [|a b l r X F IH]; [intros []|]. intros [<-|H]; [exists a; split; auto; left; auto|]. destruct (IH H) as (x & H1 & H2). exists x. split; auto. right; auto. Qed.
Lemma Forall2_in_l {A B} (P : A -> B -> Prop) l r x : Forall2 P l r -> In x l -> exists y, In y r /\ P x y.
Proof. intros F. induction F as [|a b l r X F IH]; [intros []|]. intros [<-|H]; [exists b; split; auto; left; auto|]. destruct (IH H) as (y & H1 & H2). exists y. split; auto. right; auto. Qed.
Lemma Forall2_and {A B} (P : A -> B -> Prop) (Q : B -> Prop) l r : Forall2 (fun a b => P a b /\ Q b) l r <-> Forall2 P l r /\ forall b, In b r -> Q b.
Proof.
  split.
  - intros F. induction F as [|a b l r X F [IH1 IH2]]; [split; [constructor|intros b []]|]. destruct X. split; [constructor; auto|]. intros c [<-|Hc]; auto.
  - intros [F H]. induction F as [|a b l r X F IH]; [constructor|]. constructor; [split; auto; apply H; left; auto|]. apply IH. intros c Hc. apply H. right; auto.
Qed.
Lemma Forall2_iff {A B} (P Q : A -> B -> Prop) l r : (forall a b, P a b <-> Q a b) -> Forall2 P l r -> Forall2 Q l r.
Proof. intros H F. induction F as [|a b l r X F IH]; constructor; auto. now apply H. Qed.

Lemma iok_det a b b' : iok a b -> iok a b' -> b = b'.
Proof. intros H H'. apply if_read_iff in H, H'. congruence. Qed.
Lemma nok_det a b b' : nok a b -> nok a b' -> b = b'.
Proof. intros H H'. apply nd_read_iff in H, H'. congruence. Qed.

Lemma dm_ok_iff irs nrs l rs : Forall2 (dm_ok irs nrs) l rs <->
  Forall2 (dm_row_of py_int) l rs /\ forall r, In r rs -> mentioned irs nrs (dr_src r) /\ mentioned irs nrs (dr_dst r).
Proof.
  rewrite <- (Forall2_and (dm_row_of py_int) (fun r => mentioned irs nrs (dr_src r) /\ mentioned irs nrs (dr_dst r))).
  split; apply Forall2_iff; intros a b; unfold dm_ok; rewrite dm_read_iff; tauto.
Qed.
Lemma ls_ok_iff irs nrs l rs : Forall2 (ls_ok irs nrs) l rs <->
  Forall2 (ls_row_of py_int py_float) l rs /\ forall r, In r rs -> mentioned irs nrs (lr_src r) /\ mentioned irs nrs (lr_dst r).
Proof.
  rewrite <- (Forall2_and (ls_row_of py_int py_float) (fun r => mentioned irs nrs (lr_src r) /\ mentioned irs nrs (lr_dst r))).
  split; apply Forall2_iff; intros a b; unfold ls_ok; rewrite ls_read_iff; tauto.
Qed.

Notation saysk := (says k py_int py_float).
Lemma load_spec lines :
  (exists s irs nrs drs lrs, load_model_file k py_int py_float lines = Ok s /\ saysk lines irs nrs drs lrs /\ inv irs nrs drs lrs s) \/
  (exists e, load_model_file k py_int py_float lines = Err e /\ forall irs nrs drs lrs, ~ saysk lines irs nrs drs lrs).
Proof.
  unfold load_model_file, load. rewrite bind_reads.
  assert (T1 := table_spec "INTERFACES_TABLE" lines). destruct (table "INTERFACES_TABLE" lines) as [iflines|e].
  2:{ right. eexists. split; [reflexivity|]. intros irs nrs drs lrs X. destruct (sy_ifs _ _ _ _ _ _ _ _ X) as (l & (rest & (pre & more & -> & _) & _) & _).
      apply (proj2 T1). apply in_or_app; right; left; auto. }
  destruct (if_loop iflines) as [(s1 & irs & H1 & F1 & I1)|(s1 & e & H1 & _ & N1)].
  2:{ right. assert (NS : forall irs nrs drs lrs, ~ saysk lines irs nrs drs lrs).
      { intros irs nrs drs lrs X. destruct (sy_ifs _ _ _ _ _ _ _ _ X) as (l & T & F). apply in_table_table in T, T1. rewrite T1 in T. injection T as <-. eapply N1; eauto. }
      assert (E : exists s' e', (mfor iflines (load_if_line k py_int py_float) ;;; (ndlines <- reads (fun _ => table "NODES_TABLE" lines) ;;
        mfor ndlines (load_node_line py_int) ;;; dmlines <- reads (fun _ => table "DEMANDS_TABLE" lines) ;; mfor dmlines (load_demand_line py_int) ;;;
        match line_index "RSVP_LSP_TABLE" lines with None => ret tt | Some i => try (mfor (skipn (i + 2) lines) (load_lsp_line py_int py_float))
          (fun e => match e with ValueError => Some (ret tt) | _ => None end) end)) init_st = (s', Err e')).
      { exists s1, e. unfold bind at 1. rewrite H1. reflexivity. }
      destruct E as (s' & e' & E). destruct (k) eqn:Hk; [destruct (circuit_ids_ok iflines)|]; try rewrite bind_ret; try (rewrite E; eauto).
      eexists; split; [reflexivity|auto]. }
  assert (D1 : forall irs' nrs drs lrs, saysk lines irs' nrs drs lrs -> irs' = irs).
  { intros irs' nrs drs lrs X. destruct (sy_ifs _ _ _ _ _ _ _ _ X) as (l & T & F). apply in_table_table in T. assert (T1' := in_table_table _ _ _ T1). rewrite T1' in T. injection T as <-.
    symmetry. revert F1 F. apply Forall2_det. apply iok_det. }
  assert (C : (k = Flex -> twice irs) /\ (match k with Flex => if circuit_ids_ok iflines then ret tt else raise (ModelException "Each circuit_id value must appear exactly twice") | Perf => ret tt end) = ret tt \/
              (exists e, (match k with Flex => if circuit_ids_ok iflines then ret tt else raise (ModelException "Each circuit_id value must appear exactly twice") | Perf => ret tt end) = raise e) /\ k = Flex /\ ~ twice irs).
  { destruct (kind_dec k) as [Hk|Hk].
    - assert (S := circuit_ids_spec iflines irs Hk F1). rewrite Hk. destruct (circuit_ids_ok iflines); [left; split; auto; intros _; now apply S|right].
      split; [eauto|]. split; auto. intros X. apply S in X. discriminate.
    - left. rewrite Hk. split; [discriminate|reflexivity]. }
  destruct C as [(C1 & C2)|((e & C2) & C3 & C4)].
  2:{ right. rewrite C2. eexists. split; [reflexivity|]. intros irs' nrs drs lrs X. assert (E := D1 _ _ _ _ X). subst irs'. apply C4. intros r Hr. exact (sy_twice _ _ _ _ _ _ _ _ X C3 r Hr). }
  rewrite C2, bind_ret, (bind_run _ _ _ _ _ H1), bind_reads.
  assert (T2 := table_spec "NODES_TABLE" lines). destruct (table "NODES_TABLE" lines) as [ndlines|e].
  2:{ right. eexists. split; [reflexivity|]. intros irs' nrs drs lrs X. destruct (sy_nds _ _ _ _ _ _ _ _ X) as (l & (rest & (pre & more & -> & _) & _) & _).
      apply (proj2 T2). apply in_or_app; right; left; auto. }
  destruct (nd_loop ndlines irs s1 I1) as [(s2 & nrs & H2 & F2 & I2)|(s2 & e & H2 & _ & N2)].
  2:{ right. unfold bind at 1. rewrite H2. eexists. split; [reflexivity|]. intros irs' nrs drs lrs X. destruct (sy_nds _ _ _ _ _ _ _ _ X) as (l & T & F).
      apply in_table_table in T, T2. rewrite T2 in T. injection T as <-. eapply N2; eauto. }
  assert (D2 : forall irs' nrs' drs lrs, saysk lines irs' nrs' drs lrs -> nrs' = nrs).
  { intros irs' nrs' drs lrs X. destruct (sy_nds _ _ _ _ _ _ _ _ X) as (l & T & F). apply in_table_table in T. assert (T2' := in_table_table _ _ _ T2). rewrite T2' in T. injection T as <-.
    symmetry. revert F2 F. apply Forall2_det. apply nok_det. }
  rewrite (bind_run _ _ _ _ _ H2), bind_reads.
  assert (T3 := table_spec "DEMANDS_TABLE" lines). destruct (table "DEMANDS_TABLE" lines) as [dmlines|e].
  2:{ right. eexists. split; [reflexivity|]. intros irs' nrs' drs lrs X. destruct (sy_dms _ _ _ _ _ _ _ _ X) as (l & (rest & (pre & more & -> & _) & _) & _).
      apply (proj2 T3). apply in_or_app; right; left; auto. }
  destruct (dm_loop dmlines irs nrs s2 I2) as [(s3 & drs & H3 & F3 & I3)|(s3 & e & H3 & _ & N3)].
  2:{ right. unfold bind at 1. rewrite H3. eexists. split; [reflexivity|]. intros irs' nrs' drs lrs X.
      assert (E1 := D1 _ _ _ _ X). assert (E2 := D2 _ _ _ _ X). subst irs' nrs'. destruct (sy_dms _ _ _ _ _ _ _ _ X) as (l & T & F).
      apply in_table_table in T, T3. rewrite T3 in T. injection T as <-. apply (N3 drs). apply dm_ok_iff. split; auto. apply X. }
  rewrite (bind_run _ _ _ _ _ H3). apply dm_ok_iff in F3 as [F3 K3].
  destruct (line_index "RSVP_LSP_TABLE" lines) as [ix|] eqn:L.
  2:{ left. exists s3, irs, nrs, drs, []. split; [reflexivity|]. split; auto. apply line_index_none in L. constructor; eauto. intros r []. }
  assert (B : below "RSVP_LSP_TABLE" lines (skipn (ix + 2) lines)) by (apply below_iff; eauto).
  unfold try. destruct (ls_loop (skipn (ix + 2) lines) irs nrs drs s3 I3) as [(s4 & lrs & H4 & F4 & I4)|(s4 & e & H4 & PE & N4)].
  - left. rewrite H4. apply ls_ok_iff in F4 as [F4 K4]. exists s4, irs, nrs, drs, lrs. split; [reflexivity|]. split; auto. constructor; eauto.
  - right. rewrite H4. exists e. split; [destruct e; try reflexivity; congruence|]. intros irs' nrs' drs' lrs X.
    assert (E1 := D1 _ _ _ _ X). assert (E2 := D2 _ _ _ _ X). subst irs' nrs'. destruct (sy_ls _ _ _ _ _ _ _ _ X) as [(NI & _)|(l & Bl & F)].
    + apply line_index_none in NI. congruence.
    + apply below_iff in Bl as (ix' & L' & ->). assert (ix' = ix) by congruence. subst ix'. apply (N4 lrs). apply ls_ok_iff. split; auto. apply X.
Qed.

Lemma Forall2_map_eq {A B K} (P : A -> B -> Prop) (f : A -> K) (g : B -> K) l l' : (forall a b, P a b -> f a = g b) -> Forall2 P l l' -> map f l = map g l'.
Proof. intros H F. induction F as [|a b l l' X F IH]; simpl; auto. now rewrite (H a b X), IH. Qed.

Lemma key2_iff a b : key2_eqb a b = true <-> a = b. Proof. apply key2_eqb_eq. Qed.
Lemma key3_iff a b : key3_eqb a b = true <-> a = b. Proof. apply key3_eqb_eq. Qed.

Lemma inv_described irs nrs drs lrs s : inv irs nrs drs lrs s -> described s irs nrs drs lrs.
Proof.
  intros I. destruct (v_bare _ _ _ _ _ I) as (B1 & B2 & B3). constructor.
  - split; [|split; [apply I|split; [|split]]].
    + rewrite (Forall2_map_eq (if_is s) (if_key s) ir_key _ (ifirsts irs)); [apply firsts_nodup; apply key2_iff| |apply I].
      intros j x (A & _ & _ & B & _); unfold if_key, ir_key; congruence.
    + rewrite (Forall2_map_eq (dm_is s) (dmd_key s) dr_key _ (dfirsts drs)); [apply firsts_nodup; apply key3_iff| |apply I].
      intros d x (A & B & _ & C & _); unfold dmd_key, dr_key; congruence.
    + rewrite (Forall2_map_eq (ls_is s) (lsp_key s) lr_key _ (lfirsts lrs)); [apply firsts_nodup; apply key3_iff| |apply I].
      intros d x (A & B & C & _); unfold lsp_key, lr_key; congruence.
    + rewrite B1. constructor.
  - intros i Hi. destruct (Forall2_in_l _ _ _ _ (v_ifs _ _ _ _ _ I) Hi) as (r & Hr & X). exists r. split; auto. now apply (firsts_In ir_key key2_eqb key2_iff).
  - intros r Hr. apply (firsts_In ir_key key2_eqb key2_iff) in Hr. apply (Forall2_in_r _ _ _ _ (v_ifs _ _ _ _ _ I) Hr).
  - intros n Hn. split; [apply (v_names _ _ _ _ _ I); eauto|now apply (v_placed _ _ _ _ _ I)].
  - intros x Hx. now apply (v_names _ _ _ _ _ I).
  - intros d Hd. destruct (Forall2_in_l _ _ _ _ (v_dms _ _ _ _ _ I) Hd) as (r & Hr & X). exists r. split; auto. now apply (firsts_In dr_key key3_eqb key3_iff).
  - intros r Hr. apply (firsts_In dr_key key3_eqb key3_iff) in Hr. apply (Forall2_in_r _ _ _ _ (v_dms _ _ _ _ _ I) Hr).
  - intros d Hd. destruct (Forall2_in_l _ _ _ _ (v_lsps _ _ _ _ _ I) Hd) as (r & Hr & X). exists r. split; auto. now apply (firsts_In lr_key key3_eqb key3_iff).
  - intros r Hr. apply (firsts_In lr_key key3_eqb key3_iff) in Hr. apply (Forall2_in_r _ _ _ _ (v_lsps _ _ _ _ _ I) Hr).
  - split; [apply I|split]; intros d Hd; [apply (v_dm _ _ _ _ _ I d Hd)|apply (v_ls _ _ _ _ _ I d Hd)].
  - auto.
Qed.

Lemma load_ok lines s : load_model_file k py_int py_float lines = Ok s ->
  exists irs nrs drs lrs, saysk lines irs nrs drs lrs /\ described s irs nrs drs lrs.
Proof.
  intros H. destruct (load_spec lines) as [(s' & irs & nrs & drs & lrs & H' & X & I)|(e & H' & _)]; [|congruence].
  assert (s' = s) by congruence. subst s'. exists irs, nrs, drs, lrs. split; auto. now apply inv_described.
Qed.
Lemma load_accepts lines irs nrs drs lrs : saysk lines irs nrs drs lrs -> exists s, load_model_file k py_int py_float lines = Ok s.
Proof.
  intros X. destruct (load_spec lines) as [(s' & a & b & c & d & H & _)|(e & _ & N)]; [eauto|]. exfalso. eapply N; eauto.
Qed.
Lemma says_det lines irs nrs drs lrs irs' nrs' drs' lrs' : saysk lines irs nrs drs lrs -> saysk lines irs' nrs' drs' lrs' ->
  irs = irs' /\ nrs = nrs' /\ drs = drs' /\ lrs = lrs'.
Proof.
  intros X Y. split; [|split; [|split]].
  - destruct (sy_ifs _ _ _ _ _ _ _ _ X) as (l & T & F), (sy_ifs _ _ _ _ _ _ _ _ Y) as (l' & T' & F'). apply in_table_table in T, T'. rewrite T in T'. injection T' as <-.
    revert F F'. apply Forall2_det. apply iok_det.
  - destruct (sy_nds _ _ _ _ _ _ _ _ X) as (l & T & F), (sy_nds _ _ _ _ _ _ _ _ Y) as (l' & T' & F'). apply in_table_table in T, T'. rewrite T in T'. injection T' as <-.
    revert F F'. apply Forall2_det. apply nok_det.
  - destruct (sy_dms _ _ _ _ _ _ _ _ X) as (l & T & F), (sy_dms _ _ _ _ _ _ _ _ Y) as (l' & T' & F'). apply in_table_table in T, T'. rewrite T in T'. injection T' as <-.
    revert F F'. apply Forall2_det. intros a b b' A A'. apply dm_read_iff in A, A'. congruence.
  - destruct (sy_ls _ _ _ _ _ _ _ _ X) as [(N & ->)|(l & T & F)], (sy_ls _ _ _ _ _ _ _ _ Y) as [(N' & ->)|(l' & T' & F')]; auto.
    + destruct T' as (pre & more & -> & _). exfalso. apply N. apply in_or_app; right; left; auto.
    + destruct T as (pre & more & -> & _). exfalso. apply N'. apply in_or_app; right; left; auto.
    + apply below_iff in T as (i & Li & ->), T' as (i' & Li' & ->). assert (i = i') by congruence. subst i'.
      revert F F'. apply Forall2_det. intros a b b' A A'. apply ls_read_iff in A, A'. congruence.
Qed.
End Load.
