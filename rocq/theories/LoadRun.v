(** LoadRun.v - what the loops of load_model_file build. *)
From Verif Require Import Base Graph Objects Sim Api Loader Spec SpecLoad GraphProofs MonadProofs RoundProofs Frames ApiFrames ObjProofs AddProofs PathProofs LoadProofs.

Lemma firsts_nodup {A K} (key : A -> K) eqb (He : forall a b, eqb a b = true <-> a = b) l : NoDup (map key (firsts key eqb l)).
Proof.
  induction l as [|r l IH] using rev_ind; [constructor|]. rewrite firsts_snoc. unfold first_step. destruct (existsb _ _) eqn:X; auto.
  rewrite map_app. apply NoDup_app_disj; auto; [repeat constructor; auto|]. intros y Hy [<-|[]]. simpl in *.
  apply in_map_iff in Hy as (z & Z1 & Z2). assert (T : existsb (fun x => eqb (key x) (key r)) (firsts key eqb l) = true); [|congruence].
  apply (step_true key eqb He). exists z. auto.
Qed.

Lemma existsb_ext_in {A} (f g : A -> bool) l : (forall x, In x l -> f x = g x) -> existsb f l = existsb g l.
Proof. induction l as [|x l IH]; simpl; intros H; auto. rewrite (H x), IH; auto. Qed.
Lemma existsb_none {A} (f : A -> bool) l : (forall x, In x l -> f x = false) -> existsb f l = false.
Proof. induction l as [|x l IH]; simpl; intros H; auto. rewrite (H x), IH; auto. Qed.

Definition newnode (name : string) : node := mkNode name false 0 0 [] false.

(** Objects that exist are not touched, except for attributes of nodes. *)
Record stable (s s' : st) : Prop := {
  sb_next : (s_next s <= s_next s')%nat;
  sb_if : forall x, (x < s_next s)%nat -> h_if s' x = h_if s x;
  sb_nd : forall x, (x < s_next s)%nat -> n_name (h_nd s' x) = n_name (h_nd s x);
  sb_dm : forall x, (x < s_next s)%nat -> h_dm s' x = h_dm s x;
  sb_ls : forall x, (x < s_next s)%nat -> h_ls s' x = h_ls s x }.
Lemma stable_trans a b c : stable a b -> stable b c -> stable a c.
Proof.
  intros [A1 A2 A3 A4 A5] [B1 B2 B3 B4 B5]. constructor; [lia|..]; intros x Hx;
    [rewrite B2|rewrite B3|rewrite B4|rewrite B5]; auto; lia.
Qed.
Lemma fupd_lt {A} (h : nat -> A) n v x : (x < n)%nat -> fupd h n v x = h x.
Proof. intros H. apply fupd_other. lia. Qed.
Lemma stable_put_nd v s : stable s (put_nd v s).
Proof. constructor; simpl; auto; try lia. intros x Hx. now rewrite fupd_lt. Qed.
Lemma stable_put_dm v s : stable s (put_dm v s).
Proof. constructor; simpl; auto; try lia. intros x Hx. now apply fupd_lt. Qed.
Lemma stable_put_ls v s : stable s (put_ls v s).
Proof. constructor; simpl; auto; try lia. intros x Hx. now apply fupd_lt. Qed.

(** ** node_or_new *)
Lemma node_or_new_run name s : exists s1 n, node_or_new name s = (s1, Ok n) /\
  ((s1 = s /\ In n (m_nds s) /\ nd_name s n = name) \/
   (s1 = put_nd (newnode name) s /\ n = s_next s /\ forall m, In m (m_nds s) -> nd_name s m <> name)).
Proof.
  unfold node_or_new. rewrite bind_gets. destruct (find _ (m_nds s)) as [n|] eqn:F.
  - apply find_some in F as [F1 F2]. apply String.eqb_eq in F2. exists s, n. split; auto.
  - exists (put_nd (newnode name) s), (s_next s). split; [reflexivity|]. right. split; auto. split; auto.
    intros m Hm C. assert (X := find_none _ _ F m Hm). simpl in X. rewrite <- C in X. unfold nd_name in X. now rewrite String.eqb_refl in X.
Qed.

Lemma mem_names s name : mem_str name (node_names s) = true <-> exists m, In m (m_nds s) /\ nd_name s m = name.
Proof. rewrite mem_str_In. unfold node_names. rewrite in_map_iff. split; intros (m & A & B); exists m; auto. Qed.

Lemma set_add_nd_new s n l : (forall m, In m l -> nd_name s m <> nd_name s n) -> set_add_nd s n l = l ++ [n].
Proof.
  intros H. unfold set_add_nd. destruct (mem_nd s n l) eqn:X; auto. exfalso.
  apply existsb_exists in X as (m & Hm & Em). apply node_eqb_name in Em. apply (H m Hm). auto.
Qed.

Lemma add_implied_run name n s : nd_name s n = name -> 
  exists l, add_implied_node name n s = (set_nds l s, Ok tt) /\
    ((exists m, In m (m_nds s) /\ nd_name s m = name) /\ l = m_nds s \/
     (forall m, In m (m_nds s) -> nd_name s m <> name) /\ l = m_nds s ++ [n]).
Proof.
  intros Hn. unfold add_implied_node. rewrite bind_gets. destruct (mem_str name (node_names s)) eqn:X.
  - exists (m_nds s). split; [destruct s; reflexivity|]. left. split; auto. now apply mem_names.
  - exists (m_nds s ++ [n]). assert (Y : forall m, In m (m_nds s) -> nd_name s m <> name).
    { intros m Hm C. assert (T : mem_str name (node_names s) = true) by (apply mem_names; eauto). congruence. }
    split; [|auto]. unfold modify. f_equal. rewrite set_add_nd_new; auto. rewrite Hn. auto.
Qed.

(** Nothing but interfaces and nodes yet. *)
Definition bare (s : st) : Prop := m_srs s = [] /\ m_ckts s = [] /\ m_groups s = [].

Section Load.
Variable k : kind.
Variable py_int : string -> option Z.
Variable py_float : string -> option Q.

(** ** Interface lines *)
Definition rowif (r : if_row) (a b : nat) : iface :=
  mkIface (ir_name r) (ir_cost r) (inject_Z (ir_cap r)) a b (ir_cid r) (TNum 0) false 0 [] (ir_rsvp r) (ir_pct r) false.

Lemma if_is_stable s s' i r : stable s s' -> (i < s_next s)%nat -> (i_node (h_if s i) < s_next s)%nat -> (i_rem (h_if s i) < s_next s)%nat ->
  if_is s i r -> if_is s' i r.
Proof.
  intros S H1 H2 H3. unfold if_is, loc, rem. rewrite (sb_if _ _ S i H1). rewrite (sb_nd _ _ S _ H2), (sb_nd _ _ S _ H3). auto.
Qed.

Lemma Forall2_impl_l {A B} (P Q : A -> B -> Prop) l l' : (forall a b, In a l -> P a b -> Q a b) -> Forall2 P l l' -> Forall2 Q l l'.
Proof.
  intros H F. induction F as [|a b l l' Hab F IH]; constructor; [apply H; auto; left; auto|]. apply IH. intros x y Hx. apply H. right; auto.
Qed.

(** One interface line *)
Lemma if_line_none line s : if_read k py_int py_float line = None -> exists s' e, load_if_line k py_int py_float line s = (s', Err e).
Proof.
  unfold if_read, load_if_line. rewrite bind_reads. destruct (parse_if_line k line) as [x|e]; [|eauto].
  destruct (node_or_new_run (il_node x) s) as (s1 & a & R1 & _). rewrite (bind_run _ _ _ _ _ R1).
  destruct (node_or_new_run (il_remote x) s1) as (s2 & b & R2 & _). rewrite (bind_run _ _ _ _ _ R2).
  destruct (py_int (il_cost x)) as [c|]; [|intros _; simpl; unfold bind, raise; eauto]. simpl lift_opt. rewrite bind_ret.
  destruct (py_int (il_cap x)) as [p|]; [|intros _; simpl; unfold bind, raise; eauto]. simpl lift_opt. rewrite bind_ret.
  destruct (il_pct x) as [t|]; [destruct (py_float t) as [q|]; [|intros _; simpl; unfold bind, raise; eauto]|]; simpl lift_opt; rewrite bind_ret;
  (match goal with |- context [iface_new ?n ?c ?p ?a ?b ?i ?r ?q] => destruct (iface_new n c p a b i r q s2) as [s3 rr] eqn:N end;
   destruct (iface_new_run _ _ _ _ _ _ _ _ _ _ _ N) as [(_ & -> & e & -> & _)|(C1 & P1 & _)];
   [intros _; unfold bind; rewrite N; eauto|]; intros H; exfalso; apply Z.leb_le in C1; rewrite C1 in H;
   replace (0 <? p)%Z with true in H; [discriminate|]; symmetry; apply Z.ltb_lt; unfold Qlt in P1; simpl in P1; lia).
Qed.


Lemma names_snoc s (l : list nat) n : NoDup (map (nd_name s) l) -> (forall m, In m l -> nd_name s m <> nd_name s n) -> NoDup (map (nd_name s) (l ++ [n])).
Proof.
  intros N H. rewrite map_app. apply NoDup_app_disj; auto; [repeat constructor; auto|]. intros y Hy [<-|[]].
  apply in_map_iff in Hy as (m & M1 & M2). now apply (H m).
Qed.

Lemma if_line_some line r s : (forall n, In n (m_nds s) -> (n < s_next s)%nat) -> 
  (forall i, In i (m_ifs s) -> (i < s_next s)%nat /\ (i_node (h_if s i) < s_next s)%nat) ->
  NoDup (map (nd_name s) (m_nds s)) ->
  if_read k py_int py_float line = Some r ->
  exists s' i a b extra,
    load_if_line k py_int py_float line s = (s', Ok tt) /\ stable s s' /\ (forall x, (x < s_next s)%nat -> h_nd s' x = h_nd s x) /\
    (s_next s <= i < s_next s')%nat /\ h_if s' i = rowif r a b /\ (a < s_next s')%nat /\ (b < s_next s')%nat /\
    nd_name s' a = ir_node r /\ nd_name s' b = ir_remote r /\
    m_ifs s' = (if existsb (fun j => key2_eqb (if_key s j) (ir_key r)) (m_ifs s) then m_ifs s else m_ifs s ++ [i]) /\
    m_nds s' = m_nds s ++ extra /\
    (forall n, In n extra -> (s_next s <= n < s_next s')%nat /\ h_nd s' n = newnode (nd_name s' n) /\ (nd_name s' n = ir_node r \/ nd_name s' n = ir_remote r)) /\
    NoDup (map (nd_name s') (m_nds s')) /\
    In a (m_nds s') /\ (In b (m_nds s') \/ ir_remote r = ir_node r) /\ (exists n, In n (m_nds s') /\ nd_name s' n = ir_remote r) /\
    m_dms s' = m_dms s /\ m_lsps s' = m_lsps s /\ m_srs s' = m_srs s /\ m_ckts s' = m_ckts s /\ m_groups s' = m_groups s.
Proof.
  intros An Ai ND. unfold if_read, load_if_line. rewrite bind_reads. destruct (parse_if_line k line) as [x|e]; [|discriminate].
  destruct (py_int (il_cost x)) as [c|] eqn:C; [|discriminate]. destruct (py_int (il_cap x)) as [p|] eqn:P; [|discriminate].
  destruct (match il_pct x with None => Some 100%Q | Some t => py_float t end) as [q|] eqn:F; [|discriminate].
  destruct (Z.leb_spec 1 c) as [C1|]; [|discriminate]. destruct (Z.ltb_spec 0 p) as [P1|]; [|discriminate]. simpl andb. cbv iota. intros H; injection H as <-.
  cbn [ir_node ir_remote].
  destruct (node_or_new_run (il_node x) s) as (s1 & a & R1 & Qa). rewrite (bind_run _ _ _ _ _ R1).
  destruct (node_or_new_run (il_remote x) s1) as (s2 & b & R2 & Qb). rewrite (bind_run _ _ _ _ _ R2).
  simpl lift_opt. rewrite !bind_ret.
  replace (match il_pct x with Some t => lift_opt (py_float t) ValueError | None => ret 100%Q end) with (@ret Q q).
  2:{ destruct (il_pct x) as [t|]; [rewrite F|injection F as <-]; reflexivity. }
  rewrite bind_ret.
  set (row := mkIfRow (il_node x) (il_remote x) (il_name x) c p (il_cid x) (il_rsvp x) q).
  set (v := rowif row a b).
  assert (N : iface_new (il_name x) c (inject_Z p) a b (il_cid x) (il_rsvp x) q s2 = (put_if v s2, Ok (s_next s2))).
  { unfold iface_new. replace (c <? 1)%Z with false by (symmetry; apply Z.ltb_ge; lia).
    replace (Qltb 0 (inject_Z p)) with true. 2:{ symmetry. apply Qltb_true. unfold Qlt. simpl. lia. } reflexivity. }
  rewrite (bind_run _ _ _ _ _ N), bind_gets.
  assert (G : m_nds s2 = m_nds s /\ m_ifs s2 = m_ifs s /\ h_if s2 = h_if s /\ h_dm s2 = h_dm s /\ h_ls s2 = h_ls s /\
     m_dms s2 = m_dms s /\ m_lsps s2 = m_lsps s /\ m_srs s2 = m_srs s /\ m_ckts s2 = m_ckts s /\ m_groups s2 = m_groups s /\
     (s_next s <= s_next s2)%nat /\ (a < s_next s2)%nat /\ (b < s_next s2)%nat /\ (forall y, (y < s_next s)%nat -> h_nd s2 y = h_nd s y) /\
     nd_name s2 a = il_node x /\ nd_name s2 b = il_remote x /\
     (In a (m_nds s) \/ ((s_next s <= a)%nat /\ h_nd s2 a = newnode (il_node x) /\ forall m, In m (m_nds s) -> nd_name s m <> il_node x)) /\
     (In b (m_nds s) \/ ((s_next s <= b)%nat /\ h_nd s2 b = newnode (il_remote x) /\ forall m, In m (m_nds s) -> nd_name s m <> il_remote x))).
  { destruct Qa as [(-> & Ha & Na)|(-> & -> & Ha)], Qb as [(-> & Hb & Nb)|(-> & -> & Hb)]; simpl in *; repeat (split; [reflexivity|]).
    - split; [auto|]. split; [auto|]. auto 10.
    - assert (Aa := An a Ha). split; [lia|]. split; [lia|]. split; [lia|]. split; [intros y Hy; apply fupd_lt; lia|].
      split; [unfold nd_name; simpl; rewrite fupd_lt; auto|]. split; [unfold nd_name; simpl; rewrite fupd_same; auto|]. split; auto. right.
      split; auto. rewrite fupd_same. auto.
    - assert (Ab := An b Hb). split; [lia|]. split; [lia|]. split; [lia|]. split; [intros y Hy; apply fupd_lt; lia|].
      split; [unfold nd_name; simpl; rewrite fupd_same; auto|]. split; [exact Nb|]. split; auto. right. split; auto. rewrite fupd_same. auto.
    - split; [lia|]. split; [lia|]. split; [lia|]. split; [intros y Hy; rewrite !fupd_lt; auto; lia|].
      split; [unfold nd_name; simpl; rewrite fupd_lt by lia; rewrite fupd_same; auto|]. split; [unfold nd_name; simpl; rewrite fupd_same; auto|].
      split; right; (split; [lia|]); [rewrite fupd_lt by lia|]; rewrite fupd_same; (split; [auto|]); auto.
      intros m Hm C9. apply (Hb m Hm). unfold nd_name; simpl. rewrite fupd_lt; auto. }
  destruct G as (G1&G2&G3&G4&G5&G6&G7&G8&G9&G10&G11&G12&G13&G14&G15&G16&G17&G18).
  set (s3 := put_if v s2).
  assert (K3 : forall j, In j (m_ifs s) -> if_key s3 j = if_key s j).
  { intros j Hj. destruct (Ai j Hj) as [B1 B2]. unfold s3. rewrite if_key_put_other by lia. unfold if_key, loc. rewrite G3, G14 by auto. auto. }
  assert (Ki : if_key s3 (s_next s2) = ir_key row).
  { unfold s3. rewrite if_key_put_new. unfold ir_key. simpl. f_equal. exact G15. }
  set (dup := existsb (fun j => key2_eqb (if_key s j) (ir_key row)) (m_ifs s)).
  assert (D : has_ikey s3 (ikey s3 (s_next s2)) = dup).
  { unfold has_ikey, dup. change (m_ifs s3) with (m_ifs s2). rewrite G2. change (ikey s3 (s_next s2)) with (if_key s3 (s_next s2)). rewrite Ki.
    apply existsb_ext_in. intros j Hj. change (ikey s3 j) with (if_key s3 j). now rewrite K3. }
  rewrite D.
  set (s4 := set_ifs (if dup then m_ifs s else m_ifs s ++ [s_next s2]) s3).
  assert (R4 : (if dup then ret tt else modify (fun s => set_ifs (set_add_if s (s_next s2) (m_ifs s)) s)) s3 = (s4, Ok tt)).
  { unfold s4. destruct dup eqn:Dd; [rewrite <- G2; change (m_ifs s2) with (m_ifs s3); destruct s3; reflexivity|]. unfold modify. f_equal.
    change (m_ifs s3) with (m_ifs s2). rewrite G2. rewrite set_add_if_new; auto. intros j Hj C'. rewrite K3, Ki in C' by auto.
    assert (T : dup = true); [|congruence]. unfold dup. apply existsb_exists. exists j. split; auto. now apply key2_eqb_eq. }
  rewrite (bind_run _ _ _ _ _ R4).
  assert (N4 : forall y, nd_name s4 y = nd_name s2 y) by reflexivity.
  assert (M4 : m_nds s4 = m_nds s) by exact G1.
  assert (O4 : forall m, In m (m_nds s) -> nd_name s2 m = nd_name s m) by (intros m Hm; unfold nd_name; rewrite G14; auto).
  destruct (add_implied_run (il_node x) a s4) as (l5 & R5 & Q5); [rewrite N4; auto|]. rewrite (bind_run _ _ _ _ _ R5). rewrite M4 in Q5.
  destruct (add_implied_run (il_remote x) b (set_nds l5 s4)) as (l6 & R6 & Q6); [exact G16|]. rewrite R6.
  change (m_nds (set_nds l5 s4)) with l5 in Q6.
  assert (NM : forall l y, nd_name (set_nds l s4) y = nd_name s2 y) by reflexivity.
  assert (Q5' : l5 = m_nds s ++ (if existsb (fun m => String.eqb (nd_name s m) (il_node x)) (m_nds s) then [] else [a]) /\ In a l5).
  { destruct Q5 as [((m & Hm & Em) & ->)|(Hm & ->)].
    - rewrite N4, O4 in Em by auto. replace (existsb _ _) with true. 2:{ symmetry. apply existsb_exists. exists m. split; auto. rewrite Em. apply String.eqb_refl. }
      rewrite app_nil_r. split; auto. destruct G17 as [G17|(_ & _ & G17)]; auto. exfalso. now apply (G17 m).
    - replace (existsb _ _) with false. 2:{ symmetry. apply existsb_none. intros m Hx. apply String.eqb_neq. rewrite <- O4 by auto. rewrite <- N4. auto. }
      split; auto. apply in_or_app. right; left; auto. }
  assert (ND2 : NoDup (map (nd_name s2) (m_nds s))) by (rewrite (map_ext_in (nd_name s2) (nd_name s)); auto).
  assert (ND5 : NoDup (map (nd_name s2) l5)).
  { destruct Q5 as [(_ & ->)|(Hm & ->)]; auto. apply names_snoc; auto. intros m Hm' C'. apply (Hm m Hm'). rewrite N4, C'. auto. }
  destruct Q5' as [Q5' Ia].
  assert (Ia6 : In a l6) by (destruct Q6 as [(_ & ->)|(_ & ->)]; auto; apply in_or_app; auto).
  assert (Ib6 : In b l6 \/ il_remote x = il_node x).
  { destruct Q6 as [((m & Hm & Em) & ->)|(_ & ->)]; [|left; apply in_or_app; right; left; auto]. rewrite NM in Em.
    destruct G18 as [G18|(_ & _ & G18)]; [left; rewrite Q5'; apply in_or_app; auto|]. rewrite Q5' in Hm. apply in_app_or in Hm as [Hm|Hm].
    - exfalso. apply (G18 m Hm). rewrite <- O4; auto.
    - destruct (existsb (fun m => String.eqb (nd_name s m) (il_node x)) (m_nds s)); [destruct Hm|]. destruct Hm as [<-|[]]. right. congruence. }
  assert (Ix6 : exists n, In n l6 /\ nd_name s2 n = il_remote x).
  { destruct Q6 as [((m & Hm & Em) & ->)|(_ & ->)]; [exists m; split; auto|exists b; split; auto; apply in_or_app; right; left; auto]. }
  assert (Ex : exists extra, l6 = m_nds s ++ extra /\ forall n, In n extra -> (s_next s <= n < s_next s2)%nat /\ h_nd s2 n = newnode (nd_name s2 n) /\ (nd_name s2 n = il_node x \/ nd_name s2 n = il_remote x)).
  { assert (E5 : forall n, In n (if existsb (fun m => String.eqb (nd_name s m) (il_node x)) (m_nds s) then [] else [a]) ->
      (s_next s <= n < s_next s2)%nat /\ h_nd s2 n = newnode (nd_name s2 n) /\ (nd_name s2 n = il_node x \/ nd_name s2 n = il_remote x)).
    { intros n Hn. destruct (existsb (fun m => String.eqb (nd_name s m) (il_node x)) (m_nds s)) eqn:X; [destruct Hn|]. destruct Hn as [<-|[]]. destruct G17 as [G17|(A1 & A2 & A3)].
      - exfalso. assert (T : existsb (fun m => String.eqb (nd_name s m) (il_node x)) (m_nds s) = true); [|congruence].
        apply existsb_exists. exists a. split; auto. apply String.eqb_eq. rewrite <- O4; auto.
      - split; [lia|]. split; [rewrite G15; auto|auto]. }
    destruct Q6 as [(_ & ->)|(Hm & ->)]; [exists (if existsb (fun m => String.eqb (nd_name s m) (il_node x)) (m_nds s) then [] else [a]); split; auto|].
    exists ((if existsb (fun m => String.eqb (nd_name s m) (il_node x)) (m_nds s) then [] else [a]) ++ [b]). split; [rewrite Q5', app_assoc; reflexivity|].
    intros n Hn. apply in_app_or in Hn as [Hn|[<-|[]]]; auto. destruct G18 as [G18|(A1 & A2 & A3)].
    - exfalso. apply (Hm b); [rewrite Q5'; apply in_or_app; auto|]. rewrite NM. auto.
    - split; [lia|]. split; [rewrite G16; auto|auto]. }
  assert (ND6 : NoDup (map (nd_name s2) l6)).
  { destruct Q6 as [(_ & ->)|(Hm & ->)]; auto. apply names_snoc; auto. intros m Hm' C'. apply (Hm m Hm'). rewrite NM, C'. auto. }
  destruct Ex as (extra & Ex & Ee).
  exists (set_nds l6 (set_nds l5 s4)), (s_next s2), a, b, extra. split; [reflexivity|].
  split. { constructor; simpl; try lia; intros y Hy; rewrite ?G4, ?G5; auto; [rewrite fupd_lt by lia; now rewrite G3|rewrite G14; auto]. }
  split; [exact G14|]. split; [simpl; lia|]. split; [simpl; now rewrite fupd_same|]. split; [simpl; lia|]. split; [simpl; lia|].
  split; [exact G15|]. split; [exact G16|]. split; [reflexivity|]. split; [exact Ex|].
  split. { intros n Hn. destruct (Ee n Hn) as (B1 & B2 & B3). split; [simpl; lia|]. split; [exact B2|exact B3]. }
  split; [exact ND6|]. split; [exact Ia6|]. split; [exact Ib6|]. split; [exact Ix6|].
  repeat split; assumption.
Qed.
End Load.
