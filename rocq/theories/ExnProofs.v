(** ExnProofs.v - what calls that raise leave behind. *)
From Verif Require Import Base Graph Objects Sim Api Spec SpecCkt SpecFail SpecRepair MonadProofs GraphProofs RoundProofs Frames ApiFrames ObjProofs ApiProofs AddProofs PathProofs InfoProofs PropertiesValidate PropertiesApi PropertiesFail PropertiesRepair SpecExn.
From Coq Require Import Lqa.

Lemma un_refl s : untouched s s.
Proof. constructor; repeat split; auto. Qed.
Lemma un_trans a b c : (s_next a <= s_next b)%nat -> untouched a b -> untouched b c -> untouched a c.
Proof.
  intros L [A1 A2 A3 A4 A5 A6 A7] [B1 B2 B3 B4 B5 B6 B7]. constructor.
  - destruct A1 as (?&?&?&?&?), B1 as (?&?&?&?&?). repeat split; congruence.
  - destruct A2, B2. split; congruence.
  - intros x Hx. rewrite B3 by lia. now apply A3.
  - intros x Hx. rewrite B4 by lia. now apply A4.
  - intros x Hx. rewrite B5 by lia. now apply A5.
  - intros x Hx. rewrite B6 by lia. now apply A6.
  - intros x Hx. rewrite B7 by lia. now apply A7.
Qed.
Ltac un_new := constructor; [repeat split|split; reflexivity|..]; intros x Hx; simpl; auto; rewrite fupd_other by lia; reflexivity.
Lemma un_put_if v s : untouched s (put_if v s).
Proof. un_new. Qed.
Lemma un_put_dm v s : untouched s (put_dm v s).
Proof. un_new. Qed.
Lemma un_put_ls v s : untouched s (put_ls v s).
Proof. un_new. Qed.

(** ** Calls that look first *)
Lemma looks_first_kept E k o s s' e : looks_first o -> run_op E k o s = (s', Err e) -> untouched s s'.
Proof.
  destruct o; intros L R; try (destruct L; fail); cbn [run_op] in R.
  - unfold fail_interface, bind, reads, iface_set_failed, modify in R. destruct (get_interface s iname nname) as [i|e1]; [|injection R as <- <-; apply un_refl].
    destruct (get_remote_interface s i); [discriminate|injection R as <- <-; apply un_refl].
  - unfold add_srlg, srlg_new, bind, gets, modify, raise, ret in R. destruct (mem_str n _) eqn:X; [injection R as <- <-; apply un_refl|]. simpl in R. rewrite X in R. discriminate R.
  - unfold node_add_to_srlg, srlg_new, bind, gets, modify, raise, ret in R. destruct (get_srlg s n); [discriminate|]. destruct create; [|injection R as <- <-; apply un_refl].
    destruct (mem_str n _) eqn:X; [injection R as <- <-; apply un_refl|]. discriminate.
  - discriminate.
  - unfold change_interface_name, bind, reads, modify in R. destruct (get_interface s old nname); [discriminate|injection R as <- <-; apply un_refl].
  - unfold set_manual_metric, bind, gets, modify, raise, ret in R. repeat match type of R with context [if ?b then _ else _] => destruct b | context [match ?b with Some _ => _ | None => _ end] => destruct b end; try discriminate; injection R as <- <-; apply un_refl.
  - unfold iface_set_cost, modify, raise in R. destruct (c <? 1)%Z; [injection R as <- <-; apply un_refl|discriminate].
  - unfold iface_set_capacity, modify, raise in R. destruct (Qltb 0 c); [discriminate|injection R as <- <-; apply un_refl].
  - unfold iface_fail, bind, reads, iface_set_failed, modify in R. destruct (get_remote_interface s i); [discriminate|injection R as <- <-; apply un_refl].
Qed.

(** ** Additions to a valid model *)
Section Valid.
Variables (E : env) (k : kind) (s : st).
Hypothesis HE : env_ok E.
Hypothesis So : sound k s.
Hypothesis V : snd (validate_model E k s) = Ok tt.
Definition accepts (t : st) : Prop := forall t' r, validate_model E k t = (t', r) -> r = Ok tt.

Lemma sane : lsps_sane s.
Proof.
  intros l Hl. assert (X := so_paths _ _ So l Hl). destruct (l_path (h_ls s l)); auto. destruct X as [X Y]. split; auto. intros j Hj. apply in_map. auto.
Qed.
Lemma total_ext rd t i ls : (forall l, In l ls -> lsp_amount rd t i l = lsp_amount rd s i l) -> lsp_total rd t i ls = lsp_total rd s i ls.
Proof. induction ls as [|l ls IH]; intros H; [reflexivity|]. simpl. rewrite H by (left; reflexivity). rewrite IH; [reflexivity|]. intros x Hx. apply H. now right. Qed.
Lemma total_app rd t i ls l : (lsp_amount rd t i l == 0)%Q -> (lsp_total rd t i (ls ++ [l])%list == lsp_total rd t i ls)%Q.
Proof. intros H. induction ls as [|x ls IH]; simpl; [rewrite H; reflexivity|]. rewrite IH. reflexivity. Qed.
(** what validate_model found *)
Lemma found rd : (forall x, rounds 10 x (rd x)) ->
   pairs_up k s /\
   (forall i, In i (m_ifs s) -> (rd (i_res (h_if s i)) <= i_cap (h_if s i))%Q /\
      (rd (i_res (h_if s i)) == rd (lsp_total rd s i (m_lsps s)))%Q) /\
   (forall i j, In i (m_ifs s) -> In j (m_ifs s) -> available s i -> is_reverse k s i j ->
      (i_cap (h_if s i) == i_cap (h_if s j))%Q) /\
   NoDup (map (nd_name s) (m_nds s)) /\
   (k = Perf -> NoDup (map (fun i => ends_text (loc s i) (rem s i)) (m_ifs s)) /\
      forall n, In n (m_nds s) -> n_shortcuts (h_nd s n) = false).
Proof.
  intros Rd. destruct (validate_model E k s) as [s2 r2] eqn:V2. simpl in V. subst r2.
  exact (proj1 (C22_accepts_exactly E k s s2 _ rd HE (so_once _ _ So) sane (so_cids _ _ So) Rd V2) eq_refl).
Qed.
Lemma rounds_ext rd x y : (forall x, rounds 10 x (rd x)) -> (x == y)%Q -> (rd x == rd y)%Q.
Proof. intros Rd H. rewrite (rounds_unique _ _ _ (Rd x)), (rounds_unique _ _ _ (Rd y)), (roundd_compat 10 _ _ H). reflexivity. Qed.
Lemma add_demand_kept src dst t name s' e : add_demand E k src dst t name s = (s', Err e) -> untouched s s'.
Proof.
  intros R. apply add_demand_run in R as [(e1 & _ & -> & _)|[(_ & _ & -> & _)|(a & b & _ & _ & _ & [(_ & _ & ->)|(_ & R)])]]; [apply un_refl|apply un_refl|apply un_put_dm|].
  exfalso. destruct some_rounding as (rd & Rd). destruct (found rd Rd) as (X1 & X2 & X3 & X4 & X5).
  assert (Y : Err e = Ok tt :> res unit); [|discriminate].
  apply (C22_accepts_exactly E k _ s' _ rd HE) in R; [|exact (so_once _ _ So)|exact sane|exact (so_cids _ _ So)|exact Rd]. apply R.
  split; [exact X1|]. split; [|exact (conj X3 (conj X4 X5))]. intros i Hi. destruct (X2 i Hi) as [A B]. split; [exact A|]. eapply Qeq_trans; [exact B|]. apply rounds_ext; [exact Rd|].
  change (m_lsps (set_dms _ _)) with (m_lsps s). rewrite (total_ext rd (set_dms _ _)); [reflexivity|]. reflexivity.
Qed.
Lemma add_lsp_kept src dst name s' e : add_rsvp_lsp E k src dst name s = (s', Err e) -> untouched s s'.
Proof.
  unfold add_rsvp_lsp, lsp_new, bind, reads, gets, modify, ret, raise. intros R.
  destruct (get_node s src) as [a|]; [|injection R as <- <-; apply un_refl]. destruct (get_node s dst) as [b|]; [|injection R as <- <-; apply un_refl].
  match type of R with context [existsb ?f ?l] => destruct (existsb f l) end; [injection R as <- <-; un_new|].
  exfalso. destruct some_rounding as (rd & Rd). destruct (found rd Rd) as (X1 & X2 & X3 & X4 & X5).
  match type of R with validate_model _ _ ?x = _ => set (s1 := x) in * end. set (l := s_next s) in *.
  assert (Fr : ~ In l (m_lsps s)) by (apply fresh_nin, alloc_lsps, So).
  assert (ML : m_lsps s1 = (m_lsps s ++ [l])%list) by (unfold s1; simpl; now apply set_add_ref_fresh).
  assert (HL : forall x, In x (m_lsps s) -> h_ls s1 x = h_ls s x) by (intros x Hx; unfold s1; simpl; apply fupd_other; intros C; subst x; now apply Fr).
  assert (HN : h_ls s1 l = mkLsp a b name PInit RInit RInit None None None) by (unfold s1; simpl; apply fupd_same).
  assert (Y : Err e = Ok tt :> res unit); [|discriminate].
  apply (C22_accepts_exactly E k _ s' _ rd HE) in R; [|exact (so_once _ _ So)| |exact (so_cids _ _ So)|exact Rd].
  - apply R. split; [exact X1|]. split; [|exact (conj X3 (conj X4 X5))]. intros i Hi. destruct (X2 i Hi) as [A B]. split; [exact A|]. eapply Qeq_trans; [exact B|]. apply rounds_ext; [exact Rd|].
    rewrite ML, total_app by (unfold lsp_amount; rewrite HN; reflexivity). rewrite (total_ext rd s1); [reflexivity|]. intros x Hx. unfold lsp_amount. rewrite (HL x Hx). reflexivity.
  - intros x Hx. rewrite ML, in_app_iff in Hx. destruct Hx as [Hx|[<-|[]]]; [|rewrite HN; exact I]. rewrite (HL x Hx). exact (sane x Hx).
Qed.
Lemma add_node_kept n s' e : (k = Perf -> n_shortcuts (h_nd s n) = false) -> add_node E k n s = (s', Err e) -> untouched s s'.
Proof.
  intros SC R. destruct (add_node_exact E k n s s' _ R) as [A B]. destruct (in_dec string_dec (nd_name s n) (map (nd_name s) (m_nds s))) as [D|D].
  { apply in_map_iff in D as (m & Em & Hm). destruct A as [-> _]; [exists m; auto|]. apply un_refl. }
  exfalso. destruct B as (s1 & O & MN & R1). { intros m Hm Em. apply D, in_map_iff. eauto. }
  destruct some_rounding as (rd & Rd). destruct (found rd Rd) as (X1 & X2 & X3 & X4 & X5).
  destruct s1 as [a1 a2 a3 a4 a5 b1 b2 b3 b4 b5 c1 c2 c3 c4]. destruct O as (O1 & O2 & O3 & O4 & O5 & O6 & O7 & O8 & O9 & O10 & O11). simpl in *. subst.
  assert (Y : Err e = Ok tt :> res unit); [|discriminate].
  apply (C22_accepts_exactly E k _ s' _ rd HE) in R1; [|exact (so_once _ _ So)|exact sane|exact (so_cids _ _ So)|exact Rd]. apply R1.
  split; [exact X1|]. split; [|split; [exact X3|]].
  - intros i Hi. destruct (X2 i Hi) as [A1 B1]. split; [exact A1|]. eapply Qeq_trans; [exact B1|]. apply rounds_ext; [exact Rd|].
    cbn [m_lsps]. rewrite (total_ext rd (mkSt _ _ _ _ _ _ _ _ _ _ _ _ _ _)); [reflexivity|]. reflexivity.
  - cbn [m_nds]. split.
    + rewrite map_app. apply NoDup_app_disj; [exact X4|simpl; constructor; [intros []|constructor]|]. intros x Hx [<-|[]]. now apply D.
    + intros K. destruct (X5 K) as [X6 X7]. split; [exact X6|]. intros x. rewrite in_app_iff. intros [Hx|[<-|[]]]; [now apply X7|]. now apply SC.
Qed.
Lemma none_of {A} (f : A -> bool) l : (forall x, In x l -> f x = false) -> filter f l = [].
Proof. induction l as [|x l IH]; intros H; [reflexivity|]. simpl. rewrite (H x) by (left; reflexivity). apply IH. intros y Hy. apply H. now right. Qed.
Lemma circuit_left a b na nb ca cb cap c s' e : nd_name s a <> nd_name s b -> add_circuit E k a b na nb ca cb cap c s = (s', Err e) -> untouched s s' \/ m_ifs s' <> m_ifs s.
Proof.
  intros N R. unfold add_circuit in R. apply bind_inv in R as [(sa & c' & Hc & R)|(e1 & Hc & _)].
  2: { left. destruct k, c; unfold bind, gets, reads, ret, raise in Hc; try (match type of Hc with context [existsb ?f ?l] => destruct (existsb f l) end); try discriminate; injection Hc as <- Hc; apply un_refl. }
  assert (sa = s) as ->. { destruct k, c; unfold bind, gets, reads, ret, raise in Hc; try (match type of Hc with context [existsb ?f ?l] => destruct (existsb f l) end); try discriminate; now injection Hc. }
  apply bind_inv in R as [(sb & ia & H1 & R)|(e1 & H1 & _)].
  2: { apply AddProofs.iface_new_run in H1 as [(_ & -> & _)|(_ & _ & X & _)]; [left; apply un_refl|discriminate]. }
  apply AddProofs.iface_new_run in H1 as [(_ & _ & e' & X & _)|(_ & _ & X & ->)]; [discriminate|]. injection X as ->.
  set (va := mkIface na ca cap a b c' _ _ _ _ _ _ _) in *. set (s2 := put_if va s) in *. assert (U2 : untouched s s2) by apply un_put_if.
  apply bind_inv in R as [(sb & ib & H1 & R)|(e1 & H1 & _)].
  2: { apply AddProofs.iface_new_run in H1 as [(_ & -> & _)|(_ & _ & X & _)]; [left; exact U2|discriminate]. }
  apply AddProofs.iface_new_run in H1 as [(_ & _ & e' & X & _)|(_ & _ & X & ->)]; [discriminate|]. injection X as ->.
  set (vb := mkIface nb cb cap b a c' _ _ _ _ _ _ _) in *. set (s3 := put_if vb s2) in *. assert (U3 : untouched s s3) by (apply (un_trans s s2 s3); [simpl; lia|exact U2|apply un_put_if]).
  rewrite !bind_gets in R. match type of R with (if ?x then _ else _) _ = _ => destruct x eqn:D end.
  - left. injection R as <- <-. exact U3.
  - right. apply orb_false_iff in D as [D _]. rewrite !bind_modify in R. apply (pres_run _ _ _ _ _ (val_frame_validate E k)) in R. match type of R with val_frame _ ?x _ => assert (C : m_ifs s' = m_ifs x) by apply R end. intros X. rewrite X in C. simpl in C.
    rewrite (set_add_if_new s3 (s_next s) (m_ifs s)) in C.
    2: { intros j Hj K. unfold has_ikey in D. assert (Y : existsb (fun i => key2_eqb (ikey s3 i) (ikey s3 (s_next s))) (m_ifs s3) = true); [|congruence].
         apply existsb_exists. exists j. split; [exact Hj|]. apply key2_eqb_eq. exact K. }
    unfold set_add_if in C. apply (f_equal (@List.length nat)) in C. destruct (mem_if _ _ _); rewrite ?app_length in C; simpl in C; lia.
Qed.
Lemma add_circuit_kept a b na nb ca cb cap c s' e : fits k s (nd_name s a) (nd_name s b) -> add_circuit E k a b na nb ca cb cap c s = (s', Err e) -> untouched s s'.
Proof.
  intros (Nab & FP) R. destruct (circuit_left _ _ _ _ _ _ _ _ _ _ Nab R) as [X|X]; [exact X|]. exfalso.
  assert (Ne : (na, nd_name s a) <> (nb, nd_name s b)) by congruence.
  destruct (add_circuit_exact E k a b na nb ca cb cap c s s' _ (so_alloc _ _ So) Ne R) as [(e1 & _ & Y & _)|Y]; [now apply X|]. clear X.
  destruct Y as (Ca & Cb & Cp & Ka & Kb & ia & ib & c' & s1 & CF & _ & _ & Fa & Fb & Nib & M1 & O1 & N1 & _ & L1 & _ & H1 & _ & H2 & _ & Ha & Hb & R1 & _).
  destruct some_rounding as (rd & Rd). destruct (found rd Rd) as (X1 & X2 & X3 & X4 & X5).
  assert (Lo : forall i, In i (m_ifs s) -> loc s1 i = loc s i /\ rem s1 i = rem s i). { intros i Hi. unfold loc, rem. rewrite (O1 i Hi), H1. auto. }
  assert (La : loc s1 ia = nd_name s a /\ rem s1 ia = nd_name s b). { unfold loc, rem, nd_name. rewrite Ha, H1. auto. }
  assert (Lb : loc s1 ib = nd_name s b /\ rem s1 ib = nd_name s a). { unfold loc, rem, nd_name. rewrite Hb, H1. auto. }
  assert (In1 : forall i, In i (m_ifs s1) <-> In i (m_ifs s) \/ i = ia \/ i = ib). { intros i. rewrite M1, in_app_iff. simpl. intuition. }
  assert (Av : forall i, In i (m_ifs s) -> available s1 i <-> available s i). { intros i Hi. unfold available, reservable, reserved. rewrite (O1 i Hi). split; auto. }
  assert (Y : Err e = Ok tt :> res unit); [|discriminate].
  apply (C22_accepts_exactly E k _ s' _ rd HE) in R1.
  2: { rewrite M1. apply NoDup_app_disj; [exact (so_once _ _ So)|constructor; [intros [C|[]]; auto|constructor; [intros []|constructor]]|]. intros x Hx [<-|[<-|[]]]; auto. }
  2: { intros l Hl. rewrite L1 in Hl. rewrite H2. assert (P := so_paths _ _ So l Hl). destruct (l_path (h_ls s l)); auto. destruct P as [P Q]. split; [|exact Q]. intros j Hj. apply in_map. apply In1. auto. }
  2: { intros K i Hi. apply In1 in Hi as [Hi|[-> | ->]]; [rewrite (O1 i Hi); now apply (so_cids _ _ So)|rewrite Ha|rewrite Hb]; simpl; destruct (CF K) as (-> & C & _); exact C. }
  2: { exact Rd. }
  apply R1. clear R1.
  assert (Z0 : (rd 0 == 0)%Q) by (rewrite (rounds_unique _ _ _ (Rd 0%Q)); reflexivity).
  assert (New : forall i na' ca' a' b', h_if s1 i = mkIface na' ca' cap a' b' c' (TNum 0) false 0 [] true 100 false -> available s1 i).
  { intros i na' ca' a' b' X. exists (rd (cap * 100 / 100 - rd 0))%Q. split.
    - unfold reservable, reserved. rewrite X. simpl. exists (rd 0%Q). split; apply Rd.
    - rewrite (rounds_unique _ _ _ (Rd _)). assert (Y : (0 <= cap * 100 / 100 - rd 0)%Q) by (rewrite Z0; field_simplify; lra). apply Qle_trans with (roundd 10 0); [vm_compute; discriminate|]. now apply roundd_mono. }
  assert (Cid : forall i j, k = Flex -> In i (m_ifs s) -> j = ia \/ j = ib -> i_cid (h_if s1 i) <> i_cid (h_if s1 j)).
  { intros i j K Hi Hj C. destruct (CF K) as (-> & _ & U). apply U. exists i. split; auto. rewrite <- (O1 i Hi), C. destruct Hj as [-> | ->]; [now rewrite Ha|now rewrite Hb]. }
  split; [|split; [|split; [|split]]].
  - intros i Hi A. apply In1 in Hi as [Hi|[-> | ->]].
    + destruct (Lo i Hi) as [Li Ri]. apply (Av i Hi) in A. destruct (X1 i Hi A) as [(j & Hj & Aj & Y1 & Y2) P]. split.
      * exists j. destruct (Lo j Hj) as [Lj Rj]. split; [apply In1; auto|]. split; [now apply Av|]. rewrite Lj, Rj, Li, Ri. auto.
      * intros K NC. rewrite (O1 i Hi) in NC. destruct (P K NC) as [P1 P2]. rewrite Li, Ri.
        assert (T : forall Q R : nat -> Prop, (forall x, In x (m_ifs s) -> (R x <-> Q x)) -> (forall x, x = ia \/ x = ib -> ~ R x) -> one_in (m_ifs s) Q -> one_in (m_ifs s1) R).
        { intros Q R' T1 T2 (x & Hx & Qx & Ux). exists x. split; [apply In1; auto|]. split; [now apply T1|]. intros y Hy Ry. apply In1 in Hy as [Hy|Hy]; [apply Ux; auto; now apply T1|]. exfalso. exact (T2 y Hy Ry). }
        split; [revert P1|revert P2]; apply T; try (intros x Hx; destruct (Lo x Hx) as [-> ->]; rewrite (O1 x Hx), (O1 i Hi); tauto);
          intros x Hx (_ & _ & C); apply (Cid i x K Hi Hx); congruence.
    + destruct La as [La1 La2], Lb as [Lb1 Lb2]. split.
      * exists ib. split; [apply In1; auto|]. split; [eapply New; exact Hb|]. rewrite Lb1, Lb2, La1, La2. auto.
      * intros K _. rewrite La1, La2. split.
        { exists ia. split; [apply In1; auto|]. split; [auto|]. intros y Hy (Y1 & _ & Y3). apply In1 in Hy as [Hy|[Hy|Hy]]; auto; [exfalso; exact (Cid y ia K Hy (or_introl eq_refl) Y3)|]. subst y. congruence. }
        { exists ib. split; [apply In1; auto|]. split; [rewrite Ha, Hb; auto|]. intros y Hy (Y1 & _ & Y3). apply In1 in Hy as [Hy|[Hy|Hy]]; auto; [exfalso; exact (Cid y ia K Hy (or_introl eq_refl) Y3)|]. subst y. congruence. }
    + destruct La as [La1 La2], Lb as [Lb1 Lb2]. split.
      * exists ia. split; [apply In1; auto|]. split; [eapply New; exact Ha|]. rewrite Lb1, Lb2, La1, La2. auto.
      * intros K _. rewrite Lb1, Lb2. split.
        { exists ib. split; [apply In1; auto|]. split; [auto|]. intros y Hy (Y1 & _ & Y3). apply In1 in Hy as [Hy|[Hy|Hy]]; auto; [exfalso; exact (Cid y ib K Hy (or_intror eq_refl) Y3)|]. subst y. congruence. }
        { exists ia. split; [apply In1; auto|]. split; [rewrite Ha, Hb; auto|]. intros y Hy (Y1 & _ & Y3). apply In1 in Hy as [Hy|[Hy|Hy]]; auto; [exfalso; exact (Cid y ib K Hy (or_intror eq_refl) Y3)|]. subst y. congruence. }
  - assert (Am : forall i l, In i (m_ifs s) -> In l (m_lsps s) -> lsp_amount rd s1 i l = lsp_amount rd s i l).
    { intros i l Hi Hl. unfold lsp_amount. rewrite H2. assert (P := so_paths _ _ So l Hl). destruct (l_path (h_ls s l)); auto. destruct P as [P _]. destruct (l_res (h_ls s l)); auto.
      f_equal. f_equal. f_equal. f_equal. apply filter_ext_in. intros j Hj. unfold same_key. rewrite (O1 i Hi), (O1 j (P j Hj)), (proj1 (Lo i Hi)), (proj1 (Lo j (P j Hj))). reflexivity. }
    assert (Zn : forall i, (forall j, In j (m_ifs s) -> if_key s j <> if_key s1 i) -> forall ls, (forall l, In l ls -> In l (m_lsps s)) -> (lsp_total rd s1 i ls == 0)%Q).
    { intros i K. induction ls as [|l ls IH]; intros Hs; [reflexivity|]. simpl. rewrite IH by (intros x Hx; apply Hs; now right).
      assert (Hl := Hs l (or_introl eq_refl)). assert (P := so_paths _ _ So l Hl). unfold lsp_amount. rewrite H2. destruct (l_path (h_ls s l)) as [| | |p c0 b0]; try (destruct (l_res (h_ls s l)); reflexivity).
      destruct P as [P [q ->]]. replace (filter (same_key s1 i) p) with (@nil nat); [simpl; ring|]. symmetry. apply none_of. intros j Hj.
      destruct (same_key s1 i j) eqn:S; [|reflexivity]. exfalso. apply (K j (P j Hj)). unfold same_key in S. apply andb_true_iff in S as [S1 S2]. apply String.eqb_eq in S1, S2.
      unfold if_key. rewrite <- (O1 j (P j Hj)), <- (proj1 (Lo j (P j Hj))). congruence. }
    intros i Hi. rewrite L1. apply In1 in Hi as [Hi|Hi].
    + rewrite (O1 i Hi). destruct (X2 i Hi) as [A B]. split; [exact A|]. eapply Qeq_trans; [exact B|]. apply rounds_ext; [exact Rd|]. rewrite (total_ext rd s1); [reflexivity|]. intros l Hl. now apply Am.
    + assert (W : i_res (h_if s1 i) = 0%Q /\ i_cap (h_if s1 i) = cap) by (destruct Hi as [-> | ->]; [rewrite Ha|rewrite Hb]; auto). destruct W as [-> ->]. split; [rewrite Z0; now apply Qlt_le_weak|].
      apply rounds_ext; [exact Rd|]. symmetry. apply Zn; [|auto]. intros j Hj C.
      destruct Hi as [-> | ->]; [apply Ka|apply Kb]; exists j; (split; [exact Hj|]); rewrite C; unfold if_key; [rewrite (proj1 La), Ha|rewrite (proj1 Lb), Hb]; reflexivity.
  - assert (Cross : forall i j, In i (m_ifs s) -> j = ia \/ j = ib -> ~ is_reverse k s1 i j /\ ~ is_reverse k s1 j i).
    { intros i j Hi Hj. destruct (kind_dec k) as [K|K].
      - split; intros (_ & _ & [C|C]); try congruence; apply (Cid i j K Hi Hj); congruence.
      - destruct (FP K) as [_ F]. destruct (F i Hi) as [F1 F2]. destruct (Lo i Hi) as [Li Ri], La as [La1 La2], Lb as [Lb1 Lb2].
        split; intros (C1 & C2 & _); rewrite Li, Ri in *; destruct Hj as [-> | ->]; rewrite ?La1, ?La2, ?Lb1, ?Lb2 in *; [apply F2|apply F1|apply F2|apply F1]; congruence. }
    intros i j Hi Hj A Rv. apply In1 in Hi as [Hi|Hi]; apply In1 in Hj as [Hj|Hj].
    + rewrite (O1 i Hi), (O1 j Hj). apply X3; auto; [now apply Av|]. destruct (Lo i Hi) as [Li Ri], (Lo j Hj) as [Lj Rj]. unfold is_reverse in *. now rewrite Li, Ri, Lj, Rj, (O1 i Hi), (O1 j Hj) in Rv.
    + exfalso. exact (proj1 (Cross i j Hi Hj) Rv).
    + exfalso. exact (proj2 (Cross j i Hj Hi) Rv).
    + destruct Hi as [-> | ->], Hj as [-> | ->]; rewrite ?Ha, ?Hb; reflexivity.
  - rewrite N1. erewrite map_ext; [exact X4|]. intros x. unfold nd_name. now rewrite H1.
  - intros K. destruct (X5 K) as [Y1 Y2]. destruct (FP K) as [F0 F]. split.
    + rewrite M1, map_app. simpl. destruct La as [-> ->], Lb as [-> ->]. rewrite (map_ext_in _ (fun i => ends_text (loc s i) (rem s i))) by (intros x Hx; destruct (Lo x Hx) as [-> ->]; reflexivity).
      apply NoDup_app_disj; [exact Y1|constructor; [intros [C|[]]; auto|constructor; [intros []|constructor]]|]. intros x Hx Hy. apply in_map_iff in Hx as (i & <- & Hi). destruct (F i Hi) as [F1 F2]. destruct Hy as [C|[C|[]]]; auto.
    + intros n Hn. rewrite N1 in Hn. rewrite H1. now apply Y2.
Qed.
End Valid.

(** ** Failures *)
Lemma fail_node_kept s nname s' e : keys_unique s -> refs_ok s -> (forall i, In i (m_ifs s) -> has_other_end s i) -> fail_node nname s = (s', Err e) -> untouched s s'.
Proof.
  intros U Rf O R. destruct (in_dec string_dec nname (map (nd_name s) (m_nds s))) as [D|D].
  - apply in_map_iff in D as (n & <- & Hn). destruct (C29_fail_node_returns s n U Rf Hn) as (s2 & X); [intros i Hi _; auto|]. rewrite X in R. discriminate.
  - unfold fail_node in R. rewrite bind_gets in R. replace (ifaces_of_name s nname) with (@nil nat) in R.
    + unfold mfor, bind, ret, reads in R. destruct (get_node s nname) as [n|e1] eqn:G; [|injection R as <- <-; apply un_refl].
      exfalso. unfold get_node in G. destruct (filter _ _) as [|m tl] eqn:F; [discriminate|]. assert (X : In m (m :: tl)) by (left; reflexivity). rewrite <- F in X. apply filter_In in X as [X1 X2].
      apply String.eqb_eq in X2. apply D. rewrite <- X2. apply in_map_iff. exists m. auto.
    + symmetry. apply none_of. intros i Hi. destruct (String.eqb _ _) eqn:X; auto. exfalso. apply String.eqb_eq in X. apply D. rewrite <- X. destruct Rf as (Rf & _). destruct (Rf i Hi) as [A _]. unfold ilocal. apply in_map_iff. eexists. split; [reflexivity|exact A].
Qed.
Lemma fail_srlg_kept s nm s' e : keys_unique s -> refs_ok s -> (forall i, In i (m_ifs s) -> has_other_end s i) -> fail_srlg nm s = (s', Err e) -> untouched s s'.
Proof.
  intros U Rf O R. destruct (get_srlg s nm) as [g|e1] eqn:G.
  - apply get_srlg_spec in G as [G <-]. destruct (C31_fail_srlg_returns s g U Rf G) as (s2 & X); [intros i Hi _; auto|]. rewrite X in R. discriminate.
  - unfold fail_srlg, bind at 1, reads in R. rewrite G in R. injection R as <- <-. apply un_refl.
Qed.
Lemma unfail_srlg_kept E k s nm s' e : env_ok E -> wf_net k s -> srlg_sound k s -> consistent k s -> all_paired k s -> lsps_sane s ->
  unfail_srlg E k nm s = (s', Err e) -> untouched s s'.
Proof.
  intros HE W A B C D R. destruct (get_srlg s nm) as [g|e1] eqn:G.
  - apply get_srlg_spec in G as [G <-]. destruct (C64_unfail_srlg_returns E k s g HE W A B C D G) as (s2 & X). rewrite X in R. discriminate.
  - unfold unfail_srlg, bind at 1, reads in R. rewrite G in R. injection R as <- <-. apply un_refl.
Qed.
