(** OrderShort.v - FlexModels with IGP shortcuts that list the same objects in
    another order, with room for all LSPs (C89). *)
From Verif Require Import Base Graph Objects Sim Api Spec SpecCkt SpecSim SpecMetric SpecFlow SpecOrder SpecShort SpecTotal SpecSame GraphProofs MonadProofs RoundProofs
  PathProofs QuietProofs RouteProofs LeastProofs OrderProofs MetricProofs IgpProofs Ecmp SpecSig SigEnd LspExact OrderLsps
  PropertiesApi PropertiesRoute PropertiesTraffic PropertiesShort.
From Coq Require Import Permutation Lqa.

(** ** The groups picked along the same nodes *)
Section Picks.
Variables a b : st.
Hypothesis SN : forall n, shortcut_node a n <-> shortcut_node b n.
Hypothesis TU : forall n m, tunnel a n m <-> tunnel b n m.
Hypothesis LM : forall u v l, least_metric a u v l <-> least_metric b u v l.

Lemma last_split {A} (P : A -> Prop) x m y x' m' y' : (x ++ m :: y)%list = (x' ++ m' :: y')%list -> P m -> P m' -> (forall z, In z y -> ~ P z) -> (forall z, In z y' -> ~ P z) -> m = m' /\ y = y'.
Proof.
  revert x'. induction x as [|c x IH]; intros [|c' x'] H Pm Pm' N N'; simpl in H; injection H as -> H.
  - auto.
  - exfalso. apply (N m'); [rewrite H; apply in_or_app; right; left; auto|exact Pm'].
  - exfalso. apply (N' m); [rewrite <- H; apply in_or_app; right; left; auto|exact Pm].
  - eapply IH; eauto.
Qed.
Lemma picks_same ns gs : picks a ns gs -> forall hs, picks b ns hs -> Forall2 (fun g h => forall l, In l g <-> In l h) gs hs.
Proof.
  induction 1 as [n|n x m y ls gs S T Nt Ne Nd L P IH|n m y gs N P IH]; intros hs H.
  - inversion H as [|n' x' m' y' ls' hs' A B C D F G K L|n' m' y' hs' A B C]; subst; [constructor|]. destruct x'; discriminate.
  - inversion H as [n' A|n' x' m' y' ls' hs' S' T' Nt' Ne' Nd' L' P' K Q|n' m' y' hs' N' P' K]; subst.
    + destruct x; discriminate.
    + assert (X : (x' ++ m' :: y')%list = (x ++ m :: y)%list) by congruence.
      destruct (last_split (tunnel a n) x m y x' m' y') as [-> ->]; auto; [now apply TU|intros z Hz Z; apply (Nt' z Hz); now apply TU|].
      constructor; [intros l; rewrite L, L'; apply LM|]. apply IH. exact P'.
    + exfalso. apply (N' (proj1 (SN n) S) m); [|now apply TU]. rewrite H0. apply in_or_app. right; left; auto.
  - inversion H as [n' A|n' x' m' y' ls' hs' S' T' Nt' Ne' Nd' L' P' K Q|n' m' y' hs' N' P' K]; subst.
    + exfalso. apply (N (proj2 (SN n) S') m'); [|now apply TU]. rewrite <- H0. apply in_or_app. right; left; auto.
    + apply IH. exact P'.
Qed.
End Picks.
Lemma rides_same a b p gs q : rides a p gs q -> (forall i, In i p -> loc b i = loc a i /\ rem b i = rem a i) -> (forall l, lsp_from b l = lsp_from a l /\ lsp_to b l = lsp_to a l) ->
  forall hs, Forall2 (fun g h => forall l, In l g <-> In l h) gs hs -> rides b p hs q.
Proof.
  induction 1 as [|i p gs q Rd IH|i p j p' ls l gs q L1 La L2 Hl Rd IH]; intros Lo En hs F.
  - inversion F; subst. constructor.
  - constructor. apply IH; auto. intros x Hx. apply Lo. right; auto.
  - inversion F as [|g h gs' hs' X Y]; subst. destruct (En l) as [E1 E2]. eapply rides_lsp with (j := last (i :: p) i); auto.
    + destruct (Lo i (or_introl eq_refl)) as [-> _]. now rewrite E1.
    + assert (Hj : In (last (i :: p) i) (i :: p ++ p')).
      { clear. assert (Z : forall r (x d e : nat), last (x :: r) d = last (x :: r) e) by (induction r as [|y r IH]; intros x d e; [reflexivity|exact (IH y d e)]).
        assert (X : forall r (x : nat), In (last (x :: r) x) (x :: r)).
        { induction r as [|y r IH]; intros x; [left; auto|]. right. change (last (x :: y :: r) x) with (last (y :: r) x). rewrite (Z r y x y). apply IH. }
        destruct (X p i) as [<-|H]; [left; auto|right; apply in_or_app; left; auto]. }
      destruct (Lo _ Hj) as [_ ->]. now rewrite E2.
    + now apply X.
    + apply IH; auto. intros x Hx. apply Lo. right. apply in_or_app. right; auto.
Qed.

(** ** What paths put on an item *)
Lemma with_sum x (d : list item -> Q) ps es : Forall2 (fun q e => entry_path e = q /\ (pi_traffic e == d q)%Q) ps es ->
  (with_item x es == sumq (fun q => if existsb (same_item x) q then d q else 0) ps)%Q.
Proof.
  unfold with_item, total. induction 1 as [|q e ps es [A B] F IH]; [reflexivity|]. cbn [filter]. rewrite sumq_cons, A. destruct (existsb (same_item x) q).
  - cbn [map Qsum fold_right]. change (fold_right Qplus 0%Q) with Qsum. rewrite B, IH. reflexivity.
  - rewrite IH. ring.
Qed.
Lemma divided_same a b o1 o2 q : forall x, (forall y, In y q -> leaves b y = leaves a y) -> (forall n, List.length (o1 n) = List.length (o2 n)) -> (item_divided a o1 x q == item_divided b o2 x q)%Q.
Proof.
  induction q as [|y q IH]; intros x Le O; [reflexivity|]. cbn [item_divided]. rewrite (Le y (or_introl eq_refl)), O. apply IH; auto. intros z Hz. apply Le. right; auto.
Qed.

Section Short.
Variables (E E' : env).
Hypothesis HE : env_ok E.
Hypothesis HE' : env_ok E'.
Variables s t s' t' : st.
Hypothesis R : reordered s t.
Hypothesis WP : well_posed s.
Hypothesis EK : ends_known s.
Hypothesis CS : cids_set Flex s.
Hypothesis LU : lsps_usual Flex s.
Hypothesis Am : ample s.
Hypothesis Up : update_simulation E Flex s = (s', Ok tt).
Hypothesis Up' : update_simulation E' Flex t = (t', Ok tt).
Hypothesis EA : ends_agree Flex s.
Hypothesis KU : keys_unique s.
Hypothesis KUt : keys_unique t.
Hypothesis RO : refs_ok s.
Hypothesis NT : node_texts s.
Let WPt := ro_posed _ _ R WP.
Let EKt := ro_known _ _ R EK.
Let CSt := ro_cids _ _ R Flex CS.
Let LUt := ro_usual _ _ R Flex LU.
Let Amt := ro_ample _ _ R Am.
Let EAt := ro_agree _ _ R Flex EA.
Let dt {i} : In i (m_dms s) -> In i (m_dms t) := Permutation_in i (ro_dms _ _ R).
Let Fs := fin_fail E Flex HE s s' WP CS EA Up.
Let Ft := fin_fail E' Flex HE' t t' WPt CSt EAt Up'.
Let Al := fin_alike E E' Flex HE HE' s t s' t' R WP EK CS LU Am Up Up' EA.

Lemma refs_t : refs_ok t.
Proof.
  destruct RO as (A & B & C). split; [|split].
  - intros i Hi. rewrite (ro_if _ _ R). destruct (A i (Permutation_in i (Permutation_sym (ro_ifs _ _ R)) Hi)). split; (eapply Permutation_in; [exact (ro_nds _ _ R)|assumption]).
  - intros i Hi. rewrite (ro_dm _ _ R). destruct (B i (Permutation_in i (Permutation_sym (ro_dms _ _ R)) Hi)). split; (eapply Permutation_in; [exact (ro_nds _ _ R)|assumption]).
  - intros i Hi. rewrite (ro_ls _ _ R). destruct (C i (Permutation_in i (Permutation_sym (ro_lsps _ _ R)) Hi)). split; (eapply Permutation_in; [exact (ro_nds _ _ R)|assumption]).
Qed.
Lemma texts_t : node_texts t.
Proof.
  intros a b a' b' Ha Hb Ha' Hb'. apply NT.
  - exact (Permutation_in _ (Permutation_sym (ro_names _ _ R)) Ha).
  - exact (Permutation_in _ (Permutation_sym (ro_names _ _ R)) Hb).
  - apply in_map_iff in Ha' as (l & <- & Hl). destruct (ro_lends _ _ R l) as [-> _]. apply in_map. exact (Permutation_in _ (Permutation_sym (ro_lsps _ _ R)) Hl).
  - apply in_map_iff in Hb' as (l & <- & Hl). destruct (ro_lends _ _ R l) as [_ ->]. apply in_map. exact (Permutation_in _ (Permutation_sym (ro_lsps _ _ R)) Hl).
Qed.
Lemma same_snode n : shortcut_node s' n <-> shortcut_node t' n.
Proof.
  unfold shortcut_node, nd_name. destruct (fin_sets E Flex s s' Up) as (_ & -> & _), (fin_sets E' Flex t t' Up') as (_ & -> & _).
  split; intros (x & A & B & C); exists x; rewrite (fin_nd E Flex s s' Up) in *; rewrite (fin_nd E' Flex t t' Up') in *; rewrite (ro_nd _ _ R) in *; (split; [|auto]); (eapply Permutation_in; [|exact A]); [|apply Permutation_sym]; exact (ro_nds _ _ R).
Qed.
Lemma lin l : In l (m_lsps s') -> In l (m_lsps s). Proof. destruct (fin_sets E Flex s s' Up) as (_ & _ & _ & ->). auto. Qed.
Let EL := ends_ls E E' Flex s t s' t' R Up Up'.
Let LI := lsps_in E E' Flex s t s' t' R Up Up'.
Let SR := same_routed E E' Flex HE HE' s t s' t' R WP EK LU Am Up Up'.
Let SM := same_metric E E' Flex HE HE' s t s' t' R WP EK CS LU Am Up Up' EA.
Lemma same_tunnel n m : tunnel s' n m <-> tunnel t' n m.
Proof.
  unfold tunnel. split; intros (l & A & B & C & D); exists l; destruct (EL l) as [E1 E2].
  - rewrite E1, E2. split; [now apply LI|]. split; [exact B|]. split; [exact C|]. apply SR; auto. now apply lin.
  - rewrite E1 in B. rewrite E2 in C. apply LI in A. split; [exact A|]. split; [exact B|]. split; [exact C|]. apply SR; auto. now apply lin.
Qed.
Lemma same_member u v l : (In l (m_lsps s') /\ lsp_from s' l = u /\ lsp_to s' l = v) <-> (In l (m_lsps t') /\ lsp_from t' l = u /\ lsp_to t' l = v).
Proof. destruct (EL l) as [-> ->]. rewrite LI. tauto. Qed.
Lemma same_least u v l : least_metric s' u v l <-> least_metric t' u v l.
Proof.
  unfold least_metric. split; intros (A & B & m & C & D).
  - assert (Hl := lin l (proj1 A)). split; [now apply same_member|]. split; [now apply SR|]. exists m. split; [now apply SM|]. intros l' A' B'. apply same_member in A'.
    assert (Hl' := lin l' (proj1 A')). apply SR in B'; auto. destruct (D l' A' B') as (m' & X & Y). exists m'. split; [now apply SM|exact Y].
  - apply same_member in A. assert (Hl := lin l (proj1 A)). split; [exact A|]. split; [now apply SR|]. exists m. split; [now apply SM|]. intros l' A' B'.
    assert (Hl' := lin l' (proj1 A')). apply same_member in A'. apply SR in B'; auto. destruct (D l' A' B') as (m' & X & Y). exists m'. split; [now apply SM|exact Y].
Qed.

(** *** Paths *)
Let ED := ends_dm E E' Flex s t s' t' R Up Up'.
Let LSs := fin_like E Flex HE s s' WP EK CS LU Am EA Up.
Lemma one_s d p q : one_road s d -> least_cost s' (usable s') (dmd_from s' d) p (dmd_to s' d) -> least_cost s' (usable s') (dmd_from s' d) q (dmd_to s' d) -> route_nodes s' (dmd_from s' d) p = route_nodes s' (dmd_from s' d) q.
Proof.
  intros O. destruct (fin_dm E Flex s s' Up d) as (-> & -> & _). intros A B. assert (X : forall r, route_nodes s' (dmd_from s d) r = route_nodes s (dmd_from s d) r).
  { intros r. unfold route_nodes. f_equal. apply map_ext. intros i. apply (fin_loc E Flex s s' Up). }
  rewrite !X. apply O; now apply (like_least _ _ _ _ _ _ _ LSs).
Qed.
Lemma nodes_t d p : In d (m_dms s) -> (forall i, In i p -> In i (m_ifs s')) -> route_nodes t' (dmd_from t' d) p = route_nodes s' (dmd_from s' d) p.
Proof.
  intros Hd Hp. unfold route_nodes. destruct (ED d) as (-> & _). f_equal. apply map_ext_in. intros i Hi. apply (lk_data _ _ _ _ Al). auto.
Qed.
Let NoS := no_lsp_same E E' Flex HE HE' s t s' t' R WP EK LU Am Up Up'.

Lemma short_paths d : In d (m_dms s) -> one_road s d -> no_lsp_for s' d -> same_paths (d_path (h_dm s' d)) (d_path (h_dm t' d)).
Proof.
  intros Hd One NL. assert (NLt := NoS d NL). destruct (ED d) as (D1 & D2 & _).
  assert (A := C03_unrouted E Flex s s' d HE WP Up Fs Hd NL). assert (B := C03_unrouted E' Flex t t' d HE' WPt Up' Ft (dt Hd) NLt). rewrite D1, D2 in B.
  destruct (d_path (h_dm s' d)) as [|ps] eqn:P, (d_path (h_dm t' d)) as [|qs] eqn:Q; simpl; auto.
  - assert (X := proj1 A eq_refl). assert (Y : DPaths qs = DUnrouted); [|discriminate]. apply B. intros p Hp. apply (X p). eapply like_route; [apply like_sym, Al|exact Hp].
  - assert (X := proj1 B eq_refl). assert (Y : DPaths ps = DUnrouted); [|discriminate]. apply A. intros p Hp. apply (X p). eapply like_route; [apply Al|exact Hp].
  - destruct (C62_paths E s s' d ps HE WP KU RO NT Up Fs Hd NL P) as (p0 & _ & L0 & _).
    assert (Os : forall p, least_cost s' (usable s') (dmd_from s' d) p (dmd_to s' d) -> route_nodes s' (dmd_from s' d) p = route_nodes s' (dmd_from s' d) p0) by (intros p Hp; now apply one_s).
    assert (Ot : forall p, least_cost t' (usable t') (dmd_from t' d) p (dmd_to t' d) -> route_nodes t' (dmd_from t' d) p = route_nodes s' (dmd_from s' d) p0).
    { intros p Hp. rewrite D1, D2 in Hp. apply (like_least _ _ _ _ _ _ _ Al) in Hp. rewrite nodes_t; auto. intros i Hi. exact (proj1 (PathProofs.route_in _ _ _ _ _ (proj1 Hp) i Hi)). }
    destruct (C62_one_route E s s' d ps _ HE WP KU RO NT Up Fs Hd NL P Os) as (gs & G & _ & _ & I & _).
    destruct (C62_one_route E' t t' d qs _ HE' WPt KUt refs_t texts_t Up' Ft (dt Hd) NLt Q Ot) as (hs & H & _ & _ & J & _).
    assert (F := picks_same s' t' same_snode same_tunnel same_least _ gs G hs H).
    assert (F' : Forall2 (fun g h => forall l, In l g <-> In l h) hs gs). { clear -F. induction F; constructor; auto. intros z. symmetry. auto. }
    rewrite D1, D2 in J. intros q. rewrite I, J. split; intros (p & Lp & Rp); exists p.
    + split; [now apply (like_least _ _ _ _ _ _ _ Al)|]. eapply rides_same; [exact Rp| |exact EL|exact F]. intros i Hi.
      assert (X := proj1 (PathProofs.route_in _ _ _ _ _ (proj1 Lp) i Hi)). destruct (lk_data _ _ _ _ Al i X) as (? & ? & _). auto.
    + assert (Lp' := Lp). apply (like_least _ _ _ _ _ _ _ Al) in Lp'. split; [exact Lp'|]. eapply rides_same; [exact Rp| | |exact F'].
      * intros i Hi. assert (X := proj1 (PathProofs.route_in _ _ _ _ _ (proj1 Lp') i Hi)). destruct (lk_data _ _ _ _ Al i X) as (? & ? & _). auto.
      * intros l. destruct (EL l). auto.
Qed.
Let RO2 := routed_or E Flex HE s s' WP EK LU Am Up.
Let SO := same_of E E' Flex s t s' t' R Up Up'.
Let IL := in_lsp E Flex s s' Up.
Let SP := same_preferred E E' Flex HE HE' s t s' t' R WP EK CS LU Am Up Up' EA.
Lemma rides_t d : (exists l, lsp_of s' d l /\ routed_lsp s' l) -> exists l, lsp_of t' d l /\ routed_lsp t' l.
Proof. intros (l & Hl & Rl). exists l. split; [now apply SO|]. apply SR; auto. exact (IL d l Hl). Qed.
Lemma short_dpaths d : In d (m_dms s) -> one_road s d -> same_paths (d_path (h_dm s' d)) (d_path (h_dm t' d)).
Proof.
  intros Hd One. destruct (RO2 d) as [H|N]; [|now apply short_paths].
  destruct (C07_ride E Flex s s' d HE WP (lu_once _ _ LU) Up Fs Hd H) as (ls & es & _ & _ & X & -> & _).
  destruct (C07_ride E' Flex t t' d HE' WPt (lu_once _ _ LUt) Up' Ft (dt Hd) (rides_t d H)) as (ls' & es' & _ & _ & X' & -> & _).
  simpl. intros q. rewrite !in_map_iff. split; intros (l & <- & Hl); exists l; (split; [reflexivity|]).
  - apply X', SP, X, Hl.
  - apply X, SP, X', Hl.
Qed.

(** *** Traffic *)
Hypothesis So : sole_roads s.
Let SC := same_cross E E' Flex HE HE' s t s' t' R WP EK LU Am Up Up' So.
Lemma leaves_t d ps q y : In d (m_dms s) -> no_lsp_for s' d -> d_path (h_dm s' d) = DPaths ps -> In q ps -> In y q -> leaves t' y = leaves s' y.
Proof.
  intros Hd NL P Hq Hy. destruct (C62_connected E s s' d ps q HE WP KU RO NT Up Fs Hd NL P Hq) as (_ & _ & I & _). destruct y as [i|l]; simpl; [|apply EL].
  destruct (I i Hy) as [X _]. now apply (lk_data _ _ _ _ Al).
Qed.
Lemma with_same d ps qs es fs x : In d (m_dms s) -> no_lsp_for s' d -> one_road s d -> d_path (h_dm s' d) = DPaths ps -> d_path (h_dm t' d) = DPaths qs ->
  d_detail (h_dm s' d) = PDInfo es -> d_detail (h_dm t' d) = PDInfo fs -> (with_item x es == with_item x fs)%Q.
Proof.
  intros Hd NL One P Q D F. assert (NLt := NoS d NL). assert (X := short_paths d Hd One NL). rewrite P, Q in X. simpl in X. rename X into LM.
  destruct (C62_paths E s s' d ps HE WP KU RO NT Up Fs Hd NL P) as (_ & _ & _ & _ & _ & N1 & _).
  destruct (C62_paths E' t t' d qs HE' WPt KUt refs_t texts_t Up' Ft (dt Hd) NLt Q) as (_ & _ & _ & _ & _ & N2 & _).
  destruct (C62_entries E s s' d ps HE WP KU RO NT Up Fs Hd NL P) as (es' & o1 & D' & O1 & S1 & _). assert (es' = es) by congruence. subst es'.
  destruct (C62_entries E' t t' d qs HE' WPt KUt refs_t texts_t Up' Ft (dt Hd) NLt Q) as (fs' & o2 & F' & O2 & S2 & _). assert (fs' = fs) by congruence. subst fs'.
  assert (OO : forall n, List.length (o1 n) = List.length (o2 n)).
  { intros n. destruct (O1 n) as [A1 B1], (O2 n) as [A2 B2]. apply same_count; auto. intros y. rewrite B1, B2. split; intros [H (q & Hq & Hy)].
    - split; [rewrite <- H; eapply leaves_t; eauto|]. exists q. split; [now apply LM|auto].
    - apply LM in Hq. split; [rewrite <- H; symmetry; eapply leaves_t; eauto|]. exists q. auto. }
  destruct (ED d) as (_ & _ & T). rewrite T in S2.
  rewrite (with_sum x (item_divided s' o1 (d_traffic (h_dm s' d))) ps es), (with_sum x (item_divided t' o2 (d_traffic (h_dm s' d))) qs fs).
  - rewrite (sumq_perm _ _ _ (NoDup_Permutation N1 N2 LM)). apply sumq_ext. intros q Hq. apply LM in Hq. destruct (existsb (same_item x) q); [|reflexivity].
    apply divided_same; auto. intros y Hy. eapply leaves_t; eauto.
  - clear -S2. induction S2 as [|q e qs fs (A & _ & _ & B) S IH]; constructor; auto.
  - clear -S1. induction S1 as [|q e qs fs (A & _ & _ & B) S IH]; constructor; auto.
Qed.
Lemma same_loads d i x y : In d (m_dms s) -> one_road s d -> demand_loads s' d i x -> demand_loads t' d i y -> (x == y)%Q.
Proof.
  intros Hd One A B. assert (SPd := short_dpaths d Hd One). unfold demand_loads in A, B.
  destruct (d_path (h_dm s' d)) as [|ps] eqn:P, (d_path (h_dm t' d)) as [|qs] eqn:Q; try contradiction; [now rewrite A, B|].
  destruct A as (es & D & _ & A), B as (fs & F & _ & B). destruct (RO2 d) as [H|N].
  - destruct A as [(_ & A)|(N & _)]; [|exfalso; destruct H as (l & Hl & (p & c & b & X)); rewrite (N l Hl) in X; discriminate].
    assert (H' := rides_t d H). destruct B as [(_ & B)|(N & _)]; [|exfalso; destruct H' as (l & Hl & (p & c & b & X)); rewrite (N l Hl) in X; discriminate].
    destruct (C07_ride E Flex s s' d HE WP (lu_once _ _ LU) Up Fs Hd H) as (ls & es1 & _ & N1 & I1 & _ & D1 & P1 & T1 & _). assert (es1 = es) by congruence. subst es1.
    destruct (C07_ride E' Flex t t' d HE' WPt (lu_once _ _ LUt) Up' Ft (dt Hd) H') as (ls' & es2 & _ & N2 & I2 & _ & D2 & P2 & T2 & _). assert (es2 = fs) by congruence. subst es2.
    rewrite A, B, (carried_ridden s' d i ls es P1 T1), (carried_ridden t' d i ls' fs P2 T2).
    assert (LM : forall l, In l ls <-> In l ls') by (intros l; rewrite I1, I2; apply SP).
    assert (PM := NoDup_Permutation N1 N2 LM). unfold ridden. destruct (ED d) as (_ & _ & ->). unfold count. rewrite (Permutation_length PM).
    rewrite (Qsum_perm _ _ (Permutation_map _ PM)).
    change (sumq (fun l => d_traffic (h_dm s' d) / inject_Z (Z.of_nat (List.length ls')) * inject_Z (Z.of_nat (crossings s' i [ILsp l])))%Q ls' ==
            sumq (fun l => d_traffic (h_dm s' d) / inject_Z (Z.of_nat (List.length ls')) * inject_Z (Z.of_nat (crossings t' i [ILsp l])))%Q ls')%Q.
    apply sumq_ext. intros l Hl. rewrite (SC l i); [reflexivity|]. apply LM, I1 in Hl. exact (IL d l (proj1 Hl)).
  - destruct A as [((l & Hl & (p & c & b & X)) & _)|(_ & ls & f & N1 & I1 & F1 & A)]; [rewrite (N l Hl) in X; discriminate|].
    assert (Nt := NoS d N). destruct B as [((l & Hl & (p & c & b & X)) & _)|(_ & ls' & g & N2 & I2 & F2 & B)]; [rewrite (Nt l Hl) in X; discriminate|].
    simpl in SPd. assert (LM : forall l, In l ls <-> In l ls').
    { intros l. rewrite I1, I2. split; intros (q & Hq & Hl); exists q; (split; [now apply SPd|exact Hl]). }
    rewrite A, B. rewrite (with_same d ps qs es fs (IIf i) Hd N One P Q D F). apply Qplus_comp; [reflexivity|].
    rewrite (Qsum_perm _ _ (Permutation_map _ (NoDup_Permutation N1 N2 LM))).
    change (sumq (fun l => inject_Z (Z.of_nat (crossings s' i [ILsp l])) * f l)%Q ls' == sumq (fun l => inject_Z (Z.of_nat (crossings t' i [ILsp l])) * g l)%Q ls')%Q.
    apply sumq_ext. intros l Hl. assert (Hl1 := proj2 (LM l) Hl). rewrite (SC l i).
    + assert (X1 := F1 l Hl1). assert (X2 := F2 l Hl). apply rounds_unique in X1.
      apply (rounds_compat _ _ _ _ _ (Qeq_sym _ _ (with_same d ps qs es fs (ILsp l) Hd N One P Q D F)) (Qeq_refl _)) in X2. apply rounds_unique in X2. now rewrite X1, X2.
    + apply I1 in Hl1 as (q & Hq & Hy). destruct (C62_connected E s s' d ps q HE WP KU RO NT Up Fs Hd N P Hq) as (_ & _ & _ & X). apply lin. now apply X.
Qed.
Lemma short_traffic i : (forall d, In d (m_dms s) -> one_road s d) -> In i (m_ifs s) -> same_traffic (i_traffic (h_if s' i)) (i_traffic (h_if t' i)).
Proof.
  intros One Hi. assert (Hit := Permutation_in i (ro_ifs _ _ R) Hi).
  assert (A := C69_traffic E s s' i HE WP KU RO NT Up Fs Hi). assert (B := C69_traffic E' t t' i HE' WPt KUt refs_t texts_t Up' Ft Hit).
  rewrite (Fs i Hi) in A. rewrite (Ft i Hit), (ro_if _ _ R) in B.
  destruct (i_failed (h_if s i)); [now rewrite A, B|]. destruct A as (q & f & -> & A1 & A2), B as (r & g & -> & B1 & B2). simpl. rewrite A2, B2.
  destruct (fin_sets E Flex s s' Up) as (_&_&Ds&_), (fin_sets E' Flex t t' Up') as (_&_&Dt&_). rewrite Ds, Dt in *.
  change (sumq f (m_dms s) == sumq g (m_dms t))%Q. rewrite <- (sumq_perm _ _ _ (ro_dms _ _ R)). apply sumq_ext. intros d Hd. apply (same_loads d i); auto.
Qed.
End Short.
