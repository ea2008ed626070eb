(** ShortMore.v - demand paths over LSPs: they are contiguous, and what is known
    when the least-cost routes all visit the same nodes. *)
From Verif Require Import Base Graph Objects Sim Spec SpecSim SpecMetric SpecFlow SpecShort GraphProofs MonadProofs PathProofs LeastProofs MetricProofs Ecmp FlowProofs ShortPaths ShortProofs.

Lemma app_inj_length {A} (a b c d : list A) : a ++ b = c ++ d -> List.length a = List.length c -> a = c /\ b = d.
Proof. revert c. induction a as [|x a IH]; intros [|y c] H L; simpl in *; try discriminate; auto. injection H as -> H. destruct (IH c H) as [-> ->]; auto. Qed.

Section Shape.
Variable s : st.
Notation ch := (chain (loc s) (rem s)).

Lemma chain_last_rem p : forall u i v, ch u (i :: p) v -> rem s (last (i :: p) i) = v.
Proof.
  induction p as [|j p IH]; intros u i v H; apply chain_cons_inv in H as [_ H]; [apply chain_nil_inv in H; auto|].
  specialize (IH _ _ _ H). rewrite <- IH. simpl. destruct p; auto. f_equal. clear. revert n. induction p; intros n; simpl; auto. destruct p; auto. apply (IHp n).
Qed.
Lemma rides_leads p gs q : rides s p gs q -> forall u v, ch u p v -> leads s u q v.
Proof.
  induction 1 as [|i p gs q H IH|i p j p' ls l gs q H1 H2 H3 H4 H IH]; intros u v C; simpl.
  - now apply chain_nil_inv in C.
  - apply chain_cons_inv in C as [-> C]. auto.
  - change (i :: p ++ p') with ((i :: p) ++ p') in C. apply chain_app_inv in C as (w & C1 & C2).
    assert (W := chain_last_rem _ _ _ _ C1). rewrite H2, H3 in W. apply chain_cons_inv in C1 as [-> _]. split; [auto|]. rewrite W. auto.
Qed.

(** where the groups start *)
Lemma picks_from ns gs : picks s ns gs -> forall g l, In g gs -> In l g -> In (lsp_from s l) ns /\ shortcut_node s (lsp_from s l) /\ least_metric s (lsp_from s l) (lsp_to s l) l.
Proof.
  induction 1 as [n0|n0 a m b ls gs Sc Tu Fa Ne ND Hl P IH|n0 m b gs Sc P IH]; intros g l Hg Hin; [destruct Hg| |].
  - destruct Hg as [<-|Hg].
    + apply Hl in Hin as Hm. destruct Hm as ((A & B & C) & _). rewrite B. split; [left; auto|]. split; auto. rewrite C. now apply Hl.
    + destruct (IH g l Hg Hin) as (A & B). split; auto. right. apply in_or_app. right. exact A.
  - destruct (IH g l Hg Hin) as (A & B). split; auto. right. exact A.
Qed.
Lemma rides_from p gs q : rides s p gs q -> forall g, In g gs -> exists l i, In l g /\ In i p /\ loc s i = lsp_from s l.
Proof.
  induction 1 as [|i p gs q H IH|i p j p' ls l gs q H1 H2 H3 H4 H IH]; intros g Hg; [destruct Hg| |].
  - destruct (IH g Hg) as (l & k & A & B & C). exists l, k. split; auto. split; auto. right; auto.
  - destruct Hg as [<-|Hg]; [exists l, i; split; auto; split; auto; left; auto|]. destruct (IH g Hg) as (l' & k & A & B & C). exists l', k. split; auto. split; auto.
    right. apply in_or_app. auto.
Qed.
Lemma chain_locs p : forall u v i, ch u p v -> In i p -> In (loc s i) (u :: map (rem s) p).
Proof.
  intros u v i C Hi. exact (chain_loc (loc s) (rem s) u p v i C Hi).
Qed.

Lemma jump_inv n a m b ls gs p q v : (forall l, In l ls -> lsp_from s l = n /\ lsp_to s l = m) -> NoDup (n :: a ++ m :: b) ->
  ch n p v -> n :: map (rem s) p = n :: a ++ m :: b -> rides s p (ls :: gs) q ->
  exists l p1 p2 q2, In l ls /\ q = ILsp l :: q2 /\ p = p1 ++ p2 /\ List.length p1 = S (List.length a) /\ rides s p2 gs q2.
Proof.
  intros Hl ND C Hn R. inversion R as [|i p0 gs0 q0 R0|i p1 j p2 ls0 l gs0 q0 H1 H2 H3 H4 R0]; subst.
  - exfalso. destruct (rides_from _ _ _ R0 ls (or_introl eq_refl)) as (l & k & A & B & D). apply Hl in A as [A _]. apply chain_cons_inv in C as [-> C].
    assert (X := chain_locs _ _ _ _ C B). rewrite D, A in X. injection Hn as Hn. simpl in X. 
    assert (Y : In (loc s i) (a ++ m :: b)) by (rewrite <- Hn; exact X). inversion ND; auto.
  - exists l, (i :: p1), p2, q0. split; auto. split; auto. split; auto. split; auto. simpl. f_equal.
    change (i :: p1 ++ p2) with ((i :: p1) ++ p2) in C. apply chain_app_inv in C as (w & C1 & C2). assert (W := chain_last_rem _ _ _ _ C1). rewrite H3 in W.
    destruct (Hl l H4) as [_ T]. rewrite T in W. injection Hn as Hn.
    assert (Q : exists x, map (rem s) (i :: p1) = x ++ [m]).
    { destruct (exists_last (l := i :: p1)) as (x & k & E); [discriminate|]. exists (map (rem s) x). rewrite E, map_app. simpl. f_equal. f_equal. 
      rewrite E in H3. rewrite last_last in H3. congruence. }
    destruct Q as (x & Q). change (i :: p1 ++ p2) with ((i :: p1) ++ p2) in Hn. 
    assert (Hn' : map (rem s) ((i :: p1) ++ p2) = a ++ m :: b) by exact Hn. rewrite map_app, Q, <- app_assoc in Hn'. simpl in Hn'.
    assert (L : List.length x = List.length a).
    { inversion ND as [|? ? _ ND']; subst. rewrite <- Hn' in ND'. clear - ND' Hn'. revert a Hn'. induction x as [|y x IH]; intros [|z a] H; simpl in H; auto.
      - exfalso. injection H as <- H. inversion ND' as [|? ? X _]; subst. apply X. rewrite H. apply in_or_app. right. left. reflexivity.
      - exfalso. injection H as -> H. inversion ND' as [|? ? X _]; subst. apply X. apply in_or_app. right. left. reflexivity.
      - injection H as <- H. simpl. f_equal. inversion ND'; subst. auto. }
    assert (M := f_equal (@List.length _) Q). rewrite map_length, app_length in M. simpl in M. lia.
Qed.
Lemma step_inv n m b gs p q v : (forall g l, In g gs -> In l g -> lsp_from s l <> n) ->
  ch n p v -> n :: map (rem s) p = n :: m :: b -> rides s p gs q ->
  exists i p2 q2, q = IIf i :: q2 /\ p = i :: p2 /\ rides s p2 gs q2.
Proof.
  intros Hl C Hn R. inversion R as [|i p0 gs0 q0 R0|i p1 j p2 ls0 l gs0 q0 H1 H2 H3 H4 R0]; subst; [discriminate| eauto 6|].
  exfalso. change (i :: p1 ++ p2) with ((i :: p1) ++ p2) in C. apply chain_app_inv in C as (w & C1 & C2). apply chain_cons_inv in C1 as [-> _].
  apply (Hl ls0 l); auto. left; auto.
Qed.

Lemma metric_same u v l l' m m' : least_metric s u v l -> least_metric s u v l' -> metric s l (Some m) -> metric s l' (Some m') -> m = m'.
Proof.
  intros (A & B & x & X & Y) (A' & B' & x' & X' & Y') M M'.
  assert (x = Some m) by (eapply metric_fun; eauto). assert (x' = Some m') by (eapply metric_fun; eauto). subst.
  destruct (Y l' A' B') as (y & P & Q). assert (y = Some m') by (eapply metric_fun; eauto). subst.
  destruct (Y' l A B) as (y & P' & Q'). assert (y = Some m) by (eapply metric_fun; eauto). subst. simpl in *. lia.
Qed.

Lemma split_costs (f : nat -> Z) a : forall p p' p1 p2 p1' p2', map f p = map f p' -> p = p1 ++ p2 -> p' = p1' ++ p2' -> List.length p1 = a -> List.length p1' = a -> map f p2 = map f p2'.
Proof.
  induction a as [|a IH]; intros p p' p1 p2 p1' p2' H E E' L L'; destruct p1 as [|x p1], p1' as [|x' p1']; simpl in L, L'; try discriminate; subst; auto.
  simpl in H. injection H as _ H. apply (IH (p1 ++ p2) (p1' ++ p2') p1 p2 p1' p2'); auto.
Qed.
Lemma cut_nodes n a m b p1 p2 v : ch n (p1 ++ p2) v -> n :: map (rem s) (p1 ++ p2) = n :: a ++ m :: b -> List.length p1 = S (List.length a) -> ch m p2 v /\ m :: map (rem s) p2 = m :: b.
Proof.
  intros C Hn L. apply chain_app_inv in C as (w & C1 & C2). injection Hn as Hn. rewrite map_app in Hn.
  assert (X : map (rem s) p1 = a ++ [m] /\ map (rem s) p2 = b).
  { assert (Y : map (rem s) p1 ++ map (rem s) p2 = (a ++ [m]) ++ b) by (rewrite <- app_assoc; exact Hn).
    assert (LL : List.length (map (rem s) p1) = List.length (a ++ [m])) by (rewrite map_length, app_length; simpl; lia).
    apply app_inj_length in Y; auto. }
  destruct X as [X1 X2]. destruct p1 as [|i p1]; [discriminate L|]. assert (W := chain_last_rem _ _ _ _ C1).
  destruct (exists_last (l := i :: p1)) as (x & k & E); [discriminate|]. rewrite E in W, X1. rewrite last_last in W. rewrite map_app in X1. simpl in X1.
  apply app_inj_tail in X1 as [_ X1]. rewrite <- X1, W, X2. auto.
Qed.

Theorem picks_cost ns gs : picks s ns gs -> NoDup ns -> forall n p p' q q' c c' v, ch n p v -> ch n p' v ->
  n :: map (rem s) p = ns -> n :: map (rem s) p' = ns -> map (fun i => i_cost (h_if s i)) p = map (fun i => i_cost (h_if s i)) p' ->
  rides s p gs q -> rides s p' gs q' -> path_cost s q c -> path_cost s q' c' -> c = c'.
Proof.
  induction 1 as [n0|n0 a m b ls gs Sc Tu Fa Ne ND Hl P IH|n0 m b gs Sc P IH]; intros NN n p p' q q' c c' v C C' Hn Hn' Hc R R' K K'.
  - destruct p; [|discriminate]. destruct p'; [|discriminate]. inversion R; subst. inversion R'; subst. inversion K; subst. inversion K'; subst. auto.
  - assert (n = n0) by (injection Hn; auto). subst n0.
    assert (HG : forall l, In l ls -> lsp_from s l = n /\ lsp_to s l = m) by (intros l X; apply Hl in X as ((_ & A & B) & _); auto).
    destruct (jump_inv n a m b ls gs p q v HG NN C Hn R) as (l & p1 & p2 & q2 & A1 & -> & -> & A4 & A5).
    destruct (jump_inv n a m b ls gs p' q' v HG NN C' Hn' R') as (l' & p1' & p2' & q2' & B1 & -> & -> & B4 & B5).
    inversion K as [| |? m1 ? c1 M1 K1]; subst. inversion K' as [| |? m2 ? c2 M2 K2]; subst.
    assert (m1 = m2) by (eapply metric_same; [apply Hl; exact A1|apply Hl; exact B1|exact M1|exact M2]). subst m2. f_equal.
    destruct (cut_nodes _ _ _ _ _ _ _ C Hn A4) as [X1 X2]. destruct (cut_nodes _ _ _ _ _ _ _ C' Hn' B4) as [Y1 Y2].
    eapply IH with (p := p2) (p' := p2') (q := q2) (q' := q2') (n := m); eauto.
    + inversion NN as [|? ? _ NN']; subst. apply nodup_app_r in NN'. exact NN'.
    + eapply split_costs; eauto.
  - assert (n = n0) by (injection Hn; auto). subst n0. inversion NN as [|? ? NI NN']; subst.
    assert (HG : forall g l, In g gs -> In l g -> lsp_from s l <> n).
    { intros g l X Y Z. apply NI. rewrite <- Z. apply (picks_from _ _ P g l X Y). }
    destruct (step_inv n m b gs p q v HG C Hn R) as (i & p2 & q2 & -> & -> & A3). destruct (step_inv n m b gs p' q' v HG C' Hn' R') as (i' & p2' & q2' & -> & -> & B3).
    simpl in Hc. injection Hc as Hc1 Hc2. inversion K; subst. inversion K'; subst. f_equal; auto.
    apply chain_cons_inv in C as [_ C]. apply chain_cons_inv in C' as [_ C']. simpl in Hn, Hn'. injection Hn as D1 D2. injection Hn' as D1' D2'.
    rewrite D1 in C. rewrite D1' in C'.
    eapply IH with (p := p2) (p' := p2') (n := m); eauto; congruence.
Qed.

(** every route with these nodes can carry the LSPs *)
Theorem picks_ride ns gs : picks s ns gs -> forall n p v, ch n p v -> n :: map (rem s) p = ns -> exists q, rides s p gs q.
Proof.
  induction 1 as [n0|n0 a m b ls gs Sc Tu Fa Ne ND Hl P IH|n0 m b gs Sc P IH]; intros n p v C Hn.
  - destruct p; [|discriminate]. exists []. constructor.
  - assert (n = n0) by (injection Hn; auto). subst n0. destruct ls as [|l ls]; [congruence|].
    assert (HG : lsp_from s l = n /\ lsp_to s l = m) by (destruct (proj1 (Hl l) (or_introl eq_refl)) as ((_ & A & B) & _); auto).
    set (p1 := firstn (S (List.length a)) p). set (p2 := skipn (S (List.length a)) p). assert (E : p = p1 ++ p2) by (symmetry; apply firstn_skipn).
    assert (L : List.length p1 = S (List.length a)).
    { unfold p1. rewrite firstn_length. injection Hn as Hn. apply (f_equal (@List.length _)) in Hn. rewrite map_length, app_length in Hn. simpl in Hn. lia. }
    rewrite E in C, Hn. destruct (cut_nodes _ _ _ _ _ _ _ C Hn L) as [X1 X2]. destruct (IH _ _ _ X1 X2) as (q & Hq). exists (ILsp l :: q).
    rewrite E. clear E. destruct p1 as [|i p1]; [discriminate L|]. simpl. apply chain_app_inv in C as (w & C1 & C2). assert (W := chain_last_rem _ _ _ _ C1).
    apply rides_lsp with (j := last (i :: p1) i); auto.
    + apply chain_cons_inv in C1 as [<- _]. symmetry. apply HG.
    + rewrite W. destruct HG as [_ ->]. clear - C2 X1 X2 L Hn W C1. injection Hn as Hn.
      destruct (exists_last (l := i :: p1)) as (x & k & E); [discriminate|]. rewrite E in W. rewrite last_last in W.
      change (rem s i :: map (rem s) (p1 ++ p2)) with (map (rem s) ((i :: p1) ++ p2)) in Hn.
      rewrite map_app in Hn. assert (Y : map (rem s) (i :: p1) ++ map (rem s) p2 = (a ++ [m]) ++ b) by (rewrite <- app_assoc; exact Hn).
      apply app_inj_length in Y; [|rewrite map_length, app_length; simpl; simpl in L; lia]. destruct Y as [Y _]. rewrite E, map_app in Y. simpl in Y.
      apply app_inj_tail in Y as [_ Y]. congruence.
    + left; auto.
  - assert (n = n0) by (injection Hn; auto). subst n0. destruct p as [|i p]; [discriminate|]. simpl in Hn. injection Hn as D1 D2. apply chain_cons_inv in C as [_ C]. rewrite D1 in C.
    destruct (IH m p v C) as (q & Hq); [now rewrite D2|]. exists (IIf i :: q). now constructor.
Qed.

(** two least-cost routes through the same nodes cost the same at every hop *)
Lemma hop_costs ok u p p' v : least_cost s ok u p v -> least_cost s ok u p' v -> map (rem s) p = map (rem s) p' ->
  map (fun i => i_cost (h_if s i)) p = map (fun i => i_cost (h_if s i)) p'.
Proof.
  revert u p'. induction p as [|i p IH]; intros u [|i' p'] L L' H; try discriminate; auto. simpl in H. injection H as H1 H2.
  destruct L as [R M], L' as [R' M']. inversion R as [|? ? ? A1 A2 A3]; subst. inversion R' as [|? ? ? B1 B2 B3 B4]; subst.
  assert (T : least_cost s ok (rem s i) p v).
  { split; auto. intros q Rq. specialize (M (i :: q)). simpl in M. assert (route s ok (loc s i) (i :: q) v) by (constructor; auto). specialize (M H). lia. }
  assert (T' : least_cost s ok (rem s i) p' v).
  { rewrite H1. split; auto. intros q Rq. specialize (M' (i' :: q)). simpl in M'. assert (route s ok (loc s i') (i' :: q) v) by (constructor; auto). rewrite B4 in H. specialize (M' H). lia. }
  simpl. f_equal; [|eapply IH; eauto]. assert (X := M _ R'). assert (Y := M' _ R). destruct T as [T1 T2], T' as [T3 T4]. specialize (T2 _ T3). specialize (T4 _ T1). simpl in X, Y. lia.
Qed.
End Shape.
