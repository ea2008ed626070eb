(** ShortPaths.v - LSPs put in place of stretches of a simple route. *)
From Verif Require Import Base Graph Objects Sim Spec SpecSim SpecMetric SpecFlow SpecShort GraphProofs MonadProofs PathProofs LeastProofs.

(** first position with [f i = n] *)
Fixpoint idx (f : nat -> string) (n : string) (p : list nat) : option nat :=
  match p with
  | [] => None
  | i :: t => if String.eqb (f i) n then Some O else match idx f n t with Some a => Some (S a) | None => None end
  end.
Lemma idx_some f n p a : idx f n p = Some a -> exists x i y, p = x ++ i :: y /\ List.length x = a /\ f i = n.
Proof.
  revert a. induction p as [|i p IH]; simpl; intros a; [discriminate|]. destruct (String.eqb_spec (f i) n) as [E|N].
  - intros H. injection H as <-. exists [], i, p. auto.
  - destruct (idx f n p) as [b|]; [|discriminate]. intros H. injection H as <-. destruct (IH b eq_refl) as (x & j & y & -> & <- & E).
    exists (i :: x), j, y. auto.
Qed.
Lemma idx_here f x i y : NoDup (map f (x ++ i :: y)) -> idx f (f i) (x ++ i :: y) = Some (List.length x).
Proof.
  induction x as [|j x IH]; simpl; intros N; [now rewrite String.eqb_refl|]. inversion N as [|? ? N1 N2]; subst.
  destruct (String.eqb_spec (f j) (f i)) as [E|_]; [|now rewrite IH].
  exfalso. apply N1. rewrite E. rewrite map_app. apply in_or_app. right. left. reflexivity.
Qed.
Lemma pos_idx (g : item -> bool) f n p : (forall i, In i p -> g (IIf i) = String.eqb (f i) n) -> pos_where g (if_path p) = idx f n p.
Proof.
  induction p as [|i p IH]; simpl; intros H; auto. rewrite H by (left; auto). destruct (String.eqb (f i) n); auto.
  fold (if_path p). rewrite IH by (intros; apply H; right; auto). reflexivity.
Qed.

(** *** the substitution *)
Definition slice := (nat * nat * nat)%type.
Definition put (sl : slice) (p : list item) : list item := splice p (fst (fst sl)) (snd (fst sl)) (snd sl).
(** positions in increasing order, from [k] on *)
Fixpoint ascend (k : nat) (c : list slice) : Prop :=
  match c with [] => True | (a, b, _) :: t => (k <= a /\ a < b)%nat /\ ascend b t end.

Section Sub.
Variable s : st.
(** the slice has the ends of its LSP *)
Definition fits (p : list nat) (sl : slice) : Prop :=
  exists x i m y j, p = x ++ i :: m ++ y /\ List.length x = fst (fst sl) /\ List.length (x ++ i :: m) = snd (fst sl) /\
    loc s i = lsp_from s (snd sl) /\ last (i :: m) i = j /\ rem s j = lsp_to s (snd sl).

Lemma rides_ifs p gs q x : rides s p gs q -> rides s (x ++ p) gs (if_path x ++ q).
Proof. intros H. induction x as [|i x IH]; simpl; auto. now constructor. Qed.
Lemma rides_none p : rides s p [] (if_path p).
Proof. induction p; simpl; constructor; auto. Qed.
Lemma rides_none_eq p q : rides s p [] q -> q = if_path p.
Proof. intros H. remember [] as gs. induction H; try discriminate; auto. simpl. now rewrite IHrides. Qed.

Lemma skipn_app_len {A} (x y : list A) n : n = List.length x -> skipn n (x ++ y) = y.
Proof. intros ->. rewrite skipn_app, skipn_all, Nat.sub_diag. reflexivity. Qed.
Lemma firstn_app_len {A} (x y : list A) n : n = List.length x -> firstn n (x ++ y) = x.
Proof. intros ->. rewrite firstn_app, firstn_all, Nat.sub_diag. simpl. apply app_nil_r. Qed.
Lemma if_path_app x y : if_path (x ++ y) = if_path x ++ if_path y.
Proof. apply map_app. Qed.
Lemma if_path_len x : List.length (if_path x) = List.length x.
Proof. apply map_length. Qed.

(** putting the LSPs in from the last to the first *)
Lemma put_all p c : forall k gs, ascend k c -> (k <= List.length p)%nat -> Forall (fits p) c -> Forall2 (fun g sl => In (snd sl) g) gs c ->
  exists w, fold_right put (if_path p) c = if_path (firstn k p) ++ w /\ rides s (skipn k p) gs w.
Proof.
  induction c as [|[[a b] l] c IH]; intros k gs As Hk Fi Ga; inversion Ga as [|g sl gs' c' G1 G2]; subst.
  - exists (if_path (skipn k p)). split; [|apply rides_none]. simpl. rewrite <- if_path_app, firstn_skipn. reflexivity.
  - cbn [ascend] in As. destruct As as [[A1 A2] As]. inversion Fi as [|? ? F1 F2]; subst. destruct F1 as (x & i & m & y & j & Ep & L1 & L2 & B1 & B2 & B3). simpl in *.
    assert (Lb : (b <= List.length p)%nat).
    { rewrite Ep, <- L2. replace (x ++ i :: m ++ y) with ((x ++ i :: m) ++ y) by (rewrite <- app_assoc; reflexivity). rewrite (app_length (x ++ i :: m) y). lia. }
    destruct (IH b gs' As Lb F2 G2) as (w & W1 & W2).
    assert (Ep' : p = (x ++ i :: m) ++ y) by (rewrite <- app_assoc; exact Ep).
    assert (Fb : firstn b p = x ++ i :: m) by (rewrite Ep'; apply firstn_app_len; auto).
    assert (Sb : skipn b p = y) by (rewrite Ep'; apply skipn_app_len; auto).
    rewrite W1, Fb. rewrite Sb in W2. unfold put. cbn [fst snd]. unfold splice.
    assert (Fa : firstn a (if_path (x ++ i :: m) ++ w) = if_path x).
    { rewrite if_path_app, <- app_assoc. apply firstn_app_len. now rewrite if_path_len. }
    assert (Sa : skipn (Nat.max a b) (if_path (x ++ i :: m) ++ w) = w).
    { rewrite Nat.max_r by lia. apply skipn_app_len. rewrite if_path_len. symmetry. exact L2. }
    rewrite Fa, Sa. assert (Fk : firstn k p = firstn k x).
    { rewrite Ep, firstn_app. replace (k - List.length x)%nat with O by lia. simpl. apply app_nil_r. }
    exists (if_path (skipn k x) ++ ILsp l :: w). split.
    + rewrite Fk, (app_assoc (if_path (firstn k x))), <- if_path_app, firstn_skipn. reflexivity.
    + assert (Sk : skipn k p = skipn k x ++ i :: m ++ y).
      { rewrite Ep, skipn_app. replace (k - List.length x)%nat with O by lia. reflexivity. }
      rewrite Sk. apply rides_ifs. eapply rides_lsp; eauto.
Qed.

(** and every way to ride the groups comes from there *)
Lemma rides_put p gs q : rides s p gs q -> forall pre p0, p0 = pre ++ p -> NoDup (map (loc s) p0) -> NoDup (map (rem s) p0) ->
  exists c, Forall2 (fun g sl => In (snd sl) g /\ exists b, idx (loc s) (lsp_from s (snd sl)) p0 = Some (fst (fst sl)) /\
                                  idx (rem s) (lsp_to s (snd sl)) p0 = Some b /\ snd (fst sl) = S b) gs c /\
    ascend (List.length pre) c /\ fold_right put (if_path p0) c = if_path pre ++ q.
Proof.
  induction 1 as [|i p gs q R IH|i p j p' ls l gs q B1 B2 B3 Hl R IH]; intros pre p0 Ep N1 N2.
  - exists []. split; [constructor|]. split; [exact Logic.I|]. simpl. subst. now rewrite !app_nil_r.
  - destruct (IH (pre ++ [i]) p0) as (c & C1 & C2 & C3); auto; [rewrite <- app_assoc; exact Ep|]. exists c. split; [exact C1|].
    rewrite app_length in C2. simpl in C2. split.
    + destruct c as [|[[a b] l] c]; auto. cbn [ascend] in *. destruct C2 as [[X Y] Z]. split; auto. split; lia.
    + rewrite C3, if_path_app, <- app_assoc. reflexivity.
  - assert (Ep2 : p0 = (pre ++ i :: p) ++ p') by (rewrite Ep, <- app_assoc; reflexivity).
    destruct (IH (pre ++ i :: p) p0 Ep2 N1 N2) as (c & C1 & C2 & C3).
    exists ((List.length pre, List.length (pre ++ i :: p), l) :: c).
    assert (Ia : idx (loc s) (lsp_from s l) p0 = Some (List.length pre)) by (rewrite Ep, <- B1; apply idx_here; now rewrite <- Ep).
    destruct (exists_last (l := i :: p)) as (z & j' & Z); [discriminate|].
    assert (j' = j) by (rewrite <- B2, Z, last_last; reflexivity). subst j'.
    assert (Ib : idx (rem s) (lsp_to s l) p0 = Some (List.length (pre ++ z))).
    { assert (Ep3 : p0 = (pre ++ z) ++ j :: p') by (rewrite Ep2, Z, <- !app_assoc; reflexivity). rewrite Ep3, <- B3. apply idx_here. now rewrite <- Ep3. }
    split; [|split].
    + constructor; [|exact C1]. cbn [fst snd]. split; [exact Hl|]. exists (List.length (pre ++ z)). repeat split; auto.
      rewrite Z, !app_length. simpl. lia.
    + cbn [ascend]. split; [|exact C2]. rewrite app_length. simpl. lia.
    + cbn [fold_right]. rewrite C3. unfold put. cbn [fst snd]. unfold splice. rewrite Nat.max_r by (rewrite app_length; lia).
      rewrite skipn_app_len by (now rewrite if_path_len). rewrite if_path_app, <- app_assoc. rewrite firstn_app_len by (now rewrite if_path_len). reflexivity.
Qed.

End Sub.

(** *** products *)
Lemma in_product {A} (ls : list (list A)) c : In c (product ls) <-> Forall2 (fun l x => In x l) ls c.
Proof.
  revert c. induction ls as [|l ls IH]; intros c; simpl.
  - split; [intros [<-|[]]; constructor|]. intros H. inversion H; auto.
  - rewrite in_flat_map. split.
    + intros (x & Hx & H). apply in_map_iff in H as (c' & <- & Hc). constructor; auto. now apply IH.
    + intros H. inversion H; subst. exists y. split; auto. apply in_map. now apply IH.
Qed.
Lemma F2_rev {A B} (R : A -> B -> Prop) l m : Forall2 R l m -> Forall2 R (rev l) (rev m).
Proof. induction 1; simpl; [constructor|]. apply Forall2_app; auto. Qed.

Lemma opt_all_some {A} (l : list (option A)) xs : opt_all l = Some xs <-> l = map Some xs.
Proof.
  revert xs. induction l as [|[x|] l IH]; simpl; intros xs.
  - split; [intros H; injection H as <-; reflexivity|]. destruct xs; [reflexivity|discriminate].
  - destruct (opt_all l) as [ys|] eqn:O.
    + split; [intros H; injection H as <-; simpl; f_equal; now apply IH|]. destruct xs as [|y xs]; [discriminate|]. simpl. intros H. injection H as -> H.
      apply IH in H. congruence.
    + split; [discriminate|]. destruct xs as [|y xs]; [discriminate|]. simpl. intros H. injection H as -> H. apply IH in H. discriminate.
  - split; [discriminate|]. destruct xs; discriminate.
Qed.

(** *** the order of the groups along the least-cost routes *)
Section Ord.
Variables (s : st) (ok : nat -> Prop) (u v : string).
Hypothesis Cost : forall i, In i (m_ifs s) -> 1 <= i_cost (h_if s i).

Definition at_cost (n : string) (c : Z) : Prop :=
  exists x y, least_cost s ok u (x ++ y) v /\ route s ok u x n /\ c = route_cost s x.
Lemma at_fun n c c' : at_cost n c -> at_cost n c' -> c = c'.
Proof.
  intros (x1 & y1 & L1 & R1 & ->) (x2 & y2 & L2 & R2 & ->).
  assert (A := least_exchange s ok u v n _ _ _ _ L1 L2 R1 R2). assert (B := least_exchange s ok u v n _ _ _ _ L2 L1 R2 R1).
  assert (C := proj2 L1 _ (proj1 B)). assert (D := proj2 L2 _ (proj1 A)). assert (E1 := proj2 A _ (proj1 L1)). assert (E2 := proj2 B _ (proj1 L2)).
  rewrite !route_cost_app in *. lia.
Qed.

Fixpoint ord (c : Z) (gs : list (list nat)) : Prop :=
  match gs with
  | [] => True
  | g :: t => g <> [] /\ exists n m c1 c2, (forall l, In l g -> lsp_from s l = n /\ lsp_to s l = m) /\ at_cost n c1 /\ at_cost m c2 /\ c <= c1 < c2 /\ ord c2 t
  end.
Lemma ord_weak c c' gs : c' <= c -> ord c gs -> ord c' gs.
Proof. destruct gs as [|g gs]; auto. intros H (A & n & m & c1 & c2 & B & C & D & [E F] & G). split; auto. exists n, m, c1, c2. repeat split; auto; try apply B; auto; lia. Qed.

Lemma split_nodes rest a m b : map (rem s) rest = a ++ m :: b -> exists ra rb, rest = ra ++ rb /\ ra <> [] /\ map (rem s) rb = b /\
  (forall n0, route s ok n0 rest v -> route s ok n0 ra m).
Proof.
  revert a. induction rest as [|i rest IH]; intros a H; [destruct a; discriminate|]. destruct a as [|n a]; simpl in H; injection H as H1 H2.
  - exists [i], rest. repeat split; auto; [discriminate|]. intros n0 R. apply route_cons_inv in R as (-> & Hi & Ho & R). rewrite <- H1. constructor; auto. constructor.
  - destruct (IH a H2) as (ra & rb & -> & Ne & E1 & E2). exists (i :: ra), rb. repeat split; auto; [discriminate|].
    intros n0 R. apply route_cons_inv in R as (-> & Hi & Ho & R). constructor; auto.
Qed.

Lemma picks_ord ns gs : picks s ns gs -> forall pre rest n, ns = n :: map (rem s) rest -> least_cost s ok u (pre ++ rest) v -> route s ok u pre n ->
  ord (route_cost s pre) gs.
Proof.
  induction 1 as [n0|n0 a m b ls gs Sc Tu Fa Ne ND Hl P IH|n0 m b gs Sc P IH]; intros pre rest n En L R.
  - exact Logic.I.
  - injection En as -> En. symmetry in En. destruct (split_nodes _ _ _ _ En) as (ra & rb & -> & Nra & E1 & E2).
    assert (R2 : route s ok n (ra ++ rb) v) by (destruct L as [L _]; apply route_app_inv in L as (n' & L1 & L2); now rewrite (route_end _ _ _ _ _ _ R L1)).
    assert (Ra := E2 _ R2). assert (R3 : route s ok u (pre ++ ra) m) by (eapply route_app; eauto).
    assert (L3 : least_cost s ok u ((pre ++ ra) ++ rb) v) by (rewrite <- app_assoc; exact L).
    cbn [ord]. split; [exact Ne|]. exists n, m, (route_cost s pre), (route_cost s (pre ++ ra)). split; [|split; [|split; [|split]]].
    + intros l Hin. apply Hl in Hin as ((_ & A & B) & _). auto.
    + exists pre, (ra ++ rb). auto.
    + exists (pre ++ ra), rb. auto.
    + rewrite route_cost_app. apply (route_cost_pos s ok Cost) in Ra; auto. lia.
    + apply (IH _ rb m); auto. now rewrite E1.
  - injection En as -> En. destruct rest as [|i rest]; [discriminate|]. simpl in En. injection En as E1 E2.
    assert (R2 : route s ok n (i :: rest) v) by (destruct L as [L _]; apply route_app_inv in L as (n' & L1 & L2); now rewrite (route_end _ _ _ _ _ _ R L1)).
    apply route_cons_inv in R2 as (-> & Hi & Ho & R2).
    assert (R3 : route s ok u (pre ++ [i]) (rem s i)) by (eapply route_app; eauto; constructor; auto; constructor).
    apply (ord_weak (route_cost s (pre ++ [i]))); [rewrite route_cost_app; simpl; specialize (Cost i Hi); lia|].
    apply (IH _ rest m); [now rewrite E2|rewrite <- app_assoc; exact L|]. now rewrite E1.
Qed.

Lemma prefix_len x1 y1 x2 y2 : route s ok u (x1 ++ y1) v -> x1 ++ y1 = x2 ++ y2 -> route_cost s x1 <= route_cost s x2 -> (List.length x1 <= List.length x2)%nat.
Proof.
  intros R Ex C. destruct (Nat.le_gt_cases (List.length x1) (List.length x2)) as [|Lt]; auto. exfalso.
  assert (X : exists z, x1 = x2 ++ z /\ z <> []).
  { clear - Ex Lt. revert x2 Ex Lt. induction x1 as [|i x1 IH]; intros x2 Ex Lt; [simpl in Lt; lia|]. destruct x2 as [|j x2]; [exists (i :: x1); split; auto; discriminate|].
    simpl in Ex. injection Ex as -> Ex. destruct (IH x2 Ex) as (z & -> & Nz); [simpl in Lt; lia|]. exists z. auto. }
  destruct X as (z & -> & Nz). rewrite <- app_assoc in R. apply route_app_inv in R as (m & _ & R). apply route_app_inv in R as (m' & R & _).
  apply (route_cost_pos s ok Cost) in R; auto. rewrite route_cost_app in C. lia.
Qed.

(** a slice found on the route [p] *)
Definition found (p : list nat) (sl : slice) : Prop :=
  exists b, idx (loc s) (lsp_from s (snd sl)) p = Some (fst (fst sl)) /\ idx (rem s) (lsp_to s (snd sl)) p = Some b /\ snd (fst sl) = S b.

Lemma found_costs p sl n m c1 c2 : least_cost s ok u p v -> found p sl -> lsp_from s (snd sl) = n -> lsp_to s (snd sl) = m -> at_cost n c1 -> at_cost m c2 ->
  exists x i y x' j y', p = x ++ i :: y /\ p = x' ++ j :: y' /\ List.length x = fst (fst sl) /\ S (List.length x') = snd (fst sl) /\
    loc s i = n /\ rem s j = m /\ route_cost s x = c1 /\ route_cost s (x' ++ [j]) = c2.
Proof.
  intros L (b & A & B & C) En Em A1 A2. rewrite En in A. rewrite Em in B.
  apply idx_some in A as (x & i & y & Ep & Lx & Hi). apply idx_some in B as (x' & j & y' & Ep' & Lx' & Hj).
  exists x, i, y, x', j, y'. repeat split; auto; try lia.
  - apply (at_fun n); auto. exists x, (i :: y). rewrite <- Ep. repeat split; try apply L. destruct L as [R _]. rewrite Ep in R.
    apply route_app_inv in R as (n' & R1 & R2). apply route_cons_inv in R2 as (-> & _). now rewrite <- Hi.
  - apply (at_fun m); auto. exists (x' ++ [j]), y'. rewrite <- app_assoc. simpl. rewrite <- Ep'. repeat split; try apply L. destruct L as [R _]. rewrite Ep' in R.
    apply route_app_inv in R as (n' & R1 & R2). apply route_cons_inv in R2 as (-> & Q1 & Q2 & R2). rewrite <- Hj. eapply route_app; eauto. constructor; auto. constructor.
Qed.

Lemma ord_ascend p : least_cost s ok u p v -> forall gs c k x0, ord c gs -> (exists y0, p = x0 ++ y0) -> k = List.length x0 -> route_cost s x0 <= c ->
  forall cs, Forall2 (fun g sl => In (snd sl) g /\ found p sl) gs cs -> ascend k cs /\ Forall (fits s p) cs.
Proof.
  intros L. induction gs as [|g gs IH]; intros c k x0 O Ep0 Ek Ec cs F; inversion F as [|g' sl gs' cs' [F1 F2] F3]; subst; [split; [exact Logic.I|constructor]|].
  destruct Ep0 as (y0 & Ep0).
  destruct O as (Ne & n & m & c1 & c2 & Gm & A1 & A2 & [O1 O2] & O3). destruct (Gm _ F1) as [G1 G2].
  destruct (found_costs _ sl n m c1 c2 L F2 G1 G2 A1 A2) as (x & i & y & x' & j & y' & Ep & Ep' & La & Lb & Hi & Hj & C1 & C2).
  destruct sl as [[a b] l]. cbn [fst snd] in *.
  assert (Ep2 : p = (x' ++ [j]) ++ y') by (rewrite <- app_assoc; exact Ep').
  assert (K1 : (List.length x0 <= List.length x)%nat).
  { apply (prefix_len x0 y0 x (i :: y)); [rewrite <- Ep0; apply L|congruence|lia]. }
  assert (K2 : (List.length x < List.length (x' ++ [j]))%nat).
  { destruct (Nat.le_gt_cases (List.length (x' ++ [j])) (List.length x)) as [Le|]; auto. exfalso.
    assert (W : (List.length (x' ++ [j]) <= List.length x)%nat -> route_cost s (x' ++ [j]) <= route_cost s x).
    { intros Le'. assert (X : exists z, x = (x' ++ [j]) ++ z).
      { clear - Ep Ep2 Le'. rewrite Ep in Ep2. clear Ep p. revert Ep2 Le'. generalize (x' ++ [j]). intros w. revert w. induction x as [|a x IH]; intros w E1 Le'.
        - destruct w; [exists []; reflexivity|simpl in Le'; lia].
        - destruct w as [|a' w]; [exists (a :: x); reflexivity|]. simpl in E1. injection E1 as -> E1. destruct (IH w E1) as (z & ->); [simpl in Le'; lia|]. exists z. reflexivity. }
      destruct X as (z & ->). rewrite (route_cost_app _ (x' ++ [j])). assert (R := proj1 L). rewrite Ep in R. apply route_app_inv in R as (q & R & _).
      apply route_app_inv in R as (q' & _ & R). apply (route_cost_nonneg s ok Cost) in R. lia. }
    specialize (W Le). lia. }
  rewrite app_length in K2. simpl in K2.
  destruct (IH c2 (S (List.length x')) (x' ++ [j]) O3 (ex_intro _ y' Ep2)) with (cs := cs') as [I1 I2]; auto; [rewrite app_length; simpl; lia|lia|].
  split; [|constructor; [|exact I2]].
  - cbn [ascend]. split; [split; lia|]. now rewrite <- Lb.
  - assert (X : exists m0, x' ++ [j] = x ++ i :: m0 /\ y = m0 ++ y').
    { clear - Ep Ep2 K2. assert (K3 : (List.length x < List.length (x' ++ [j]))%nat) by (rewrite app_length; simpl; lia). clear K2.
      rewrite Ep in Ep2. clear Ep. revert Ep2 K3. generalize (x' ++ [j]). induction x as [|a x IH]; intros w E1 Lt.
      - destruct w as [|i' w]; [simpl in Lt; lia|]. simpl in E1. injection E1 as -> E1. exists w. auto.
      - destruct w as [|a' w]; [simpl in Lt; lia|]. simpl in E1. injection E1 as -> E1. destruct (IH w E1) as (m0 & -> & Y); [simpl in Lt; lia|]. exists m0. auto. }
    destruct X as (m0 & X1 & X2). exists x, i, m0, y', j. cbn [fst snd]. repeat split; auto.
    + rewrite Ep. now rewrite X2.
    + rewrite <- X1, app_length. simpl. lia.
    + rewrite Hi. auto.
    + assert (T : last (x ++ i :: m0) i = last (i :: m0) i).
      { clear. induction x as [|a x IH]; auto. cbn [app]. destruct (x ++ i :: m0) eqn:E; [destruct x; discriminate|]. exact IH. }
      rewrite <- T, <- X1. apply last_last.
    + rewrite Hj. auto.
Qed.
End Ord.

(** *** _insert_lsps_into_path *)
Section Insert.
Variables (s2 s : st) (ok : nat -> Prop) (u v : string).
Hypothesis Cost : forall i, In i (m_ifs s) -> 1 <= i_cost (h_if s i).
Hypothesis Eq1 : forall i l, In i (m_ifs s) -> In l (m_lsps s) -> node_eqb s2 (i_node (h_if s2 i)) (l_src (h_ls s2 l)) = String.eqb (loc s i) (lsp_from s l).
Hypothesis Eq2 : forall i l, In i (m_ifs s) -> In l (m_lsps s) -> node_eqb s2 (i_rem (h_if s2 i)) (l_dst (h_ls s2 l)) = String.eqb (rem s i) (lsp_to s l).

Definition good_group (g : list nat) : Prop :=
  g <> [] /\ exists n m, forall l, In l g -> In l (m_lsps s) /\ lsp_from s l = n /\ lsp_to s l = m.

Lemma slice_value p g : (forall i, In i p -> In i (m_ifs s)) -> good_group g ->
  match group_slice s2 (if_path p) g with
  | None => forall sl, In (snd sl) g -> ~ found s p sl
  | Some sls => forall sl, In sl sls <-> In (snd sl) g /\ found s p sl
  end.
Proof.
  intros Hp [Ne (n & m & Hg)]. unfold group_slice. destruct g as [|l0 g0] eqn:G; [congruence|]. rewrite <- G in *.
  destruct (Hg l0) as (L1 & L2 & L3); [rewrite G; left; auto|].
  rewrite (pos_idx _ (loc s) n p) by (intros i Hi; rewrite Eq1 by auto; now rewrite L2).
  rewrite (pos_idx _ (rem s) m p) by (intros i Hi; rewrite Eq2 by auto; now rewrite L3).
  assert (FF : forall sl, In (snd sl) g -> (found s p sl <-> exists b, idx (loc s) n p = Some (fst (fst sl)) /\ idx (rem s) m p = Some b /\ snd (fst sl) = S b)).
  { intros sl Hs. destruct (Hg _ Hs) as (_ & X & Y). unfold found. now rewrite X, Y. }
  destruct (idx (loc s) n p) as [a|].
  - destruct (idx (rem s) m p) as [b|].
    + intros sl. rewrite in_map_iff. split.
      * intros (l & <- & Hl). cbn [fst snd]. split; [exact Hl|]. apply FF; [exact Hl|]. exists b. auto.
      * intros [Hs F]. apply FF in F as (b' & X & Y & Z); auto. injection X as X. injection Y as <-. destruct sl as [[a' c] l]. cbn [fst snd] in *. subst. exists l. auto.
    + intros sl Hs F. apply FF in F as (b' & X & Y & Z); auto. discriminate.
  - intros sl Hs F. apply FF in F as (b' & X & Y & Z); auto. discriminate.
Qed.

Lemma least_loc_nodup p : least_cost s ok u p v -> NoDup (map (loc s) p) /\ NoDup (map (rem s) p).
Proof.
  intros L. assert (N := least_simple s ok Cost _ _ _ L). unfold route_nodes in N. split; [|now inversion N].
  assert (X : forall u0 p0 v0, route s ok u0 p0 v0 -> exists z, u0 :: map (rem s) p0 = map (loc s) p0 ++ [z]).
  { clear. intros u0 p0 v0 R. induction R as [n|i p v Hi Ho R (z & IH)]; [exists n; reflexivity|]. exists z. simpl. f_equal. exact IH. }
  destruct (X _ _ _ (proj1 L)) as (z & Z). rewrite Z in N. clear - N. induction (map (loc s) p); [constructor|]. simpl in N. inversion N; subst. constructor; auto.
  intros C. apply H1. apply in_or_app. auto.
Qed.

Lemma ord_good c gs : (forall g l, In g gs -> In l g -> In l (m_lsps s)) -> ord s ok u v c gs -> forall g, In g gs -> good_group g.
Proof.
  intros H. revert c. induction gs as [|g gs IH]; intros c O g' Hg; [destruct Hg|]. destruct O as (Ne & n & m & c1 & c2 & Gm & _ & _ & _ & O).
  destruct Hg as [<-|Hg].
  - split; auto. exists n, m. intros l Hl. destruct (Gm l Hl). repeat split; auto. apply (H g l); auto. left; auto.
  - apply (IH (fun g l X => H g l (or_intror X)) c2 O g' Hg).
Qed.

Lemma route_in p u0 v0 i : route s ok u0 p v0 -> In i p -> In i (m_ifs s).
Proof. induction 1; [intros []|]. intros [<-|X]; auto. Qed.

Lemma fold_left_rev {A B} (f : B -> A -> B) c b : fold_left f (rev c) b = fold_right (fun x acc => f acc x) b c.
Proof. rewrite <- fold_left_rev_right, rev_involutive. reflexivity. Qed.

Lemma insert_spec c gs p : least_cost s ok u p v -> 0 <= c -> ord s ok u v c gs -> (forall g l, In g gs -> In l g -> In l (m_lsps s)) ->
  match insert_lsps s2 gs (if_path p) with
  | Some fps => (exists q, In q fps) /\ forall q, In q fps <-> rides s p gs q
  | None => forall q, ~ rides s p gs q
  end.
Proof.
  intros L Hc O Hg. assert (GG := ord_good c gs Hg O). assert (Hp : forall i, In i p -> In i (m_ifs s)) by (intros i; apply (route_in p u v i (proj1 L))).
  destruct (least_loc_nodup p L) as [N1 N2]. unfold insert_lsps.
  assert (As : forall cs, Forall2 (fun g sl => In (snd sl) g /\ found s p sl) gs cs -> ascend 0 cs /\ Forall (fits s p) cs).
  { intros cs F. apply (ord_ascend s ok u v Cost p L gs c 0 []); auto; [exists p; reflexivity]. }
  assert (Rd : forall q, rides s p gs q <-> exists cs, Forall2 (fun g sl => In (snd sl) g /\ found s p sl) gs cs /\ q = fold_right put (if_path p) cs).
  { intros q. split.
    - intros R. destruct (rides_put s p gs q R [] p eq_refl N1 N2) as (cs & C1 & C2 & C3). exists cs. split; auto.
    - intros (cs & C1 & ->). destruct (As cs C1) as [A1 A2]. destruct (put_all s p cs 0%nat gs A1) as (w & W1 & W2); auto; [lia| |].
      + clear - C1. induction C1 as [|g sl gs cs [X _] F IH]; constructor; auto.
      + rewrite W1. simpl in *. exact W2. }
  destruct (opt_all (map (group_slice s2 (if_path p)) gs)) as [sls|] eqn:OA.
  - apply opt_all_some in OA.
    assert (Sl : forall cs, Forall2 (fun l x => In x l) sls cs <-> Forall2 (fun g sl => In (snd sl) g /\ found s p sl) gs cs).
    { clear - OA GG Hp Eq1 Eq2. revert sls OA GG. induction gs as [|g gs IH]; intros [|sl sls] OA GG cs; try discriminate.
      - split; intros H; inversion H; constructor.
      - simpl in OA. injection OA as O1 O2. assert (V := slice_value p g Hp (GG g (or_introl eq_refl))). rewrite O1 in V.
        specialize (IH sls O2 (fun g0 X => GG g0 (or_intror X))). split; intros H; inversion H; subst; constructor; try apply V; try apply IH; auto. }
    assert (In' : forall q, In q (map (fun combo => fold_left (fun acc sl => splice acc (fst (fst sl)) (snd (fst sl)) (snd sl)) combo (if_path p)) (product (rev sls))) <-> rides s p gs q).
    { intros q. rewrite in_map_iff, Rd. split.
      - intros (cb & <- & Hc'). apply in_product in Hc'. apply F2_rev in Hc'. rewrite rev_involutive in Hc'. exists (rev cb). split; [now apply Sl|].
        rewrite <- (rev_involutive cb) at 1. rewrite fold_left_rev. reflexivity.
      - intros (cs & C1 & ->). exists (rev cs). rewrite fold_left_rev. split; [reflexivity|]. apply in_product. apply F2_rev. now apply Sl. }
    split; [|exact In'].
    assert (X : exists cs, Forall2 (fun l x => In x l) sls cs).
    { clear - OA GG Hp Eq1 Eq2. revert sls OA GG. induction gs as [|g gs IH]; intros [|sl sls] OA GG; try discriminate; [exists []; constructor|].
      simpl in OA. injection OA as O1 O2. destruct (IH sls O2 (fun g0 X => GG g0 (or_intror X))) as (cs & C). 
      assert (Y : exists x, In x sl). { destruct (GG g (or_introl eq_refl)) as [Ne _]. unfold group_slice in O1. destruct g as [|l0 g]; [congruence|].
        destruct (pos_where _ _); [|discriminate]. destruct (pos_where _ _); [|discriminate]. injection O1 as <-. simpl. eauto. }
      destruct Y as (x & Y). exists (x :: cs). constructor; auto. }
    destruct X as (cs & X). apply Sl in X. exists (fold_right put (if_path p) cs). apply In'. apply Rd. eauto.
  - intros q R. apply Rd in R as (cs & C1 & _). clear - OA C1 GG Hp Eq1 Eq2. revert cs C1 GG. induction gs as [|g gs IH]; intros cs C1 GG; [discriminate|].
    inversion C1 as [|? sl ? cs' [X Y] F]; subst. assert (V := slice_value p g Hp (GG g (or_introl eq_refl))). simpl in OA.
    destruct (group_slice s2 (if_path p) g) as [x|]; [|apply (V sl X Y)]. destruct (opt_all (map (group_slice s2 (if_path p)) gs)); [discriminate|].
    apply (IH eq_refl cs' F). intros g' Hg'. apply GG. right. exact Hg'.
Qed.
End Insert.
