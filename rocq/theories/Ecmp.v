(** Ecmp.v - arithmetic of equal-cost splitting, on an abstract set of paths. *)
From Verif Require Import Base.
From Coq Require Import Lqa.

(** ** Sums *)
Definition sumq {A} (f : A -> Q) (l : list A) : Q := Qsum (map f l).

Lemma sumq_nil {A} (f : A -> Q) : sumq f [] = 0%Q. Proof. reflexivity. Qed.
Lemma sumq_cons {A} (f : A -> Q) x l : sumq f (x :: l) = (f x + sumq f l)%Q. Proof. reflexivity. Qed.
Lemma Qsum_app a b : (Qsum (a ++ b) == Qsum a + Qsum b)%Q.
Proof. induction a as [|x a IH]; simpl; [ring|]. rewrite IH. ring. Qed.
Lemma sumq_app {A} (f : A -> Q) a b : (sumq f (a ++ b) == sumq f a + sumq f b)%Q.
Proof. unfold sumq. rewrite map_app. apply Qsum_app. Qed.
Lemma sumq_ext {A} (f g : A -> Q) l : (forall x, In x l -> (f x == g x)%Q) -> (sumq f l == sumq g l)%Q.
Proof.
  induction l as [|x l IH]; intros H; [reflexivity|]. rewrite !sumq_cons, IH, (H x); simpl; auto; [reflexivity|]. intros; apply H; simpl; auto.
Qed.
Lemma sumq_plus {A} (f g : A -> Q) l : (sumq (fun x => f x + g x) l == sumq f l + sumq g l)%Q.
Proof. induction l as [|x l IH]; [reflexivity|]. rewrite !sumq_cons, IH. ring. Qed.
Lemma sumq_scale {A} c (f : A -> Q) l : (sumq (fun x => c * f x) l == c * sumq f l)%Q.
Proof. induction l as [|x l IH]; [unfold sumq; simpl; ring|]. rewrite !sumq_cons, IH. ring. Qed.
Lemma sumq_zero {A} (f : A -> Q) l : (forall x, In x l -> (f x == 0)%Q) -> (sumq f l == 0)%Q.
Proof. induction l as [|x l IH]; intros H; [reflexivity|]. rewrite sumq_cons, IH, (H x); simpl; auto; [reflexivity|]. intros; apply H; simpl; auto. Qed.
Lemma sumq_const {A} c (l : list A) : (sumq (fun _ => c) l == inject_Z (Z.of_nat (List.length l)) * c)%Q.
Proof.
  induction l as [|x l IH]; [unfold sumq; simpl; ring|]. rewrite sumq_cons, IH. cbn [List.length]. rewrite Nat2Z.inj_succ.
  unfold Z.succ. rewrite inject_Z_plus. change (inject_Z 1) with 1%Q. ring.
Qed.
Lemma sumq_swap {A B} (f : A -> B -> Q) l m : (sumq (fun x => sumq (f x) m) l == sumq (fun y => sumq (fun x => f x y) l) m)%Q.
Proof.
  induction l as [|x l IH].
  - rewrite sumq_nil. symmetry. apply sumq_zero. reflexivity.
  - rewrite sumq_cons, IH. rewrite <- sumq_plus. apply sumq_ext. intros y _. now rewrite sumq_cons.
Qed.
Lemma sumq_map {A B} (f : B -> Q) (g : A -> B) l : sumq f (map g l) = sumq (fun x => f (g x)) l.
Proof. unfold sumq. now rewrite map_map. Qed.
Lemma sumq_flat_map {A B} (f : B -> Q) (g : A -> list B) l : (sumq f (flat_map g l) == sumq (fun x => sumq f (g x)) l)%Q.
Proof. induction l as [|x l IH]; [reflexivity|]. simpl flat_map. rewrite sumq_app, sumq_cons, IH. reflexivity. Qed.
Lemma sumq_filter {A} (f : A -> Q) (b : A -> bool) l : (sumq f (filter b l) == sumq (fun x => if b x then f x else 0) l)%Q.
Proof.
  induction l as [|x l IH]; [reflexivity|]. cbn [filter]. rewrite (sumq_cons _ x l), <- IH. destruct (b x); [rewrite sumq_cons; reflexivity|ring].
Qed.
Lemma sumq_perm {A} (f : A -> Q) l m : Permutation l m -> (sumq f l == sumq f m)%Q.
Proof.
  induction 1.
  - reflexivity.
  - now rewrite !sumq_cons, IHPermutation.
  - rewrite !sumq_cons. ring.
  - etransitivity; eauto.
Qed.
(** exactly one element of [D] satisfies the test *)
Lemma sumq_single (D : list nat) i c : NoDup D -> In i D -> (sumq (fun j => if Nat.eqb j i then c else 0) D == c)%Q.
Proof.
  induction 1 as [|x D Hx N IH]; intros Hi; [destruct Hi|]. rewrite sumq_cons. destruct Hi as [->|Hi].
  - rewrite Nat.eqb_refl. rewrite sumq_zero; [ring|]. intros y Hy. destruct (Nat.eqb_spec y i) as [->|]; [tauto|reflexivity].
  - destruct (Nat.eqb_spec x i) as [->|]; [tauto|]. rewrite IH by auto. ring.
Qed.
Lemma sumq_pick (D : list nat) i (f : nat -> Q) : NoDup D -> In i D -> (sumq (fun j => if Nat.eqb j i then f j else 0) D == f i)%Q.
Proof.
  intros N Hi. rewrite <- (sumq_single D i (f i) N Hi). apply sumq_ext. intros j _. destruct (Nat.eqb_spec j i) as [->|]; reflexivity.
Qed.

(** ** Paths *)
Section Paths.
Variables loc rem : nat -> string.

Inductive chain : string -> list nat -> string -> Prop :=
| chain_nil n : chain n [] n
| chain_cons i p v : chain (rem i) p v -> chain (loc i) (i :: p) v.

Lemma chain_nil_inv u v : chain u [] v -> u = v.
Proof. now inversion 1. Qed.
Lemma chain_cons_inv u i p v : chain u (i :: p) v -> u = loc i /\ chain (rem i) p v.
Proof. inversion 1; auto. Qed.
Lemma chain_app u p v q w : chain u p v -> chain v q w -> chain u (p ++ q) w.
Proof. induction 1; simpl; auto. constructor. auto. Qed.
Lemma chain_app_inv p : forall u q w, chain u (p ++ q) w -> exists v, chain u p v /\ chain v q w.
Proof.
  induction p as [|i p IH]; simpl; intros u q w H.
  - exists u. split; [constructor|auto].
  - apply chain_cons_inv in H as [-> H]. apply IH in H as (v & A & B). exists v. split; auto. now constructor.
Qed.
Lemma chain_end u p v v' : chain u p v -> chain u p v' -> v = v'.
Proof.
  intros H. revert v'. induction H; intros v' H'; [now apply chain_nil_inv in H'|]. apply chain_cons_inv in H' as [_ H']. auto.
Qed.
Definition nodes (u : string) (p : list nat) : list string := u :: map rem p.
Lemma chain_last u p v : chain u p v -> In v (nodes u p).
Proof. unfold nodes. induction 1; simpl in *; auto. Qed.
Lemma chain_loc u p v i : chain u p v -> In i p -> In (loc i) (nodes u p).
Proof.
  unfold nodes. induction 1; [intros []|]. intros [<-|H1]; [left; auto|]. right. simpl. destruct (IHchain H1) as [<-|H2]; auto.
Qed.
Lemma nodes_cut u p v n : chain u p v -> In n (nodes u p) -> exists x y, p = x ++ y /\ chain u x n /\ chain n y v.
Proof.
  unfold nodes. induction 1 as [n'|i p v H IH]; intros Hn.
  - destruct Hn as [<-|[]]. exists [], []. repeat split; constructor.
  - destruct Hn as [<-|Hn].
    + exists [], (i :: p). repeat split; constructor. auto.
    + simpl in Hn. destruct IH as (x & y & -> & A & B); [exact Hn|]. exists (i :: x), y. repeat split; auto. now constructor.
Qed.

Variables (L : list (list nat)) (u v : string).
Hypothesis Hchain : forall p, In p L -> chain u p v.
Hypothesis Hsimple : forall p, In p L -> NoDup (nodes u p).
Hypothesis Hex : forall x1 y1 x2 y2 n, In (x1 ++ y1) L -> In (x2 ++ y2) L -> chain u x1 n -> chain u x2 n -> In (x1 ++ y2) L.
Hypothesis Hnodup : NoDup L.
(** the interfaces leaving a node *)
Variable outs : string -> list nat.
Hypothesis Houts : forall n, NoDup (outs n).
Hypothesis Hin_outs : forall n i, In i (outs n) <-> loc i = n /\ exists p, In p L /\ In i p.

Definition deg (n : string) : Q := inject_Z (Z.of_nat (List.length (outs n))).
Fixpoint w (p : list nat) : Q := match p with [] => 1 | i :: t => / deg (loc i) * w t end.

Definition tails (i : nat) (Y : list (list nat)) : list (list nat) :=
  flat_map (fun y => match y with j :: t => if Nat.eqb j i then [t] else [] | [] => [] end) Y.
Fixpoint suf (x : list nat) (Y : list (list nat)) : list (list nat) :=
  match x with [] => Y | i :: t => suf t (tails i Y) end.
Lemma suf_snoc x i Y : suf (x ++ [i]) Y = tails i (suf x Y).
Proof. revert Y. induction x; simpl; auto. Qed.
Lemma in_tails i Y y : In y (tails i Y) <-> In (i :: y) Y.
Proof.
  unfold tails. rewrite in_flat_map. split.
  - intros ([|j t] & A & B); [destruct B|]. destruct (Nat.eqb_spec j i) as [->|]; [|destruct B]. destruct B as [->|[]]. auto.
  - intros H. exists (i :: y). split; auto. rewrite Nat.eqb_refl. left. auto.
Qed.
Lemma in_suf x : forall Y y, In y (suf x Y) <-> In (x ++ y) Y.
Proof. induction x as [|i x IH]; simpl; intros Y y; [tauto|]. rewrite IH. apply in_tails. Qed.
Lemma nodup_tails i Y : NoDup Y -> NoDup (tails i Y).
Proof.
  induction 1 as [|y Y Hy N IH]; [constructor|]. simpl. destruct y as [|j t]; [exact IH|]. destruct (Nat.eqb_spec j i) as [->|]; [|exact IH].
  simpl. constructor; auto. intros X. apply in_tails in X. auto.
Qed.
Lemma nodup_suf x : forall Y, NoDup Y -> NoDup (suf x Y).
Proof. induction x; simpl; auto. intros. apply IHx. now apply nodup_tails. Qed.

Lemma group_heads (f : list nat -> Q) (D : list nat) (Y : list (list nat)) : NoDup D ->
  (forall y, In y Y -> exists i t, y = i :: t /\ In i D) ->
  (sumq f Y == sumq (fun i => sumq (fun t => f (i :: t)) (tails i Y)) D)%Q.
Proof.
  intros ND. induction Y as [|y Y IH]; intros H.
  - simpl. symmetry. rewrite sumq_zero; [reflexivity|]. intros. reflexivity.
  - rewrite sumq_cons. rewrite IH by (intros; apply H; simpl; auto). destruct (H y (or_introl eq_refl)) as (i & t & -> & Hi).
    rewrite <- (sumq_pick D i (fun j => f (j :: t)) ND Hi). rewrite <- sumq_plus. apply sumq_ext. intros j _. simpl.
    rewrite (Nat.eqb_sym j i). destruct (Nat.eqb_spec i j) as [->|].
    + simpl. rewrite sumq_cons. reflexivity.
    + simpl. ring.
Qed.

Lemma deg_pos n i : In i (outs n) -> (0 < deg n)%Q.
Proof.
  intros H. unfold deg. destruct (outs n) as [|a l]; [destruct H|]. simpl List.length. unfold Qlt. simpl. lia.
Qed.

Lemma suffix_facts x n y : chain u x n -> In y (suf x L) -> chain n y v /\ NoDup (nodes u (x ++ y)).
Proof.
  intros C Hy. apply in_suf in Hy. split; [|now apply Hsimple]. apply Hchain in Hy. apply chain_app_inv in Hy as (m & A & B).
  rewrite (chain_end _ _ _ _ C A). exact B.
Qed.
Lemma nodup_app_r {A} (a b : list A) : NoDup (a ++ b) -> NoDup b.
Proof. induction a; simpl; auto. inversion 1; auto. Qed.
Lemma suffix_simple x n y : chain u x n -> In y (suf x L) -> NoDup (nodes n y).
Proof.
  intros C Hy. destruct (suffix_facts x n y C Hy) as [_ S]. unfold nodes in *. rewrite map_app in S.
  destruct x as [|a x0] using rev_ind.
  - apply chain_nil_inv in C. subst. exact S.
  - clear IHx0. apply chain_app_inv in C as (m & _ & C). apply chain_cons_inv in C as [_ C]. apply chain_nil_inv in C. subst n.
    rewrite map_app in S. simpl in S. inversion S as [|? ? _ S1]. rewrite <- app_assoc in S1. apply nodup_app_r in S1. exact S1.
Qed.
(** at the destination a path ends *)
Lemma suffix_end x y : chain u x v -> In y (suf x L) -> y = [].
Proof.
  intros C Hy. destruct (suffix_facts _ _ _ C Hy) as [H1 _]. assert (S := suffix_simple _ _ _ C Hy). destruct y as [|i t]; auto. exfalso.
  apply chain_cons_inv in H1 as [_ H1]. apply chain_last in H1. inversion S; subst. auto.
Qed.
Lemma suffix_head x n y : n <> v -> chain u x n -> In y (suf x L) -> exists i t, y = i :: t /\ In i (outs n).
Proof.
  intros Nv C Hy. destruct (suffix_facts _ _ _ C Hy) as [H1 _]. destruct y as [|i t].
  - apply chain_nil_inv in H1. congruence.
  - exists i, t. split; auto. apply Hin_outs. apply chain_cons_inv in H1 as [-> _]. split; auto. apply in_suf in Hy. exists (x ++ i :: t). split; auto.
    apply in_or_app. right. left. auto.
Qed.
Lemma outs_suffix x n i : chain u x n -> suf x L <> [] -> In i (outs n) -> suf (x ++ [i]) L <> [].
Proof.
  intros C Ne Hi. apply Hin_outs in Hi as (Hl & p & Hp & Hi). apply in_split in Hi as (x2 & y2 & ->).
  destruct (suf x L) as [|y0 Y] eqn:Es; [congruence|].
  assert (H0 : In (x ++ y0) L) by (apply in_suf; rewrite Es; left; auto).
  assert (C2 : chain u x2 n).
  { apply Hchain in Hp. apply chain_app_inv in Hp as (m & A & B). apply chain_cons_inv in B as [-> _]. now rewrite Hl in A. }
  assert (X := Hex x y0 x2 (i :: y2) n H0 Hp C C2). intros Z. 
  assert (I : In y2 (suf (x ++ [i]) L)) by (apply in_suf; rewrite <- app_assoc; exact X). rewrite Z in I. destruct I.
Qed.
Lemma chain_snoc x n i : chain u x n -> loc i = n -> chain u (x ++ [i]) (rem i).
Proof. intros C <-. eapply chain_app; [exact C|]. repeat constructor. Qed.

(** one step along the paths *)
Lemma step_sum (f : list nat -> Q) x n : n <> v -> chain u x n ->
  (sumq (fun y => f y * w y) (suf x L) == sumq (fun i => / deg n * sumq (fun t => f (i :: t) * w t) (suf (x ++ [i]) L)) (outs n))%Q.
Proof.
  intros Nv C. rewrite (group_heads _ (outs n) _ (Houts n)); [|intros; eapply suffix_head; eauto].
  apply sumq_ext. intros i Hi. rewrite suf_snoc. rewrite <- sumq_scale. apply sumq_ext. intros t _. simpl.
  apply Hin_outs in Hi as (-> & _). ring.
Qed.

Lemma max_len Y : exists m, forall y : list nat, In y Y -> (List.length y <= m)%nat.
Proof.
  induction Y as [|y Y (m & IH)]; [exists O; intros y []|]. exists (Nat.max (List.length y) m). intros z [->|Hz]; [lia|]. apply IH in Hz. lia.
Qed.

Lemma shares_sum : forall m x n, chain u x n -> suf x L <> [] -> (forall y, In y (suf x L) -> (List.length y <= m)%nat) ->
  (sumq w (suf x L) == 1)%Q.
Proof.
  assert (Base : forall x, chain u x v -> suf x L <> [] -> (sumq w (suf x L) == 1)%Q).
  { intros x C Ne. destruct (suf x L) as [|y Y] eqn:Es; [congruence|].
    assert (Ey : y = []) by (apply (suffix_end x); auto; rewrite Es; left; auto). subst y.
    assert (N := nodup_suf x L Hnodup). rewrite Es in N. inversion N as [|? ? Ny NY]; subst.
    destruct Y as [|z Y]; [reflexivity|]. exfalso. assert (z = []) by (apply (suffix_end x); auto; rewrite Es; right; left; auto). subst. apply Ny. left. auto. }
  induction m as [|m IH]; intros x n C Ne Len.
  - destruct (string_dec n v) as [->|Nv]; [now apply Base|]. destruct (suf x L) as [|y Y] eqn:Es; [congruence|]. exfalso.
    destruct (suffix_head x n y Nv C) as (i & t & -> & _); [rewrite Es; left; auto|]. specialize (Len (i :: t) (or_introl eq_refl)). simpl in Len. lia.
  - destruct (string_dec n v) as [->|Nv]; [now apply Base|].
    rewrite (sumq_ext w (fun y => 1 * w y)%Q) by (intros; ring). rewrite (step_sum (fun _ => 1%Q) x n Nv C).
    rewrite (sumq_ext _ (fun _ => / deg n)%Q).
    + rewrite sumq_const. fold (deg n). destruct (suf x L) as [|y Y] eqn:Es; [congruence|].
      destruct (suffix_head x n y Nv C) as (i & t & -> & Hi); [rewrite Es; left; auto|]. assert (P := deg_pos n i Hi). field. lra.
    + intros i Hi. rewrite (sumq_ext _ w) by (intros; ring). rewrite (IH (x ++ [i]) (rem i)).
      * ring.
      * apply chain_snoc with (n := n); auto. now apply Hin_outs in Hi as (-> & _).
      * eapply outs_suffix; eauto.
      * intros y Hy. rewrite suf_snoc in Hy. apply in_tails in Hy. apply Len in Hy. simpl in Hy. lia.
Qed.

Lemma shares_at x n : chain u x n -> suf x L <> [] -> (sumq w (suf x L) == 1)%Q.
Proof. intros C Ne. destruct (max_len (suf x L)) as (m & Hm). eapply shares_sum; eauto. Qed.

(** the whole is divided among the paths *)
Theorem shares_total : L <> [] -> (sumq w L == 1)%Q.
Proof. intros H. apply (shares_at [] u); [constructor|exact H]. Qed.

(** *** the amount over an interface and through a node *)
Definition b2q (b : bool) : Q := if b then 1 else 0.
Definition mems (n : string) (l : list string) : bool := existsb (String.eqb n) l.
Definition memn (n : nat) (l : list nat) : bool := existsb (Nat.eqb n) l.
Lemma mems_in n l : mems n l = true <-> In n l.
Proof. unfold mems. rewrite existsb_exists. split; [intros (x & A & B); apply String.eqb_eq in B; now subst|]. exists n. split; auto. apply String.eqb_refl. Qed.
Lemma memn_in n l : memn n l = true <-> In n l.
Proof. unfold memn. rewrite existsb_exists. split; [intros (x & A & B); apply Nat.eqb_eq in B; now subst|]. exists n. split; auto. apply Nat.eqb_refl. Qed.
Lemma memn_false n l : memn n l = false <-> ~ In n l.
Proof. rewrite <- memn_in. destruct (memn n l); split; congruence. Qed.
Lemma mems_false n l : mems n l = false <-> ~ In n l.
Proof. rewrite <- mems_in. destruct (mems n l); split; congruence. Qed.

Lemma over_through i n : In i (outs n) -> forall m x k, chain u x k -> (forall y, In y (suf x L) -> (List.length y <= m)%nat) ->
  suf x L <> [] ->
  (sumq (fun y => b2q (memn i y) * w y) (suf x L) == / deg n * sumq (fun y => b2q (mems n (nodes k y)) * w y) (suf x L))%Q.
Proof.
  intros Hi. assert (Li : loc i = n) by (now apply Hin_outs in Hi as (-> & _)). assert (P := deg_pos n i Hi).
  assert (nv : n <> v).
  { intros ->. apply Hin_outs in Hi as (_ & p & Hp & Hi). apply in_split in Hi as (x2 & y2 & ->).
    assert (C := Hchain _ Hp). apply chain_app_inv in C as (k & C1 & C2). assert (k = v) by (apply chain_cons_inv in C2 as [-> _]; auto). subst k.
    assert (E : i :: y2 = []); [|discriminate]. eapply suffix_end; [exact C1|]. apply in_suf. exact Hp. }
  (* at the node itself *)
  assert (At : forall x, chain u x n -> suf x L <> [] ->
     (sumq (fun y => b2q (memn i y) * w y) (suf x L) == / deg n * sumq (fun y => b2q (mems n (nodes n y)) * w y) (suf x L))%Q).
  { intros x C Ne. rewrite (step_sum (fun y => b2q (memn i y)) x n nv C).
    rewrite (sumq_ext (fun y => b2q (mems n (nodes n y)) * w y)%Q w).
    2:{ intros y _. unfold nodes, mems, b2q. simpl. rewrite String.eqb_refl. simpl. ring. }
    rewrite (shares_at x n C Ne).
    rewrite (sumq_ext _ (fun j => if Nat.eqb j i then / deg n else 0)%Q).
    - rewrite (sumq_single (outs n) i (/ deg n) (Houts n) Hi). ring.
    - intros j Hj. assert (Lj : loc j = n) by (now apply Hin_outs in Hj as (-> & _)). assert (Cj := chain_snoc x n j C Lj).
      destruct (Nat.eqb_spec j i) as [->|Nj].
      + rewrite (sumq_ext _ w).
        * rewrite (shares_at _ _ Cj); [ring|]. eapply outs_suffix; eauto.
        * intros t _. unfold memn, b2q. simpl. rewrite Nat.eqb_refl. simpl. ring.
      + rewrite sumq_zero; [ring|]. intros t Ht. replace (memn i (j :: t)) with false; [unfold b2q; ring|]. symmetry. apply memn_false.
        intros [X|X]; [congruence|]. rewrite suf_snoc in Ht. apply in_tails in Ht. assert (S := suffix_simple _ _ _ C Ht).
        destruct (suffix_facts _ _ _ C Ht) as [C' _]. apply chain_cons_inv in C' as [_ C']. assert (Y := chain_loc _ _ _ _ C' X).
        rewrite Li in Y. inversion S; subst. auto. }
  induction m as [|m IH]; intros x k C Len Ne.
  - destruct (string_dec k n) as [->|Nk]; [auto|].
    rewrite !sumq_zero; [ring| |]; intros y Hy; assert (y = []) by (apply Len in Hy; destruct y; simpl in Hy; [auto|lia]); subst y.
    + replace (mems n (nodes k [])) with false; [unfold b2q; ring|]. symmetry. apply mems_false. intros [X|[]]. congruence.
    + unfold memn, b2q. simpl. ring.
  - destruct (string_dec k n) as [->|Nk]; [auto|]. destruct (string_dec k v) as [->|Nv].
    + rewrite !sumq_zero; [ring| |]; intros y Hy; rewrite (suffix_end x y C Hy).
      * replace (mems n (nodes v [])) with false; [unfold b2q; ring|]. symmetry. apply mems_false. intros [X|[]]. congruence.
      * unfold memn, b2q. simpl. ring.
    + rewrite (step_sum (fun y => b2q (memn i y)) x k Nv C), (step_sum (fun y => b2q (mems n (nodes k y))) x k Nv C).
      rewrite <- sumq_scale. apply sumq_ext. intros j Hj. assert (Lj : loc j = k) by (now apply Hin_outs in Hj as (-> & _)).
      rewrite (sumq_ext (fun t => b2q (memn i (j :: t)) * w t)%Q (fun t => b2q (memn i t) * w t)%Q).
      2:{ intros t _. unfold memn. simpl. destruct (Nat.eqb_spec i j) as [->|]; [congruence|]. reflexivity. }
      rewrite (sumq_ext (fun t => b2q (mems n (nodes k (j :: t))) * w t)%Q (fun t => b2q (mems n (nodes (rem j) t)) * w t)%Q).
      2:{ intros t _. unfold mems, nodes. simpl. destruct (String.eqb_spec n k) as [->|]; [congruence|]. reflexivity. }
      rewrite (IH (x ++ [j]) (rem j)).
      * ring.
      * eapply chain_snoc; eauto.
      * intros y Hy. rewrite suf_snoc in Hy. apply in_tails in Hy. apply Len in Hy. simpl in Hy. lia.
      * eapply outs_suffix; eauto.
Qed.

Definition over (i : nat) : Q := sumq (fun p => b2q (memn i p) * w p)%Q L.
Definition through (n : string) : Q := sumq (fun p => b2q (mems n (nodes u p)) * w p)%Q L.

Theorem over_share i n : In i (outs n) -> (over i == through n / deg n)%Q.
Proof.
  intros Hi. destruct (max_len L) as (m & Hm). assert (Ne : L <> []).
  { apply Hin_outs in Hi as (_ & p & Hp & _). destruct L; [destruct Hp|discriminate]. }
  unfold over, through. rewrite (over_through i n Hi m [] u); [simpl suf; field; assert (P := deg_pos n i Hi); lra|constructor|exact Hm|exact Ne].
Qed.
Lemma through_source : L <> [] -> (through u == 1)%Q.
Proof.
  intros Ne. unfold through. rewrite (sumq_ext _ w); [now apply shares_total|]. intros p _. unfold mems, nodes, b2q. simpl. rewrite String.eqb_refl. simpl. ring.
Qed.
Lemma through_dest : L <> [] -> (through v == 1)%Q.
Proof.
  intros Ne. unfold through. rewrite (sumq_ext _ w); [now apply shares_total|]. intros p Hp. replace (mems v (nodes u p)) with true; [unfold b2q; ring|].
  symmetry. apply mems_in. apply chain_last. auto.
Qed.
(** everything that goes through a node (not the destination) leaves it *)
Lemma through_out n : n <> v -> (sumq over (outs n) == through n)%Q.
Proof.
  intros Nv. destruct (outs n) as [|i l] eqn:Eo.
  - rewrite sumq_nil. symmetry. unfold through. apply sumq_zero. intros p Hp. destruct (mems n (nodes u p)) eqn:Em; [|unfold b2q; ring]. exfalso.
    apply mems_in in Em. destruct (nodes_cut _ _ _ _ (Hchain _ Hp) Em) as (x & y & -> & C & _).
    destruct (suffix_head x n y Nv C) as (i & t & _ & Hi); [apply in_suf; exact Hp|]. rewrite Eo in Hi. destruct Hi.
  - rewrite <- Eo. rewrite (sumq_ext _ (fun _ => through n / deg n)%Q); [|intros j Hj; now apply over_share].
    rewrite sumq_const. fold (deg n). assert (P : (0 < deg n)%Q) by (apply (deg_pos n i); rewrite Eo; left; auto). field. lra.
Qed.
(** everything that goes through a node (not the source) enters it *)
Lemma through_in n (ins : list nat) : n <> u -> NoDup ins -> (forall i, In i ins <-> rem i = n /\ exists p, In p L /\ In i p) ->
  (sumq over ins == through n)%Q.
Proof.
  intros Nu ND Hins. unfold over, through. rewrite (sumq_swap (fun i p => b2q (memn i p) * w p)%Q). apply sumq_ext. intros p Hp.
  rewrite (sumq_ext _ (fun i => w p * b2q (memn i p))%Q) by (intros; ring). rewrite sumq_scale. rewrite (Qmult_comm _ (w p)). apply Qmult_comp; [reflexivity|].
  destruct (mems n (nodes u p)) eqn:Em.
  - apply mems_in in Em. destruct Em as [X|Em]; [congruence|]. apply in_map_iff in Em as (i & Ri & Hi).
    assert (Ii : In i ins) by (apply Hins; split; eauto). rewrite (sumq_ext _ (fun j => if Nat.eqb j i then 1 else 0)%Q).
    + unfold b2q. now apply sumq_single.
    + intros j Hj. destruct (Nat.eqb_spec j i) as [->|Nj].
      * apply memn_in in Hi. now rewrite Hi.
      * replace (memn j p) with false; [reflexivity|]. symmetry. apply memn_false. intros X.
        assert (S := Hsimple _ Hp). inversion S as [|? ? _ S1]; subst. apply Hins in Hj as [Rj _].
        clear - S1 X Hi Nj Rj. induction p as [|a p IH]; [destruct X|]. simpl in S1. inversion S1 as [|? ? A B]; subst.
        destruct X as [->|X], Hi as [->|Hi]; [congruence| | |auto].
        -- apply A. apply in_map_iff. exists i. split; auto.
        -- apply A. apply in_map_iff. exists j. split; auto.
  - rewrite sumq_zero; [reflexivity|]. intros i Hi. replace (memn i p) with false; [reflexivity|]. symmetry. apply memn_false. intros X.
    apply mems_false in Em. apply Em. right. apply Hins in Hi as [<- _]. now apply in_map.
Qed.
End Paths.
