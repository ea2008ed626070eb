(** RoundProofs.v - rounding half to even on rationals. *)
From Verif Require Import Base Spec.
From Coq Require Import Lqa.

Lemma Qabs_bound x b : (Qabs x <= b)%Q <-> (-b <= x /\ x <= b)%Q.
Proof. apply Qabs_Qle_condition. Qed.

Lemma rhe_cases x : let f := Qfloor x in
  (inject_Z f <= x < inject_Z f + 1)%Q /\
  ((x < inject_Z f + (1#2))%Q /\ rhe x = f \/
   (inject_Z f + (1#2) < x)%Q /\ rhe x = (f + 1)%Z \/
   (x == inject_Z f + (1#2))%Q /\ rhe x = (if Z.even f then f else f + 1)%Z).
Proof.
  intros f. unfold f.
  assert (H1 := Qfloor_le x). assert (H2 := Qlt_floor x).
  rewrite inject_Z_plus in H2. change (inject_Z 1) with 1%Q in H2.
  split; [split; auto|]. unfold rhe.
  destruct (Qcompare (x - inject_Z (Qfloor x)) (1 # 2)) eqn:E.
  - apply Qeq_alt in E. right; right. split; [lra|auto].
  - apply Qlt_alt in E. left. split; [lra|auto].
  - apply Qgt_alt in E. right; left. split; [lra|auto].
Qed.

Lemma rhe_spec x : (Qabs (x - inject_Z (rhe x)) <= 1#2)%Q /\
  ((Qabs (x - inject_Z (rhe x)) == 1#2)%Q -> Z.even (rhe x) = true).
Proof.
  destruct (rhe_cases x) as [[H1 H2] H]. set (f := Qfloor x) in *.
  destruct H as [[H ->]|[[H ->]|[H ->]]].
  - split; [apply Qabs_bound; lra|]. intros Ha.
    assert (Qabs (x - inject_Z f) < 1#2)%Q; [|lra]. apply Qabs_case; intros; lra.
  - rewrite inject_Z_plus. change (inject_Z 1) with 1%Q.
    split; [apply Qabs_bound; lra|]. intros Ha.
    assert (Qabs (x - (inject_Z f + 1)) < 1#2)%Q; [|lra]. apply Qabs_case; intros; lra.
  - destruct (Z.even f) eqn:Ev.
    + split; [apply Qabs_bound; lra|auto].
    + rewrite inject_Z_plus. change (inject_Z 1) with 1%Q.
      split; [apply Qabs_bound; lra|]. intros _.
      rewrite Z.add_1_r, Z.even_succ. rewrite <- Z.negb_even, Ev. reflexivity.
Qed.

Lemma rhe_unique x z : (Qabs (x - inject_Z z) <= 1#2)%Q ->
  ((Qabs (x - inject_Z z) == 1#2)%Q -> Z.even z = true) -> z = rhe x.
Proof.
  intros H1 H2. destruct (rhe_spec x) as [H3 H4].
  apply Qabs_bound in H1. apply Qabs_bound in H3.
  set (w := rhe x) in *.
  assert (D : (inject_Z (z - w) <= 1 /\ -(1) <= inject_Z (z - w))%Q).
  { unfold Z.sub. rewrite inject_Z_plus, inject_Z_opp. lra. }
  change 1%Q with (inject_Z 1) in D. change (- inject_Z 1)%Q with (inject_Z (-1)) in D.
  rewrite <- !Zle_Qle in D.
  assert (C : (z = w \/ z = w + 1 \/ z = w - 1)%Z) by lia.
  destruct C as [C|[C|C]]; auto.
  - exfalso. subst z. rewrite inject_Z_plus in H1, H2. change (inject_Z 1) with 1%Q in *.
    assert (E : (x == inject_Z w + (1#2))%Q) by lra.
    assert (Z.even w = true). { apply H4. rewrite E. ring_simplify (inject_Z w + (1#2) - inject_Z w)%Q. reflexivity. }
    assert (Ev : Z.even (w + 1) = true).
    { apply H2. rewrite E. ring_simplify (inject_Z w + (1#2) - (inject_Z w + 1))%Q. reflexivity. }
    rewrite Z.add_1_r, Z.even_succ, <- Z.negb_even, H in Ev. discriminate.
  - exfalso. subst z. unfold Z.sub in H1, H2. rewrite inject_Z_plus in H1, H2. change (inject_Z (-(1))) with (-(1))%Q in *.
    assert (E : (x == inject_Z w - (1#2))%Q) by lra.
    assert (Z.even w = true). { apply H4. rewrite E. ring_simplify (inject_Z w - (1#2) - inject_Z w)%Q. reflexivity. }
    assert (Ev : Z.even (w - 1) = true).
    { apply H2. rewrite E. ring_simplify (inject_Z w - (1#2) - (inject_Z w + - (1)))%Q. reflexivity. }
    rewrite Z.sub_1_r, Z.even_pred, <- Z.negb_even, H in Ev. discriminate.
Qed.

Lemma rhe_compat x y : (x == y)%Q -> rhe x = rhe y.
Proof.
  intros E. apply rhe_unique; destruct (rhe_spec x) as [H1 H2].
  - rewrite <- E. exact H1.
  - rewrite <- E. exact H2.
Qed.


Lemma rhe_mono x y : (x <= y)%Q -> (rhe x <= rhe y)%Z.
Proof.
  intros H. destruct (Z_le_gt_dec (rhe x) (rhe y)) as [|G]; auto. exfalso.
  destruct (rhe_spec x) as [X1 X2]. destruct (rhe_spec y) as [Y1 Y2].
  apply Qabs_bound in X1. apply Qabs_bound in Y1.
  assert (G' : (inject_Z (rhe y) + 1 <= inject_Z (rhe x))%Q).
  { change 1%Q with (inject_Z 1). rewrite <- inject_Z_plus, <- Zle_Qle. lia. }
  assert (E : (x == y)%Q) by lra. apply rhe_compat in E. lia.
Qed.


(** ** round(x, n) *)

Definition roundd (d : positive) (x : Q) : Q := Qmake (rhe (x * inject_Z (Zpos d))) d.

Lemma round1_roundd x : round1 x = roundd 10 x. Proof. reflexivity. Qed.
Lemma round2_roundd x : round2 x = roundd 100 x. Proof. reflexivity. Qed.
Lemma round4_roundd x : round4 x = roundd 10000 x. Proof. reflexivity. Qed.

Lemma Qmake_scale z d : (z # d == inject_Z z / inject_Z (Zpos d))%Q.
Proof. unfold Qdiv, Qinv, inject_Z, Qmult, Qeq; simpl. destruct z; simpl; lia. Qed.

Lemma posQ d : (0 < inject_Z (Zpos d))%Q.
Proof. change 0%Q with (inject_Z 0). rewrite <- Zlt_Qlt. lia. Qed.

Lemma half_scale d : (1 # (2 * d) == (1#2) / inject_Z (Zpos d))%Q.
Proof. unfold Qeq, Qdiv, Qmult, Qinv, inject_Z; simpl. lia. Qed.

Lemma scale_abs d x z :
  (Qabs (x - (z # d)) == Qabs (x * inject_Z (Zpos d) - inject_Z z) / inject_Z (Zpos d))%Q.
Proof.
  assert (P := posQ d).
  setoid_replace (x - (z#d))%Q with ((x * inject_Z (Zpos d) - inject_Z z) / inject_Z (Zpos d))%Q.
  - unfold Qdiv at 1. rewrite Qabs_Qmult. rewrite (Qabs_pos (/ inject_Z (Zpos d))); [reflexivity|].
    apply Qlt_le_weak, Qinv_lt_0_compat, P.
  - rewrite Qmake_scale. field. lra.
Qed.

Lemma roundd_rounds d x : rounds d x (roundd d x).
Proof.
  unfold rounds, roundd. exists (rhe (x * inject_Z (Zpos d))). split; [reflexivity|].
  destruct (rhe_spec (x * inject_Z (Zpos d))) as [H1 H2]. assert (P := posQ d).
  rewrite scale_abs, half_scale. split.
  - apply Qmult_le_compat_r; auto. apply Qlt_le_weak, Qinv_lt_0_compat, P.
  - intros H. apply H2. apply (Qmult_inj_r _ _ (/ inject_Z (Zpos d))); auto.
    intros C. assert (I := Qinv_lt_0_compat _ P). lra.
Qed.

Lemma rounds_unique d x r : rounds d x r -> (r == roundd d x)%Q.
Proof.
  intros (z & Hr & Ha & He). assert (P := posQ d).
  assert (z = rhe (x * inject_Z (Zpos d))).
  { apply rhe_unique.
    - rewrite Hr, scale_abs, half_scale in Ha. unfold Qdiv in Ha.
      apply Qmult_le_r in Ha; [exact Ha|]. apply Qinv_lt_0_compat, P.
    - intros H. apply He. rewrite Hr, scale_abs, half_scale. rewrite H. reflexivity. }
  subst z. exact Hr.
Qed.

Lemma rounds_compat d x y r t : (x == y)%Q -> (r == t)%Q -> rounds d x r -> rounds d y t.
Proof.
  intros E1 E2 (z & H1 & H2 & H3). exists z. rewrite <- E1, <- E2. auto.
Qed.

Lemma roundd_compat d x y : (x == y)%Q -> roundd d x = roundd d y.
Proof. intros E. unfold roundd. f_equal. apply rhe_compat. rewrite E. reflexivity. Qed.

Lemma roundd_mono d x y : (x <= y)%Q -> (roundd d x <= roundd d y)%Q.
Proof.
  intros H. unfold roundd, Qle; simpl. assert (P := posQ d).
  apply Zmult_le_compat_r; [|lia]. apply rhe_mono. apply Qmult_le_compat_r; auto. apply Qlt_le_weak; auto.
Qed.

(** multiples of 1/d *)
Definition multiple (d : positive) (x : Q) : Prop := exists z, (x == z # d)%Q.

Lemma roundd_multiple d x : multiple d (roundd d x).
Proof. exists (rhe (x * inject_Z (Zpos d))). reflexivity. Qed.

Lemma roundd_id d x : multiple d x -> (roundd d x == x)%Q.
Proof.
  intros [z E]. symmetry. apply rounds_unique. exists z. split; auto.
  assert (H : (Qabs (x - x) == 0)%Q). { setoid_replace (x - x)%Q with 0%Q by ring. reflexivity. }
  rewrite H. split; [unfold Qle; simpl; lia|]. intros C. exfalso. unfold Qeq in C; simpl in C. lia.
Qed.

Lemma multiple_0 d : multiple d 0.
Proof. exists 0%Z. reflexivity. Qed.
Lemma multiple_plus d x y : multiple d x -> multiple d y -> multiple d (x + y).
Proof.
  intros [a Ha] [b Hb]. exists (a + b)%Z. rewrite Ha, Hb. unfold Qeq, Qplus; simpl. nia.
Qed.

(** A rounded value plus a multiple: no rounding happens. *)
Lemma roundd_plus_multiple d x y : multiple d x -> multiple d y -> (roundd d (x + y) == x + y)%Q.
Proof. intros. apply roundd_id, multiple_plus; auto. Qed.
