(** FloatProofs.v - the rounding error of float operations. *)
From Verif Require Import Base Float RoundProofs.
From Coq Require Import Lqa Qpower.

Local Open Scope Q_scope.

(** The largest relative error of one operation *)
Definition ulp : Q := pow2 (-53).
Lemma ulp_value : ulp == 1 # (2 ^ 53). Proof. reflexivity. Qed.

Lemma two_not : ~ 2 == 0. Proof. discriminate. Qed.
Lemma pow2_plus a b : pow2 (a + b) == pow2 a * pow2 b.
Proof. apply Qpower_plus. exact two_not. Qed.
Lemma pow2_nat n : pow2 (Z.of_nat n) == inject_Z (2 ^ Z.of_nat n).
Proof.
  induction n as [|n IH]; [reflexivity|]. rewrite Nat2Z.inj_succ. unfold Z.succ. rewrite pow2_plus, IH, Z.pow_add_r by lia. rewrite inject_Z_mult. reflexivity.
Qed.
Lemma pow2_Z z : (0 <= z)%Z -> pow2 z == inject_Z (2 ^ z).
Proof. intros H. rewrite <- (Z2Nat.id z H). apply pow2_nat. Qed.
Lemma pow2_inv z : pow2 z * pow2 (- z) == 1.
Proof. rewrite <- pow2_plus. replace (z + - z)%Z with 0%Z by lia. reflexivity. Qed.
Lemma pow2_nonneg z : (0 <= z)%Z -> 0 < pow2 z.
Proof. intros H. rewrite pow2_Z by auto. change 0 with (inject_Z 0). rewrite <- Zlt_Qlt. apply Z.pow_pos_nonneg; lia. Qed.
Lemma pow2_pos z : 0 < pow2 z.
Proof.
  destruct (Z.le_ge_cases 0 z) as [H|H]; [now apply pow2_nonneg|].
  assert (A := pow2_nonneg (- z) ltac:(lia)). assert (B := pow2_inv z). 
  destruct (Qlt_le_dec 0 (pow2 z)) as [L|L]; auto. nra.
Qed.
Lemma pow2_le a b : (a <= b)%Z -> pow2 a <= pow2 b.
Proof.
  intros H. replace b with (a + (b - a))%Z by lia. rewrite pow2_plus. assert (A := pow2_pos a).
  assert (B : 1 <= pow2 (b - a)). { rewrite pow2_Z by lia. change 1 with (inject_Z 1). rewrite <- Zle_Qle. apply Z.le_trans with (2 ^ 0)%Z; [simpl; lia|]. apply Z.pow_le_mono_r; lia. }
  nra.
Qed.
Lemma pow2_lt_inv a b : pow2 a < pow2 b -> (a < b)%Z.
Proof. intros H. destruct (Z.lt_ge_cases a b) as [L|L]; auto. apply pow2_le in L. lra. Qed.

Lemma exponent_le y : 0 < y -> pow2 (exponent y) <= y.
Proof.
  intros Hy. unfold exponent. set (l := (Z.log2 (Qnum y) - Z.log2 (Z.pos (Qden y)))%Z).
  destruct (Qle_bool (pow2 l) y) eqn:C; [now apply Qle_bool_iff in C|]. 
  assert (N : (0 < Qnum y)%Z) by (destruct y as [n d]; unfold Qlt in Hy; simpl in *; lia).
  destruct (Z.log2_spec (Qnum y) N) as [A _]. destruct (Z.log2_spec (Z.pos (Qden y)) eq_refl) as [_ B].
  assert (A0 := Z.log2_nonneg (Qnum y)). assert (B0 := Z.log2_nonneg (Z.pos (Qden y))).
  assert (Y : y == inject_Z (Qnum y) / inject_Z (Z.pos (Qden y))) by (destruct y as [n d]; apply Qmake_Qdiv).
  assert (D : 0 < inject_Z (Z.pos (Qden y))) by (change 0 with (inject_Z 0); rewrite <- Zlt_Qlt; reflexivity).
  rewrite Y. apply Qle_shift_div_l; [exact D|].
  assert (A1 : pow2 (Z.log2 (Qnum y)) <= inject_Z (Qnum y)) by (rewrite pow2_Z by auto; rewrite <- Zle_Qle; exact A).
  assert (B1 : inject_Z (Z.pos (Qden y)) <= pow2 (Z.succ (Z.log2 (Z.pos (Qden y))))) by (rewrite pow2_Z by lia; rewrite <- Zle_Qle; lia).
  eapply Qle_trans; [|exact A1]. eapply Qle_trans with (pow2 (l - 1) * pow2 (Z.succ (Z.log2 (Z.pos (Qden y))))).
  - assert (P := pow2_pos (l - 1)). nra.
  - rewrite <- pow2_plus. apply pow2_le. unfold l. lia.
Qed.

Lemma fl_compat x y : x == y -> fl x = fl y.
Proof. intros H. unfold fl. now rewrite (Qred_complete x y H). Qed.
Lemma fl_zero x : x == 0 -> fl x = 0.
Proof. intros H. rewrite (fl_compat x 0 H). reflexivity. Qed.

Lemma fl_error x : Qabs (fl x - x) <= ulp * Qabs x.
Proof.
  unfold fl. set (y := Qred x). assert (Y : y == x) by apply Qred_correct. rewrite <- Y. clearbody y.
  destruct (Qeq_bool y 0) eqn:Z.
  - apply Qeq_bool_iff in Z. rewrite Z. vm_compute. discriminate.
  - assert (P : 0 < Qabs y). { apply Qnot_le_lt. intros L. assert (A := Qabs_nonneg y). assert (B : Qabs y == 0) by lra. apply Qeq_bool_neq in Z. apply Z.
      revert B. apply Qabs_case; intros; lra. }
    set (e := exponent (Qabs y)). assert (L := exponent_le _ P). fold e in L. set (k := (52 - e)%Z). cbv zeta. rewrite Qred_correct.
    destruct (rhe_spec (y * pow2 k)) as [A _]. set (r := inject_Z (rhe (y * pow2 k))) in *. clearbody r.
    assert (Q : Qabs (r * pow2 (- k) - y) == Qabs (y * pow2 k - r) * pow2 (- k)).
    { rewrite <- (Qabs_pos (pow2 (- k))) at 2 by (apply Qlt_le_weak, pow2_pos). rewrite <- Qabs_Qmult. rewrite <- (Qabs_opp (_ * _)).
      apply Qabs_wd. assert (I := pow2_inv k). assert (J : y == y * (pow2 k * pow2 (- k))) by (rewrite I; ring). rewrite J at 1. ring. }
    rewrite Q. apply Qle_trans with ((1 # 2) * pow2 (- k)); [apply Qmult_le_compat_r; [exact A|apply Qlt_le_weak, pow2_pos]|].
    apply Qle_trans with (ulp * pow2 e); [|apply Qmult_le_l with (z := ulp); [apply pow2_pos|exact L]].
    change (1 # 2) with (pow2 (-1)). unfold ulp. rewrite <- !pow2_plus. apply pow2_le. unfold k. lia.
Qed.

Lemma fl_bounds x : 0 <= x -> x * (1 - ulp) <= fl x /\ fl x <= x * (1 + ulp).
Proof. intros H. assert (E := fl_error x). rewrite (Qabs_pos x) in E by auto. apply Qabs_bound in E. lra. Qed.
Lemma fl_nonneg x : 0 <= x -> 0 <= fl x.
Proof. intros H. destruct (fl_bounds x H) as [A _]. assert (B : 0 <= 1 - ulp) by (vm_compute; discriminate). nra. Qed.

(** Multiples of a half below 2^52 are floats *)
Definition half (x : Q) : Prop := exists z : Z, x == z # 2.
Lemma half_plus x y : half x -> half y -> half (x + y).
Proof. intros [a A] [b B]. exists (a + b)%Z. rewrite A, B. unfold Qeq. simpl. lia. Qed.
Lemma half_opp x : half x -> half (- x).
Proof. intros [a A]. exists (- a)%Z. rewrite A. reflexivity. Qed.
Lemma half_compat x y : x == y -> half x -> half y.
Proof. intros H [a A]. exists a. now rewrite <- H. Qed.
Lemma half_0 : half 0. Proof. exists 0%Z. reflexivity. Qed.
Lemma half_tenth x : half x -> multiple 10 x.
Proof. intros [a A]. exists (a * 5)%Z. rewrite A. unfold Qeq. simpl. lia. Qed.

Lemma rhe_int z x : x == inject_Z z -> rhe x = z.
Proof.
  intros H. assert (A : Qabs (x - inject_Z z) == 0) by (rewrite H; setoid_replace (inject_Z z - inject_Z z) with 0 by ring; reflexivity).
  symmetry. apply rhe_unique; rewrite A; [discriminate|]. intros X. discriminate.
Qed.

Lemma fl_half x : half x -> Qabs x < pow2 52 -> fl x == x.
Proof.
  intros [z Hz] B. unfold fl. set (y := Qred x). assert (Y : y == x) by apply Qred_correct. rewrite <- Y in *. clearbody y. clear x Y.
  destruct (Qeq_bool y 0) eqn:Z; [apply Qeq_bool_iff in Z; now rewrite Z|].
  assert (P : 0 < Qabs y). { apply Qnot_le_lt. intros L. assert (A := Qabs_nonneg y). assert (B0 : Qabs y == 0) by lra. apply Qeq_bool_neq in Z. apply Z.
    revert B0. apply Qabs_case; intros; lra. }
  assert (L := exponent_le _ P). set (e := exponent (Qabs y)) in *. cbv zeta. rewrite Qred_correct. set (k := (52 - e)%Z).
  assert (K : (e < 52)%Z) by (apply pow2_lt_inv; lra).
  assert (I : y * pow2 k == inject_Z (z * 2 ^ (k - 1))).
  { rewrite Hz, inject_Z_mult, <- pow2_Z by (unfold k; lia). rewrite Qmake_Qdiv. replace k with ((k - 1) + 1)%Z at 1 by lia. rewrite pow2_plus. change (pow2 1) with (2 # 1). change (inject_Z 2) with (2 # 1). field. }
  rewrite (rhe_int _ _ I), <- I. rewrite <- Qmult_assoc, pow2_inv. ring.
Qed.

(** A number close to a multiple of 0.1 is rounded to it *)
Lemma round1_near x v : multiple 10 v -> Qabs (x - v) < 1 # 20 -> round1 x == v.
Proof.
  intros [z Hz] B. unfold round1. rewrite Hz. enough (E : rhe (x * 10) = z) by (rewrite E; reflexivity).
  assert (A : Qabs (x * 10 - inject_Z z) < 1 # 2).
  { assert (X : x * 10 - inject_Z z == (x - v) * 10) by (assert (W : (z # 10) * 10 == inject_Z z) by (unfold Qeq; simpl; lia); rewrite <- W, Hz; ring). rewrite X, Qabs_Qmult. change (Qabs 10) with 10. lra. }
  symmetry. apply rhe_unique; [lra|]. intros X. lra.
Qed.

(** ** Relative error after several operations *)
Fixpoint slack (n : nat) : Q := match n with O => 1 | S n => (1 - ulp) * slack n end.
Definition near (n : nat) (q f : Q) : Prop := q * slack n <= f /\ f * slack n <= q.

Lemma ulp_pos : 0 < ulp. Proof. apply pow2_pos. Qed.
Lemma ulp_small : 2 * ulp <= 1. Proof. vm_compute. discriminate. Qed.
Lemma slack_bounds n : 0 < slack n /\ slack n <= 1.
Proof.
  assert (A := ulp_pos). assert (B := ulp_small). induction n as [|n [IH1 IH2]]; cbn [slack]; [lra|]. set (u := ulp) in *. clearbody u. nra.
Qed.
Lemma slack_plus n m : slack (n + m) == slack n * slack m.
Proof. induction n as [|n IH]; cbn [slack Nat.add]; [ring|]. rewrite IH. ring. Qed.
Lemma near_refl q f : q == f -> near 0 q f.
Proof. intros H. unfold near. cbn [slack]. lra. Qed.
Lemma near_mono n m q f : (n <= m)%nat -> 0 <= q -> 0 <= f -> near n q f -> near m q f.
Proof.
  intros L Q F [A B]. replace m with (n + (m - n))%nat by lia. unfold near. rewrite slack_plus.
  destruct (slack_bounds n), (slack_bounds (m - n)). set (a := slack n) in *. set (b := slack (m - n)) in *. clearbody a b. 
  assert (X : 0 <= q * a) by nra. assert (Y : 0 <= f * a) by nra. split; nra.
Qed.
Lemma near_nonneg n q f : 0 <= q -> near n q f -> 0 <= f.
Proof. intros H [A _]. destruct (slack_bounds n). nra. Qed.
Lemma near_plus n q f x y : near n q f -> near n x y -> near n (q + x) (f + y).
Proof. intros [A B] [C D]. unfold near. lra. Qed.
Lemma near_compat n q q' f f' : q == q' -> f == f' -> near n q f -> near n q' f'.
Proof. intros A B. unfold near. rewrite A, B. auto. Qed.
Lemma near_fl n q f : 0 <= q -> near n q f -> near (S n) q (fl f).
Proof.
  intros Q N. assert (F := near_nonneg _ _ _ Q N). destruct N as [A B]. destruct (fl_bounds f F) as [C D]. unfold near. cbn [slack].
  destruct (slack_bounds n). assert (U := ulp_pos). assert (V := ulp_small). set (a := slack n) in *. set (g := fl f) in *. set (u := ulp) in *. clearbody a g u.
  split.
  - apply Qle_trans with (f * (1 - u)); [|exact C]. setoid_replace (q * ((1 - u) * a)) with (q * a * (1 - u)) by ring. apply Qmult_le_compat_r; [exact A|lra].
  - apply Qle_trans with (f * (1 + u) * ((1 - u) * a)).
    + apply Qmult_le_compat_r; [exact D|]. nra.
    + setoid_replace (f * (1 + u) * ((1 - u) * a)) with (f * a * (1 - u * u)) by ring. assert (X : 0 <= f * a) by nra. assert (Y : 0 <= u * u) by nra. nra.
Qed.
Lemma near_div n m q f a b : 0 <= q -> 0 < a -> near n q f -> near m a b -> near (n + m) (q / a) (f / b).
Proof.
  intros Q P N M. assert (F := near_nonneg _ _ _ Q N). destruct N as [A B], M as [C D]. destruct (slack_bounds n) as [N1 N2], (slack_bounds m) as [M1 M2].
  assert (Bp : 0 < b) by nra. unfold near. rewrite slack_plus. set (x := slack n) in *. set (y := slack m) in *. clearbody x y. split.
  - apply Qle_shift_div_l; [exact Bp|]. setoid_replace (q / a * (x * y) * b) with (q * x * (b * y) / a) by (field; lra). apply Qle_shift_div_r; [exact P|].
    assert (X : 0 <= q * x) by nra. assert (Y : 0 <= b * y) by nra. nra.
  - apply Qle_shift_div_l; [exact P|]. setoid_replace (f / b * (x * y) * a) with (f * x * (a * y) / b) by (field; lra). apply Qle_shift_div_r; [exact Bp|].
    assert (X : 0 <= f * x) by nra. assert (Y : 0 <= a * y) by nra. nra.
Qed.
Lemma slack_bernoulli n : 1 - inject_Z (Z.of_nat n) * ulp <= slack n.
Proof.
  induction n as [|n IH]; [vm_compute; discriminate|]. rewrite Nat2Z.inj_succ. unfold Z.succ. rewrite inject_Z_plus. change (inject_Z 1) with 1. cbn [slack].
  destruct (slack_bounds n). assert (U := ulp_pos). set (u := ulp) in *. set (a := slack n) in *. set (z := inject_Z (Z.of_nat n)) in *. clearbody u a z. nra.
Qed.
Lemma near_abs n q f : 0 <= q -> (Z.of_nat n <= 2 ^ 52)%Z -> near n q f -> Qabs (f - q) <= inject_Z (Z.of_nat n) * pow2 (-52) * q.
Proof.
  intros Q L N. assert (F := near_nonneg _ _ _ Q N). destruct N as [A B]. assert (S := slack_bernoulli n). destruct (slack_bounds n) as [P1 P2].
  change (pow2 (-52)) with (1 # 2 ^ 52). assert (T : (1 # 2 ^ 52) == 2 * ulp) by reflexivity. rewrite T. clear T.
  assert (Z0 : 0 <= inject_Z (Z.of_nat n)) by (change 0 with (inject_Z 0); rewrite <- Zle_Qle; lia).
  assert (Z1 : 2 * (inject_Z (Z.of_nat n) * ulp) <= 1).
  { assert (X : inject_Z (Z.of_nat n) <= inject_Z (2 ^ 52)) by (rewrite <- Zle_Qle; exact L). assert (Y : 2 * (inject_Z (2 ^ 52) * ulp) == 1) by reflexivity. assert (U := ulp_pos). nra. }
  assert (W : 0 <= inject_Z (Z.of_nat n) * ulp) by (assert (U := ulp_pos); nra).
  setoid_replace (inject_Z (Z.of_nat n) * (2 * ulp) * q) with (2 * (inject_Z (Z.of_nat n) * ulp) * q) by ring.
  set (w := inject_Z (Z.of_nat n) * ulp) in *. set (a := slack n) in *. clearbody w a. clear L Z0.
  apply Qabs_bound. split; [nra|]. 
  assert (G : f * (1 - w) <= q) by nra. nra.
Qed.

(** Reservable bandwidth, when it is a multiple of a half *)
Lemma room_float cap pct r : 0 <= cap -> 0 <= pct -> half (cap * (pct / 100)) -> half r -> cap * (pct / 100) <= pow2 44 -> Qabs r <= pow2 44 ->
  fl (round1 (fl (fl (cap * fl (pct / 100)) - r))) == cap * (pct / 100) - r.
Proof.
  intros C P Hv Hr Bv Br. set (v := cap * (pct / 100)) in *.
  assert (X0 : 0 <= pct / 100) by (apply Qle_shift_div_l; [reflexivity|lra]).
  destruct (fl_bounds (pct / 100) X0) as [A1 A2]. set (f1 := fl (pct / 100)) in *.
  assert (X1 : 0 <= f1) by (apply fl_nonneg; exact X0).
  assert (X2 : 0 <= cap * f1) by nra. destruct (fl_bounds (cap * f1) X2) as [B1 B2]. set (f2 := fl (cap * f1)) in *.
  assert (V : 0 <= v) by (unfold v; nra). assert (U := ulp_pos). assert (U2 := ulp_small). 
  assert (L1 : v * (1 - ulp) <= cap * f1) by (unfold v; set (u := ulp) in *; clearbody u; nra).
  assert (L2 : cap * f1 <= v * (1 + ulp)) by (unfold v; set (u := ulp) in *; clearbody u; nra).
  assert (D2 : Qabs (f2 - v) <= 3 * (ulp * v)).
  { set (w := cap * f1) in *. clearbody w v f2 f1. set (u := ulp) in *. clearbody u. assert (W0 : 0 <= u * v) by nra. assert (W1 : u * (u * v) <= (1 # 2) * (u * v)) by nra.
    apply Qabs_bound. split; nra. }
  assert (E3 := fl_error (f2 - r)). set (f3 := fl (f2 - r)) in *.
  assert (T44 : pow2 44 * ulp == 1 # 512) by reflexivity.
  assert (D3 : Qabs (f2 - r) <= v + 3 * (ulp * v) + Qabs r).
  { apply Qabs_bound in D2. assert (Y := Qabs_nonneg r). assert (Y1 := Qle_Qabs r). assert (Y2 := Qle_Qabs (- r)). rewrite Qabs_opp in Y2. apply Qabs_bound. set (a := Qabs r) in *. clearbody a. lra. }
  assert (Rv : half (v - r)) by (apply half_plus; [exact Hv|now apply half_opp]).
  assert (R1 : round1 f3 == v - r).
  { apply round1_near; [now apply half_tenth|]. 
    assert (UV : ulp * v <= 1 # 512) by (rewrite <- T44; nra). assert (UR : ulp * Qabs r <= 1 # 512) by (rewrite <- T44; nra).
    assert (UV0 : 0 <= ulp * v) by nra.
    assert (E4 : Qabs (f3 - (f2 - r)) <= 1 # 100).
    { eapply Qle_trans; [exact E3|]. apply Qle_trans with (ulp * (v + 3 * (ulp * v) + Qabs r)).
      - apply Qmult_le_l; [exact U|exact D3].
      - set (a := Qabs r) in *. clearbody a. set (uv := ulp * v) in *. assert (Z : ulp * (v + 3 * uv + a) == uv + 3 * (ulp * uv) + ulp * a) by (unfold uv; ring). rewrite Z.
        assert (Y : ulp * uv <= (1 # 2) * uv) by nra. lra. }
    apply Qabs_bound in E4. apply Qabs_bound in D2. 
    assert (F : Qabs (f3 - (v - r)) <= 1 # 50) by (apply Qabs_bound; lra). lra. }
  rewrite (fl_compat _ _ R1). apply fl_half; [exact Rv|].
  assert (F : Qabs (v - r) <= v + Qabs r). { assert (Y1 := Qle_Qabs r). assert (Y2 := Qle_Qabs (- r)). rewrite Qabs_opp in Y2. apply Qabs_bound. set (a := Qabs r) in *. clearbody a. lra. }
  assert (T : 2 * pow2 44 < pow2 52) by reflexivity. lra.
Qed.

(** Without reservations, only whether there is room at all matters *)
Lemma room_sign cap pct r : 0 <= cap -> 0 <= pct -> r == 0 ->
  0 <= fl (round1 (fl (fl (cap * fl (pct / 100)) - r))) /\ 0 <= round1 (cap * (pct / 100) - r).
Proof.
  intros C P R. assert (X0 : 0 <= pct / 100) by (apply Qle_shift_div_l; [reflexivity|lra]). assert (X1 := fl_nonneg _ X0).
  assert (N : forall x, 0 <= x -> 0 <= round1 x). { intros x H. rewrite round1_roundd. apply Qle_trans with (roundd 10 0); [vm_compute; discriminate|]. now apply roundd_mono. }
  split.
  - apply fl_nonneg, N, fl_nonneg. assert (0 <= fl (cap * fl (pct / 100))) by (apply fl_nonneg; nra). lra.
  - apply N. rewrite R. nra.
Qed.
