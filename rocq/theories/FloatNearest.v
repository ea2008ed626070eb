(** FloatNearest.v - [fl] returns the nearest float. *)
From Verif Require Import Base Float RoundProofs FloatProofs SpecFloat.
From Coq Require Import Lqa Qpower.

Local Open Scope Q_scope.

Lemma exponent_lt y : 0 < y -> y < pow2 (exponent y + 1).
Proof.
  intros Hy. unfold exponent. set (l := (Z.log2 (Qnum y) - Z.log2 (Z.pos (Qden y)))%Z).
  destruct (Qle_bool (pow2 l) y) eqn:C.
  - assert (N : (0 < Qnum y)%Z) by (destruct y as [n d]; unfold Qlt in Hy; simpl in *; lia).
    destruct (Z.log2_spec (Qnum y) N) as [_ A]. destruct (Z.log2_spec (Z.pos (Qden y)) eq_refl) as [B _].
    assert (A0 := Z.log2_nonneg (Qnum y)). assert (B0 := Z.log2_nonneg (Z.pos (Qden y))).
    assert (Y : y == inject_Z (Qnum y) / inject_Z (Z.pos (Qden y))) by (destruct y as [n d]; apply Qmake_Qdiv).
    assert (D : 0 < inject_Z (Z.pos (Qden y))) by (change 0 with (inject_Z 0); rewrite <- Zlt_Qlt; reflexivity).
    rewrite Y. apply Qlt_shift_div_r; [exact D|].
    assert (A1 : inject_Z (Qnum y) < pow2 (Z.succ (Z.log2 (Qnum y)))) by (rewrite pow2_Z by lia; rewrite <- Zlt_Qlt; exact A).
    assert (B1 : pow2 (Z.log2 (Z.pos (Qden y))) <= inject_Z (Z.pos (Qden y))) by (rewrite pow2_Z by lia; rewrite <- Zle_Qle; lia).
    eapply Qlt_le_trans; [exact A1|]. eapply Qle_trans with (pow2 (l + 1) * pow2 (Z.log2 (Z.pos (Qden y)))).
    + rewrite <- pow2_plus. apply pow2_le. unfold l. lia.
    + assert (P := pow2_pos (l + 1)). nra.
  - replace (l - 1 + 1)%Z with l by lia. apply Qnot_le_lt. intros L. apply Qle_bool_iff in L. congruence.
Qed.

Lemma dist_ints x z w : z <> w -> Qabs (x - inject_Z z) <= 1 # 2 -> Qabs (x - inject_Z z) <= Qabs (x - inject_Z w) /\
  (Qabs (x - inject_Z w) == Qabs (x - inject_Z z) -> Qabs (x - inject_Z z) == 1 # 2).
Proof.
  intros N H. assert (D : 1 <= Qabs (inject_Z z - inject_Z w)).
  { assert (E : inject_Z z - inject_Z w == inject_Z (z - w)) by (unfold Zminus; rewrite inject_Z_plus, inject_Z_opp; ring).
    rewrite E. change (Qabs (inject_Z (z - w))) with (inject_Z (Z.abs (z - w))). change 1 with (inject_Z 1). rewrite <- Zle_Qle. lia. }
  assert (T : Qabs (inject_Z z - inject_Z w) <= Qabs (x - inject_Z z) + Qabs (x - inject_Z w)).
  { rewrite <- (Qabs_opp (x - inject_Z z)). eapply Qle_trans; [|apply Qabs_triangle]. apply Qle_lteq. right. apply Qabs_wd. ring. }
  split; [lra|]. intros E. lra.
Qed.

Lemma fl_nearest x : nearest_float x (fl x).
Proof.
  assert (W : forall a b f, a == b -> nearest_float a f -> nearest_float b f).
  { intros a b f E (A & B & C). split; [exact A|]. split; intros g G; [rewrite <- E; now apply B|]. rewrite <- E. now apply C. }
  unfold fl. set (y := Qred x). assert (Y : y == x) by apply Qred_correct. apply (W y _ _ Y). clearbody y. clear x Y W.
  destruct (Qeq_bool y 0) eqn:Z.
  - apply Qeq_bool_iff in Z. split; [exists 0%Z, 0%Z; split; [lia|reflexivity]|]. split; intros g G.
    + rewrite Z. change (Qabs (0 - 0)) with 0. apply Qabs_nonneg.
    + rewrite Z. intros E. left. change (Qabs (0 - 0)) with 0 in E. revert E. apply Qabs_case; intros; lra.
  - assert (P : 0 < Qabs y). { apply Qnot_le_lt. intros L. assert (A := Qabs_nonneg y). assert (B : Qabs y == 0) by lra. apply Qeq_bool_neq in Z. apply Z.
      revert B. apply Qabs_case; intros; lra. }
    set (e := exponent (Qabs y)). assert (L := exponent_le _ P). assert (U := exponent_lt _ P). fold e in L, U. set (k := (52 - e)%Z). cbv zeta.
    set (r := rhe (y * pow2 k)). destruct (rhe_spec (y * pow2 k)) as [A B]. fold r in A, B.
    set (f := Qred (inject_Z r * pow2 (- k))). assert (F : f == inject_Z r * pow2 (- k)) by apply Qred_correct. clearbody f.
    assert (K1 := pow2_pos k). assert (K2 := pow2_pos (- k)). assert (KI := pow2_inv k).
    (* distances on the grid of multiples of 2^-k *)
    assert (Sc : forall a b, Qabs (a - b * pow2 (- k)) == Qabs (a * pow2 k - b) * pow2 (- k)).
    { intros a b. rewrite <- (Qabs_pos (pow2 (- k))) at 2 by lra. rewrite <- Qabs_Qmult. apply Qabs_wd.
      setoid_replace ((a * pow2 k - b) * pow2 (- k)) with (a * (pow2 k * pow2 (- k)) - b * pow2 (- k)) by ring. rewrite KI. ring. }
    assert (Yk : Qabs (y * pow2 k) == Qabs y * pow2 k) by (rewrite Qabs_Qmult, (Qabs_pos (pow2 k)) by lra; reflexivity).
    assert (Lo : pow2 52 <= Qabs (y * pow2 k)). { rewrite Yk. replace 52%Z with (e + k)%Z by (unfold k; lia). rewrite pow2_plus. apply Qmult_le_compat_r; lra. }
    assert (Hi : Qabs (y * pow2 k) < pow2 53). { rewrite Yk. replace 53%Z with ((e + 1) + k)%Z by (unfold k; lia). rewrite pow2_plus. apply Qmult_lt_r; lra. }
    assert (T52 : pow2 52 == inject_Z (2 ^ 52)) by reflexivity. assert (T53 : pow2 53 == inject_Z (2 ^ 53)) by reflexivity.
    assert (Ab : forall z, Qabs (inject_Z z) == inject_Z (Z.abs z)) by reflexivity.
    (* the significand *)
    assert (R1 : (2 ^ 52 <= Z.abs r <= 2 ^ 53)%Z).
    { assert (X : Qabs (y * pow2 k) - (1 # 2) <= Qabs (inject_Z r) <= Qabs (y * pow2 k) + (1 # 2)).
      { assert (V1 := Qabs_triangle (y * pow2 k - inject_Z r) (inject_Z r)). assert (V2 := Qabs_triangle (inject_Z r - y * pow2 k) (y * pow2 k)).
        setoid_replace (y * pow2 k - inject_Z r + inject_Z r) with (y * pow2 k) in V1 by ring. setoid_replace (inject_Z r - y * pow2 k + y * pow2 k) with (inject_Z r) in V2 by ring.
        assert (V3 : Qabs (inject_Z r - y * pow2 k) == Qabs (y * pow2 k - inject_Z r)) by (rewrite <- Qabs_opp; apply Qabs_wd; ring). lra. }
      rewrite Ab in X. rewrite T52 in Lo. rewrite T53 in Hi. split.
      - assert (X1 : inject_Z (2 ^ 52 - 1) < inject_Z (Z.abs r)).
        { assert (X2 : inject_Z (2 ^ 52 - 1) == inject_Z (2 ^ 52) - 1) by reflexivity. lra. }
        rewrite <- Zlt_Qlt in X1. lia.
      - assert (X1 : inject_Z (Z.abs r) < inject_Z (2 ^ 53 + 1)).
        { assert (X2 : inject_Z (2 ^ 53 + 1) == inject_Z (2 ^ 53) + 1) by reflexivity. lra. }
        rewrite <- Zlt_Qlt in X1. lia. }
    (* other floats are on the grid, or further away *)
    assert (G : forall g, is_float g -> (exists w, g == inject_Z w * pow2 (- k)) \/ Qabs (y - f) < Qabs (y - g)).
    { intros g (m & j & Hm & Hg). change (2 ^ j) with (pow2 j) in Hg. destruct (Z.le_gt_cases (- k) j) as [J|J].
      - left. exists (m * 2 ^ (j + k))%Z. rewrite Hg, inject_Z_mult, <- pow2_Z by lia. rewrite <- Qmult_assoc, <- pow2_plus. replace (j + k + - k)%Z with j by lia. reflexivity.
      - assert (Gs : Qabs g <= pow2 e).
        { rewrite Hg, Qabs_Qmult, (Qabs_pos (pow2 j)) by (apply Qlt_le_weak, pow2_pos). rewrite Ab. apply Qle_trans with (pow2 53 * pow2 j).
          - apply Qmult_le_compat_r; [|apply Qlt_le_weak, pow2_pos]. rewrite T53, <- Zle_Qle. exact Hm.
          - rewrite <- pow2_plus. apply pow2_le. unfold k in J. lia. }
        (* the bound 2^e with the sign of y is on the grid *)
        set (b := if Qle_bool 0 y then 1%Z else (-1)%Z).
        assert (Yb : y == inject_Z b * Qabs y). { unfold b. destruct (Qle_bool 0 y) eqn:S; [apply Qle_bool_iff in S; rewrite Qabs_pos by auto; ring|].
          assert (S' : y <= 0) by (apply Qlt_le_weak, Qnot_le_lt; intros X; apply Qle_bool_iff in X; congruence). rewrite Qabs_neg by auto. change (inject_Z (-1)) with (-1#1). ring. }
        assert (Ed : e = (52 + - k)%Z) by (unfold k; lia). assert (E52 : pow2 e == inject_Z (2 ^ 52) * pow2 (- k)) by (rewrite Ed at 1; rewrite pow2_plus; reflexivity).
        assert (B1 : Qabs (y - f) <= Qabs y - pow2 e).
        { assert (X : Qabs (y - inject_Z (b * 2 ^ 52) * pow2 (- k)) == Qabs y - pow2 e).
          { rewrite inject_Z_mult, <- Qmult_assoc, <- E52, Yb. setoid_replace (inject_Z b * Qabs y - inject_Z b * pow2 e) with (inject_Z b * (Qabs y - pow2 e)) by ring.
            rewrite Qabs_Qmult. rewrite (Qabs_pos (_ - _)) by lra. assert (X : Qabs (inject_Z b) == 1) by (unfold b; destruct (Qle_bool 0 y); reflexivity). rewrite X.
            assert (Q1 : Qabs (inject_Z b * Qabs y) == Qabs y) by (rewrite <- Yb; reflexivity). rewrite Q1. ring. }
          rewrite <- X, F, !Sc. apply Qmult_le_compat_r; [|lra]. destruct (Z.eq_dec r (b * 2 ^ 52)) as [<-|N]; [lra|]. now apply dist_ints. }
        destruct (Qlt_le_dec (Qabs (y - f)) (Qabs (y - g))) as [C|C]; [now right|left].
        assert (Tr := Qabs_triangle (y - g) g). setoid_replace (y - g + g) with y in Tr by ring.
        assert (Ge : Qabs g == pow2 e) by lra. exists (if Qle_bool 0 g then 2 ^ 52 else - 2 ^ 52)%Z.
        destruct (Qle_bool 0 g) eqn:S; [apply Qle_bool_iff in S; rewrite Qabs_pos in Ge by auto; rewrite Ge; exact E52|].
        assert (S' : g <= 0) by (apply Qlt_le_weak, Qnot_le_lt; intros X; apply Qle_bool_iff in X; congruence). rewrite Qabs_neg in Ge by auto.
        rewrite inject_Z_opp. setoid_replace (- inject_Z (2 ^ 52) * pow2 (- k)) with (- (inject_Z (2 ^ 52) * pow2 (- k))) by ring. rewrite <- E52. lra. }
    split; [|split].
    + exists r, (- k)%Z. split; [lia|]. exact F.
    + intros g Hg. destruct (G g Hg) as [[w Hw]|C]; [|lra]. rewrite F, Hw, !Sc. apply Qmult_le_compat_r; [|lra]. destruct (Z.eq_dec r w) as [<-|N]; [lra|]. now apply dist_ints.
    + intros g Hg E. destruct (G g Hg) as [[w Hw]|C]; [|lra]. rewrite F, Hw, !Sc in E. destruct (Z.eq_dec r w) as [->|N]; [left; now rewrite Hw, F|]. right.
      exists r, (- k)%Z. split; [|split; [exact R1|exact F]]. apply B. destruct (dist_ints _ _ _ N A) as [_ D]. apply D. apply Qmult_inj_r in E; [exact E|lra].
Qed.
