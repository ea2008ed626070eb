(** NumProofs.v - int() and float() of the fields of a file (C100). *)
From Coq Require Import Qpower Lqa.
From Verif Require Import Base Text Spec SpecLoad SpecText TextProofs.
Open Scope string_scope.

Definition s2l := list_ascii_of_string.
Definition l2s := string_of_list_ascii.
Lemma s2l_app a b : s2l (a ++ b) = (s2l a ++ s2l b)%list.
Proof. unfold s2l. induction a; cbn; congruence. Qed.
Lemma l2s_app a b : l2s (a ++ b)%list = l2s a ++ l2s b.
Proof. unfold l2s. induction a; cbn; congruence. Qed.
Lemma s2l_l2s l : s2l (l2s l) = l. Proof. apply list_ascii_of_string_of_list_ascii. Qed.
Lemma l2s_s2l t : l2s (s2l t) = t. Proof. apply string_of_list_ascii_of_string. Qed.

(** ** Digits *)
Lemma digit_some c d : digit c = Some d <-> digit_is c d.
Proof.
  unfold digit, digit_is. destruct (between_dec 48 57 c) as [[B E]|[B E]]; rewrite E; unfold byte, code in *.
  - split.
    + intros X. injection X as <-. split; [lia|]. rewrite Zplus_minus. rewrite Nat2Z.id. reflexivity.
    + intros [D E']. f_equal. rewrite E'. rewrite Z2Nat.id by lia. lia.
  - split; [discriminate|]. intros [D E']. exfalso. apply B. rewrite E'. lia.
Qed.
Lemma digit_char c d : digit c = Some d -> (48 <= nat_of_ascii c <= 57)%nat.
Proof. intros H. apply digit_some in H as [A B]. rewrite B. lia. Qed.

Lemma more_sound m : forall l t v n v' n' r, (List.length l <= m)%nat -> numeral t v n -> more_digits v n l = (v', n', r) ->
  exists d, l = (d ++ r)%list /\ numeral (t ++ l2s d) v' n'.
Proof.
  induction m as [|m IH]; intros l t v n v' n' r L N H.
  { destruct l; [|cbn in L; lia]. cbn in H. injection H as <- <- <-. exists []. split; auto. cbn. rewrite app_nil_s. auto. }
  destruct l as [|c l]; [cbn in H; injection H as <- <- <-; exists []; split; auto; cbn; rewrite app_nil_s; auto|].
  cbn [more_digits] in H. cbn [List.length] in L.
  assert (Stop : (v, n, c :: l) = (v', n', r) -> exists d, (c :: l)%list = (d ++ r)%list /\ numeral (t ++ l2s d) v' n').
  { intros X. injection X as <- <- <-. exists []. split; auto. cbn. rewrite app_nil_s. auto. }
  destruct (digit c) as [d|] eqn:D.
  { apply digit_some in D. destruct (IH l (t ++ String c "") _ _ _ _ _ ltac:(lia) (nu_more _ _ _ _ _ N D) H) as (ds & -> & M).
    exists (c :: ds). split; auto. cbn. rewrite app_assoc_s in M. exact M. }
  destruct (Nat.eqb (code c) 95) eqn:U; [|auto]. destruct l as [|c' l]; [auto|]. destruct (digit c') as [d|] eqn:D'; [|auto].
  apply digit_some in D'. apply code_is in U. subst c. cbn [List.length] in L.
  destruct (IH l (t ++ "_" ++ String c' "") _ _ _ _ _ ltac:(lia) (nu_score _ _ _ _ _ N D') H) as (ds & -> & M).
  exists ("_"%char :: c' :: ds). split; auto. cbn. rewrite app_assoc_s in M. exact M.
Qed.
Lemma digits_sound l v n r : digits l = Some (v, n, r) -> exists t, l = (s2l t ++ r)%list /\ numeral t v n.
Proof.
  destruct l as [|c l]; [discriminate|]. cbn. destruct (digit c) as [d|] eqn:D; [|discriminate]. intros H. injection H as H.
  apply digit_some in D. destruct (more_sound _ _ _ _ _ _ _ _ (le_n _) (nu_one c d D) H) as (ds & -> & N).
  exists (String c "" ++ l2s ds). rewrite s2l_app, s2l_l2s. split; auto.
Qed.
Lemma digits_complete t v n : numeral t v n -> forall r, digits (s2l t ++ r)%list = Some (more_digits v n r).
Proof.
  induction 1 as [c d D|t v n c d N IH D|t v n c d N IH D]; intros r.
  - cbn. apply digit_some in D. rewrite D. reflexivity.
  - rewrite s2l_app, <- app_assoc, IH. cbn. apply digit_some in D. rewrite D. reflexivity.
  - rewrite s2l_app, <- app_assoc, IH. cbn. apply digit_some in D. rewrite D. reflexivity.
Qed.
(** A text after which digits end *)
Definition stops (r : list ascii) : Prop := match r with [] => True | c :: _ => digit c = None /\ c <> "_"%char end.
Lemma more_stops v n r : stops r -> more_digits v n r = (v, n, r).
Proof.
  destruct r as [|c r]; [reflexivity|]. intros [D U]. cbn. rewrite D. rewrite code_neq by exact U. reflexivity.
Qed.
Lemma digits_stops t v n r : numeral t v n -> stops r -> digits (s2l t ++ r)%list = Some (v, n, r).
Proof. intros N S. rewrite (digits_complete t v n N), more_stops by auto. reflexivity. Qed.
Lemma numeral_ends t v n : numeral t v n -> (exists c d r, t = String c r /\ digit c = Some d) /\ exists c d r, t = r ++ String c "" /\ digit c = Some d.
Proof.
  induction 1 as [c d D|t v n c d N [(c0 & d0 & r0 & -> & D0) _] D|t v n c d N [(c0 & d0 & r0 & -> & D0) _] D]; apply digit_some in D.
  - split; [exists c, d, ""|exists c, d, ""]; auto.
  - split; [exists c0, d0, (r0 ++ String c ""); auto|exists c, d, (String c0 r0); auto].
  - split; [exists c0, d0, (r0 ++ "_" ++ String c ""); auto|exists c, d, (String c0 r0 ++ "_"); split; auto]. rewrite app_assoc_s. reflexivity.
Qed.
Lemma numeral_count t v n : numeral t v n -> (0 < n)%nat. Proof. destruct 1; lia. Qed.

(** ** Blanks *)
Lemma blank_iff c : blank c = true <-> byte 9 13 c \/ c = " "%char.
Proof.
  unfold blank. rewrite orb_true_iff. split.
  - intros [H|H]; [left; apply between_byte; auto|right; apply code_is in H; auto].
  - intros [H| ->]; [left; apply between_true; auto|right; reflexivity].
Qed.
Lemma skip_split l : exists a, l = (a ++ skip_blanks l)%list /\ Forall (fun c => blank c = true) a.
Proof.
  induction l as [|c l (a & E & F)]; [exists []; auto|]. cbn. destruct (blank c) eqn:B; [|exists []; auto].
  exists (c :: a). split; [cbn; congruence|constructor; auto].
Qed.
Definition sharp (l : list ascii) : Prop := match l with c :: _ => blank c = false | [] => True end.
Lemma skip_sharp l : sharp (skip_blanks l).
Proof. induction l as [|c l IH]; cbn; auto. destruct (blank c) eqn:B; auto. Qed.
Lemma skip_exact a l : Forall (fun c => blank c = true) a -> sharp l -> skip_blanks (a ++ l)%list = l.
Proof. intros F S. induction F as [|c a B F IH]; cbn; [destruct l as [|c l]; cbn in *; auto; rewrite S; auto|]. rewrite B. exact IH. Qed.
Lemma blanks_list t : blanks t <-> Forall (fun c => blank c = true) (s2l t).
Proof.
  unfold blanks. rewrite Forall_forall. split; intros H c I; apply blank_iff; apply H; exact I.
Qed.
Lemma strip_split t : exists a b, t = a ++ l2s (strip t) ++ b /\ blanks a /\ blanks b.
Proof.
  unfold strip. destruct (skip_split (list_ascii_of_string t)) as (a & E & F). destruct (skip_split (rev (skip_blanks (list_ascii_of_string t)))) as (b & E' & F').
  set (m := skip_blanks (rev (skip_blanks (list_ascii_of_string t)))) in *. exists (l2s a), (l2s (rev b)). rewrite !blanks_list, !s2l_l2s. split.
  - rewrite <- !l2s_app. rewrite <- rev_app_distr, <- E', rev_involutive, <- E. symmetry. apply l2s_s2l.
  - split; auto. apply Forall_rev. auto.
Qed.
Lemma strip_exact a x b : blanks a -> blanks b -> sharp (s2l x) -> sharp (rev (s2l x)) -> x <> "" -> strip (a ++ x ++ b) = s2l x.
Proof.
  intros A B S S' N. apply blanks_list in A, B. unfold strip. fold (s2l (a ++ x ++ b)). rewrite !s2l_app, skip_exact; auto.
  - rewrite rev_app_distr, skip_exact, rev_involutive; auto. apply Forall_rev. auto.
  - destruct x; [congruence|]. exact S.
Qed.

(** ** int() *)
Lemma sign_sound l s r : sign l = (s, r) -> exists sg, l = (s2l sg ++ r)%list /\ signed sg s.
Proof.
  destruct l as [|c l]; cbn; [intros X; injection X as <- <-; exists ""; split; [reflexivity|left; auto]|].
  destruct (Nat.eqb (code c) 45) eqn:A; [|destruct (Nat.eqb (code c) 43) eqn:B]; intros X; injection X as <- <-.
  - apply code_is in A. subst c. exists "-". split; [reflexivity|right; right; auto].
  - apply code_is in B. subst c. exists "+". split; [reflexivity|right; left; auto].
  - exists "". split; [reflexivity|left; auto].
Qed.
(** A text that does not start with a sign *)
Definition unsigned (l : list ascii) : Prop := match l with c :: _ => c <> "+"%char /\ c <> "-"%char | [] => True end.
Lemma sign_complete sg s l : signed sg s -> unsigned l -> sign (s2l sg ++ l)%list = (s, l).
Proof.
  intros [[-> ->]|[[-> ->]|[-> ->]]] U; try reflexivity. destruct l as [|c l]; [reflexivity|]. destruct U as [A B]. cbn.
  rewrite !code_neq by assumption. reflexivity.
Qed.
Lemma digit_plain c d : digit c = Some d -> blank c = false /\ c <> "+"%char /\ c <> "-"%char /\ c <> "."%char /\ c <> "_"%char.
Proof.
  intros H. apply digit_char in H. repeat split; try (intros ->; cbn in H; lia).
  destruct (blank c) eqn:B; auto. apply blank_iff in B as [B | ->]; [unfold byte in B; lia|cbn in H; lia].
Qed.
Lemma signed_sharp sg s x : signed sg s -> sharp (s2l x) -> sharp (s2l (sg ++ x)).
Proof. intros [[-> _]|[[-> _]|[-> _]]] H; auto; reflexivity. Qed.

Lemma int_text_iff t z : int_text t = Some z <-> an_int t z.
Proof.
  unfold int_text, an_int. split.
  - destruct (sign (strip t)) as [s l] eqn:S. destruct (digits l) as [[[v n] [|c r]]|] eqn:D; try discriminate. intros X. injection X as <-.
    destruct (strip_split t) as (a & b & E & A & B). destruct (sign_sound _ _ _ S) as (sg & E1 & Sg). destruct (digits_sound _ _ _ _ D) as (ds & E2 & N).
    exists a, sg, ds, b, s, v, n. repeat (split; auto). rewrite E at 1. rewrite E1, E2, app_nil_r, !l2s_app. rewrite !l2s_s2l, app_assoc_s. reflexivity.
  - intros (a & sg & ds & b & s & v & n & -> & A & B & Sg & N & ->).
    destruct (numeral_ends _ _ _ N) as [(c & d & r & E & D) (c' & d' & r' & E' & D')].
    replace (a ++ sg ++ ds ++ b) with (a ++ (sg ++ ds) ++ b) by (rewrite app_assoc_s; reflexivity).
    rewrite strip_exact; auto.
    + rewrite s2l_app, (sign_complete sg s); auto; [|rewrite E; cbn; destruct (digit_plain _ _ D) as (_ & ? & ? & _); auto].
      rewrite <- (app_nil_r (s2l ds)), (digits_stops ds v n); cbn; auto.
    + eapply signed_sharp; eauto. rewrite E. cbn. apply (digit_plain _ _ D).
    + rewrite E'. rewrite !s2l_app, !rev_app_distr. cbn. apply (digit_plain _ _ D').
    + rewrite E. destruct sg; discriminate.
Qed.

(** ** float() *)
Lemma scaled_eq m e : (scaled m e == inject_Z m * Qpower (inject_Z 10) e)%Q.
Proof.
  unfold scaled. destruct (0 <=? e)%Z eqn:E.
  - apply Z.leb_le in E. rewrite inject_Z_mult, Zpower_Qpower by auto. reflexivity.
  - apply Z.leb_gt in E. rewrite Qmake_Qdiv. assert (P : (0 < 10 ^ (- e))%Z) by (apply Z.pow_pos_nonneg; lia).
    rewrite Z2Pos.id by auto. rewrite Zpower_Qpower by lia. rewrite Qpower_opp. unfold Qdiv. rewrite Qinv_involutive. reflexivity.
Qed.
Lemma ten_pow e f : (Qpower (inject_Z 10) (e + f) == Qpower (inject_Z 10) e * Qpower (inject_Z 10) f)%Q.
Proof. apply Qpower_plus. intros X. discriminate X. Qed.
Lemma ten_nat n : (inject_Z (10 ^ Z.of_nat n) == Qpower (inject_Z 10) (Z.of_nat n))%Q.
Proof. apply Zpower_Qpower. lia. Qed.
Lemma ten_not e : ~ (Qpower (inject_Z 10) e == 0)%Q.
Proof. apply Qpower_not_0. intros X. discriminate X. Qed.
Lemma scaled_value s v w m e :
  (scaled (s * (v * 10 ^ Z.of_nat m + w)) (e - Z.of_nat m) == inject_Z s * (inject_Z v + inject_Z w / inject_Z (10 ^ Z.of_nat m)) * Qpower (inject_Z 10) e)%Q.
Proof.
  rewrite scaled_eq. rewrite inject_Z_mult, inject_Z_plus, inject_Z_mult. unfold Z.sub. rewrite ten_pow, Qpower_opp, !ten_nat.
  field. apply ten_not.
Qed.

Lemma exponent_sound l e : exponent l = Some e -> exists y, power (l2s l) y /\ (y == Qpower (inject_Z 10) e)%Q.
Proof.
  destruct l as [|c l]; cbn.
  { intros X. injection X as <-. exists 1%Q. split; [constructor|reflexivity]. }
  destruct (Nat.eqb (code c) 101 || Nat.eqb (code c) 69)%bool eqn:C; [|discriminate]. destruct (sign l) as [s r] eqn:S.
  destruct (digits r) as [[[v n] [|x r']]|] eqn:D; try discriminate. intros X. injection X as <-.
  destruct (sign_sound _ _ _ S) as (sg & -> & Sg). destruct (digits_sound _ _ _ _ D) as (t & -> & N). rewrite app_nil_r.
  assert (V : (0 <= v)%Z). { clear - N. induction N as [c d [D _]|t v n c d N IH [D _]|t v n c d N IH [D _]]; lia. }
  assert (E : In (String c "") ["e"; "E"]).
  { apply orb_true_iff in C as [C|C]; apply code_is in C; subst c; cbn; auto. }
  fold (l2s (s2l sg ++ s2l t)%list). rewrite l2s_app, !l2s_s2l. change (String c (sg ++ t)) with (String c "" ++ sg ++ t).
  destruct Sg as [[-> ->]|[[-> ->]|[-> ->]]].
  - exists (inject_Z (10 ^ v)). split; [apply (po_up _ "" _ _ n); auto; left; auto|]. rewrite Z.mul_1_l. apply Zpower_Qpower. auto.
  - exists (inject_Z (10 ^ v)). split; [apply (po_up _ "+" _ _ n); auto; right; left; auto|]. rewrite Z.mul_1_l. apply Zpower_Qpower. auto.
  - exists (1 / inject_Z (10 ^ v))%Q. split; [apply (po_down _ _ _ n); auto|]. replace (-1 * v)%Z with (- v)%Z by lia. rewrite Qpower_opp, Zpower_Qpower by auto. field. apply ten_not.
Qed.
Lemma numeral_pos t v n : numeral t v n -> (0 <= v)%Z.
Proof. induction 1 as [c d [D _]|t v n c d N IH [D _]|t v n c d N IH [D _]]; lia. Qed.
Lemma numeral_unsigned t v n r : numeral t v n -> unsigned (s2l t ++ r)%list.
Proof. intros N. destruct (numeral_ends _ _ _ N) as [(c & d & x & -> & D) _]. cbn. destruct (digit_plain _ _ D) as (_ & ? & ? & _). auto. Qed.
Lemma exponent_complete x y : power x y -> exists e, exponent (s2l x) = Some e /\ (y == Qpower (inject_Z 10) e)%Q.
Proof.
  intros [|e sg t v n I Sg N|e t v n I N].
  - exists 0%Z. split; reflexivity.
  - exists v. split; [|apply Zpower_Qpower; eapply numeral_pos; eauto]. destruct I as [<-|[<-|[]]]; cbn.
    all: fold (s2l (sg ++ t)); rewrite s2l_app, (sign_complete sg 1), <- (app_nil_r (s2l t)), (digits_stops t v n) by (cbn; auto; rewrite <- (app_nil_r (s2l t)); eapply numeral_unsigned; eauto); destruct v; reflexivity.
  - exists (- v)%Z. split.
    + assert (X : digits (s2l t) = Some (v, n, [])) by (rewrite <- (app_nil_r (s2l t)); apply digits_stops; cbn; auto).
      assert (Y : match digits (s2l t) with Some (v0, _, []) => Some (-1 * v0)%Z | _ => None end = Some (- v)%Z) by (rewrite X; f_equal; lia).
      destruct I as [<-|[<-|[]]]; exact Y.
    + rewrite Qpower_opp, Zpower_Qpower by (eapply numeral_pos; eauto). field. apply ten_not.
Qed.
Lemma power_stops x y : power x y -> stops (s2l x).
Proof. intros [|e sg t v n I _ _|e t v n I _]; cbn; auto; destruct I as [<-|[<-|[]]]; cbn; split; try reflexivity; discriminate. Qed.
Lemma power_end x y c r : power x y -> s2l x = (r ++ [c])%list -> blank c = false.
Proof.
  intros P E. assert (T : x <> "" -> exists c d r, x = r ++ String c "" /\ digit c = Some d).
  { destruct P as [|e sg t v n I Sg N|e t v n I N]; [congruence|..]; intros _; destruct (numeral_ends _ _ _ N) as [_ (c' & d' & r' & -> & D)];
      [exists c', d', (e ++ sg ++ r')|exists c', d', (e ++ "-" ++ r')]; split; auto; rewrite ?app_assoc_s; reflexivity. }
  destruct T as (c' & d & r' & -> & D); [intros ->; destruct r; discriminate|].
  rewrite s2l_app in E. cbn in E. apply app_inj_tail in E as [_ ->]. apply (digit_plain _ _ D).
Qed.

Lemma float_sound t q : float_text t = Some q -> a_float t q.
Proof.
  unfold float_text, a_float. destruct (sign (strip t)) as [s l] eqn:S.
  destruct (strip_split t) as (a & b & E & A & B). destruct (sign_sound _ _ _ S) as (sg & E1 & Sg).
  set (P1 := match digits l with Some x => x | None => (0%Z, O, l) end).
  assert (H1 : exists m1 v n r1, P1 = (v, n, r1) /\ l = (s2l m1 ++ r1)%list /\ ((m1 = "" /\ v = 0%Z /\ n = O) \/ numeral m1 v n)).
  { unfold P1. destruct (digits l) as [[[v n] r]|] eqn:D.
    - destruct (digits_sound _ _ _ _ D) as (m1 & E2 & N). exists m1, v, n, r. auto.
    - exists "", 0%Z, O, l. split; [reflexivity|]. split; [reflexivity|]. left. auto. }
  destruct H1 as (m1 & v & n & r1 & -> & E2 & N1).
  set (P2 := match r1 with
             | c :: r => if Nat.eqb (code c) 46 then match digits r with Some x => x | None => (0%Z, O, r) end else (0%Z, O, r1)
             | [] => (0%Z, O, r1)
             end).
  assert (H2 : exists m2 w m r2, P2 = (w, m, r2) /\ r1 = (s2l m2 ++ r2)%list /\
    ((m2 = "" /\ w = 0%Z /\ m = O) \/ (m2 = "." /\ w = 0%Z /\ m = O) \/ exists m3, m2 = "." ++ m3 /\ numeral m3 w m)).
  { unfold P2. destruct r1 as [|c r]; [exists "", 0%Z, O, []; split; [reflexivity|split; [reflexivity|left; auto]]|].
    destruct (Nat.eqb (code c) 46) eqn:C; [|exists "", 0%Z, O, (c :: r); split; [reflexivity|split; [reflexivity|left; auto]]].
    apply code_is in C. subst c. destruct (digits r) as [[[w m] r2]|] eqn:D.
    - destruct (digits_sound _ _ _ _ D) as (m3 & -> & N). exists ("." ++ m3), w, m, r2. split; [reflexivity|]. split; [reflexivity|]. right. right. eauto.
    - exists ".", 0%Z, O, r. split; [reflexivity|]. split; [reflexivity|]. right. left. auto. }
  destruct H2 as (m2 & w & m & r2 & -> & E3 & N2).
  destruct (Nat.eqb (n + m) 0) eqn:Z0; [discriminate|]. apply Nat.eqb_neq in Z0. destruct (exponent r2) as [e|] eqn:X; [|discriminate]. intros Y. injection Y as <-.
  destruct (exponent_sound _ _ X) as (y & P & Ey).
  exists a, sg, (m1 ++ m2), (l2s r2), b, s.
  assert (T : t = a ++ sg ++ (m1 ++ m2) ++ l2s r2 ++ b).
  { rewrite E at 1. rewrite E1, E2, E3, !l2s_app, !l2s_s2l, !app_assoc_s. reflexivity. }
  assert (D : exists x, decimal (m1 ++ m2) x /\ (x == inject_Z v + inject_Z w / inject_Z (10 ^ Z.of_nat m))%Q).
  { destruct N1 as [(-> & -> & ->)|N1], N2 as [(-> & -> & ->)|[(-> & -> & ->)|(m3 & -> & N3)]]; try (exfalso; lia).
    - exists (inject_Z w / inject_Z (10 ^ Z.of_nat m))%Q. split; [apply (de_frac m3 w m N3)|]. ring.
    - exists (inject_Z v). split; [rewrite app_nil_s; eapply de_whole; eauto|]. cbn. field.
    - exists (inject_Z v). split; [eapply de_point; eauto|]. cbn. field.
    - eexists. split; [eapply de_both; eauto|reflexivity]. }
  destruct D as (x & D & Ex). exists x, y. repeat (split; auto). rewrite scaled_value, Ex, Ey. reflexivity.
Qed.

Lemma dot_stops r : stops ("."%char :: r). Proof. split; [reflexivity|discriminate]. Qed.
Lemma stops_nodigits r : stops r -> digits r = None.
Proof. destruct r as [|c r]; [reflexivity|]. intros [D _]. cbn. rewrite D. reflexivity. Qed.
Lemma stops_nodot x y c r : power x y -> s2l x = (c :: r)%list -> Nat.eqb (code c) 46 = false.
Proof. intros [|e sg t v n I _ _|e t v n I _] E; [discriminate|..]; destruct I as [<-|[<-|[]]]; cbn in E; injection E as <- _; reflexivity. Qed.

Lemma decimal_ends m x : decimal m x -> (exists c r, m = String c r /\ blank c = false /\ c <> "+"%char /\ c <> "-"%char) /\ exists c r, m = r ++ String c "" /\ blank c = false.
Proof.
  intros D. destruct D as [t v n N|t v n N|t v n N|t v n t' v' n' N N'];
    destruct (numeral_ends _ _ _ N) as [(c & d & r & Et & D) (c1 & d1 & r1 & Et1 & D1)];
    destruct (digit_plain _ _ D) as (P1 & P2 & P3 & _); destruct (digit_plain _ _ D1) as (Q1 & _).
  - split; [exists c, r; auto|exists c1, r1; auto].
  - split; [exists c, (r ++ "."); rewrite Et; auto|exists "."%char, t; auto].
  - split; [exists "."%char, t; repeat split; auto; discriminate|exists c1, ("." ++ r1); rewrite Et1; auto].
  - split; [exists c, (r ++ "." ++ t'); rewrite Et; auto|].
    destruct (numeral_ends _ _ _ N') as [_ (c2 & d2 & r2 & -> & D2)]. exists c2, (t ++ "." ++ r2). split; [rewrite app_assoc_s; reflexivity|apply (digit_plain _ _ D2)].
Qed.

Lemma float_complete t q : a_float t q -> exists q', float_text t = Some q' /\ (q' == q)%Q.
Proof.
  intros (a & sg & m & e & b & s & x & y & -> & A & B & Sg & D & P & Q).
  destruct (exponent_complete e y P) as (z & Z1 & Z2).
  destruct (decimal_ends m x D) as [(c & r & Ec & C1 & C2 & C3) (c' & r' & Ec' & C4)].
  unfold float_text. replace (a ++ sg ++ m ++ e ++ b) with (a ++ (sg ++ m ++ e) ++ b) by (rewrite !app_assoc_s; reflexivity).
  rewrite strip_exact; auto.
  2:{ eapply signed_sharp; eauto. rewrite Ec. exact C1. }
  2:{ rewrite !s2l_app. destruct (rev (s2l e)) as [|c1 r1] eqn:Re.
      - apply (f_equal (@rev ascii)) in Re. rewrite rev_involutive in Re. rewrite Re, app_nil_r, rev_app_distr, Ec', s2l_app, rev_app_distr. exact C4.
      - assert (Ee : s2l e = (rev r1 ++ [c1])%list) by (rewrite <- (rev_involutive (s2l e)), Re; reflexivity).
        rewrite !rev_app_distr, Re. cbn. eapply power_end; eauto. }
  2:{ rewrite Ec. destruct sg; discriminate. }
  rewrite s2l_app, (sign_complete sg s); auto; [|rewrite s2l_app, Ec; cbn; auto].
  rewrite s2l_app.
  assert (PS := power_stops e y P).
  assert (G : forall v n w k, (n + k <> 0)%nat -> (x == inject_Z v + inject_Z w / inject_Z (10 ^ Z.of_nat k))%Q ->
    exists q', (if Nat.eqb (n + k) 0 then None else match exponent (s2l e) with Some e0 => Some (scaled (s * (v * 10 ^ Z.of_nat k + w)) (e0 - Z.of_nat k)) | None => None end) = Some q' /\ (q' == q)%Q).
  { intros v n w k K X. apply Nat.eqb_neq in K. rewrite K, Z1. eexists. split; [reflexivity|]. rewrite scaled_value, Q, <- X, Z2. reflexivity. }
  assert (G0 : forall v n, (n <> 0)%nat -> (x == inject_Z v)%Q -> exists q', (let '(w, m0, l2) := match s2l e with
      | c0 :: r0 => if Nat.eqb (code c0) 46 then match digits r0 with Some x0 => x0 | None => (0%Z, 0%nat, r0) end else (0%Z, 0%nat, s2l e)
      | [] => (0%Z, 0%nat, s2l e) end in
      if Nat.eqb (n + m0) 0 then None else match exponent l2 with Some e0 => Some (scaled (s * (v * 10 ^ Z.of_nat m0 + w)) (e0 - Z.of_nat m0)) | None => None end) = Some q' /\ (q' == q)%Q).
  { intros v n Nz X. assert (W : match s2l e with
      | c0 :: r0 => if Nat.eqb (code c0) 46 then match digits r0 with Some x0 => x0 | None => (0%Z, 0%nat, r0) end else (0%Z, 0%nat, s2l e)
      | [] => (0%Z, 0%nat, s2l e) end = (0%Z, 0%nat, s2l e)).
    { destruct (s2l e) as [|c0 r0] eqn:Ee; auto. rewrite (stops_nodot e y c0 r0 P Ee). reflexivity. }
    rewrite W. apply G; [lia|]. rewrite X. cbn. field. }
  destruct D as [t v n N|t v n N|t v n N|t v n t' v' n' N N'].
  - rewrite (digits_stops t v n (s2l e) N PS). apply G0; [pose proof (numeral_count _ _ _ N); lia|reflexivity].
  - rewrite s2l_app, <- app_assoc. change (s2l "." ++ s2l e)%list with ("."%char :: s2l e). rewrite (digits_stops t v n _ N (dot_stops _)).
    change (Nat.eqb (code ".") 46) with true. cbn iota. rewrite (stops_nodigits _ PS).
    apply (G v n 0%Z O); [pose proof (numeral_count _ _ _ N); lia|]. cbn. field.
  - rewrite s2l_app, <- app_assoc. change (s2l "." ++ s2l t ++ s2l e)%list with ("."%char :: s2l t ++ s2l e)%list. rewrite (stops_nodigits _ (dot_stops _)).
    change (Nat.eqb (code ".") 46) with true. cbn iota.
    rewrite (digits_stops t v n (s2l e) N PS). apply (G 0%Z O v n); [pose proof (numeral_count _ _ _ N); lia|]. ring.
  - rewrite !s2l_app, <- !app_assoc. change (s2l "." ++ s2l t' ++ s2l e)%list with ("."%char :: s2l t' ++ s2l e)%list. rewrite (digits_stops t v n _ N (dot_stops _)).
    change (Nat.eqb (code ".") 46) with true. cbn iota. rewrite (digits_stops t' v' n' (s2l e) N' PS).
    apply G; [pose proof (numeral_count _ _ _ N); lia|reflexivity].
Qed.
