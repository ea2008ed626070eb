(** TextProofs.v - the lines of a file and the numbers in its fields (C99, C100). *)
From Coq Require Import Qpower Lqa.
From Verif Require Import Base Text Spec SpecLoad SpecText.
Open Scope string_scope.

Lemma between_true a b c : byte a b c -> between a b c = true.
Proof. unfold byte, between, code. intros H. apply andb_true_iff. split; apply Nat.leb_le; lia. Qed.
Lemma between_false a b c : ~ byte a b c -> between a b c = false.
Proof.
  unfold byte, between, code. intros H. destruct (a <=? nat_of_ascii c)%nat eqn:A; auto. destruct (nat_of_ascii c <=? b)%nat eqn:B; auto.
  apply Nat.leb_le in A, B. exfalso. apply H. lia.
Qed.
Lemma between_byte a b c : between a b c = true -> byte a b c.
Proof. unfold byte, between, code. intros H. apply andb_true_iff in H as [A B]. apply Nat.leb_le in A, B. lia. Qed.
Lemma between_dec a b c : {byte a b c /\ between a b c = true} + {~ byte a b c /\ between a b c = false}.
Proof.
  destruct (between a b c) eqn:B; [left; split; auto; apply between_byte; auto|right; split; auto].
  intros X. apply between_true in X. congruence.
Qed.
Lemma code_is c n : Nat.eqb (code c) n = true -> c = ascii_of_nat n.
Proof. intros H. apply Nat.eqb_eq in H. unfold code in H. subst. symmetry. apply ascii_nat_embedding. Qed.
Lemma code_not c n : nat_of_ascii c <> n -> Nat.eqb (code c) n = false.
Proof. intros H. apply Nat.eqb_neq. exact H. Qed.
Lemma app_cons c a b : String c a ++ b = String c (a ++ b). Proof. reflexivity. Qed.
Lemma app_nil_s a : a ++ "" = a. Proof. induction a; simpl; congruence. Qed.
Lemma app_assoc_s a b c : (a ++ b) ++ c = a ++ b ++ c. Proof. induction a; simpl; congruence. Qed.

(** ** UTF-8 *)
Ltac by_byte := first [rewrite between_true by (unfold byte in *; lia) | rewrite between_false by (unfold byte in *; lia)].
Lemma utf8_char_ok c t : utf8_char c -> utf8_ok (c ++ t) = utf8_ok t.
Proof.
  intros H. destruct H; cbn [append utf8_ok].
  - by_byte. reflexivity.
  - by_byte. by_byte. by_byte. reflexivity.
  - cbn [between code]. change (between 0 127 "224") with false. change (between 194 223 "224") with false. change (between 224 239 "224") with true.
    change (Nat.eqb (code "224") 224) with true. change (Nat.eqb (code "224") 237) with false. cbn iota. by_byte. by_byte. reflexivity.
  - assert (A : byte 225 236 a \/ byte 238 239 a) by auto.
    rewrite (between_false 0 127) by (unfold byte in *; lia). rewrite (between_false 194 223) by (unfold byte in *; lia). rewrite (between_true 224 239) by (unfold byte in *; lia).
    rewrite (code_not a 224) by (unfold byte in *; lia). rewrite (code_not a 237) by (unfold byte in *; lia). by_byte. by_byte. reflexivity.
  - change (between 0 127 "237") with false. change (between 194 223 "237") with false. change (between 224 239 "237") with true.
    change (Nat.eqb (code "237") 224) with false. change (Nat.eqb (code "237") 237) with true. cbn iota. by_byte. by_byte. reflexivity.
  - change (between 0 127 "240") with false. change (between 194 223 "240") with false. change (between 224 239 "240") with false. change (between 240 244 "240") with true.
    change (Nat.eqb (code "240") 240) with true. change (Nat.eqb (code "240") 244) with false. cbn iota. by_byte. by_byte. by_byte. reflexivity.
  - rewrite (between_false 0 127) by (unfold byte in *; lia). rewrite (between_false 194 223) by (unfold byte in *; lia). rewrite (between_false 224 239) by (unfold byte in *; lia).
    rewrite (between_true 240 244) by (unfold byte in *; lia). rewrite (code_not a 240) by (unfold byte in *; lia). rewrite (code_not a 244) by (unfold byte in *; lia). by_byte. by_byte. by_byte. reflexivity.
  - change (between 0 127 "244") with false. change (between 194 223 "244") with false. change (between 224 239 "244") with false. change (between 240 244 "244") with true.
    change (Nat.eqb (code "244") 240) with false. change (Nat.eqb (code "244") 244) with true. cbn iota. by_byte. by_byte. by_byte. reflexivity.
Qed.

Ltac bytes H := repeat match goal with X : andb _ _ = true |- _ => apply andb_true_iff in X as [X ?] end; repeat match goal with X : between _ _ _ = true |- _ => apply between_byte in X end.
Lemma utf8_ok_sound n : forall t, (String.length t <= n)%nat -> utf8_ok t = true -> utf8 t.
Proof.
  induction n as [|n IH]; intros [|a t] L H; try apply utf8_nil; cbn [String.length] in L; try lia.
  cbn [utf8_ok] in H. destruct (between_dec 0 127 a) as [[A E]|[A E]]; rewrite E in H.
  { change (String a t) with (String a "" ++ t). apply utf8_cons; [constructor; assumption|apply IH; [lia|auto]]. }
  destruct t as [|b t]; [discriminate|]. cbn [String.length] in L. destruct (between_dec 194 223 a) as [[B F]|[B F]]; rewrite F in H.
  { bytes H. change (String a (String b t)) with (String a (String b "") ++ t). apply utf8_cons; [constructor; assumption|apply IH; [lia|auto]]. }
  destruct t as [|c t]; [discriminate|]. cbn [String.length] in L. destruct (between_dec 224 239 a) as [[C G]|[C G]]; rewrite G in H.
  { change (String a (String b (String c t))) with (String a (String b (String c "")) ++ t).
    destruct (Nat.eqb (code a) 224) eqn:N1; [|destruct (Nat.eqb (code a) 237) eqn:N2]; bytes H.
    - apply code_is in N1. subst a. apply utf8_cons; [apply u3_e0; assumption|apply IH; [lia|auto]].
    - apply code_is in N2. subst a. apply utf8_cons; [apply u3_ed; assumption|apply IH; [lia|auto]].
    - apply Nat.eqb_neq in N1, N2. unfold code in N1, N2. apply utf8_cons; [apply u3; try assumption; unfold byte in *; lia|apply IH; [lia|auto]]. }
  destruct t as [|d t]; [discriminate|]. cbn [String.length] in L.
  change (String a (String b (String c (String d t)))) with (String a (String b (String c (String d ""))) ++ t).
  destruct (Nat.eqb (code a) 240) eqn:N1; [|destruct (Nat.eqb (code a) 244) eqn:N2]; bytes H.
  - apply code_is in N1. subst a. apply utf8_cons; [apply u4_f0; assumption|apply IH; [lia|auto]].
  - apply code_is in N2. subst a. apply utf8_cons; [apply u4_f4; assumption|apply IH; [lia|auto]].
  - apply Nat.eqb_neq in N1, N2. unfold code in N1, N2. apply utf8_cons; [apply u4; try assumption; unfold byte in *; lia|apply IH; [lia|auto]].
Qed.
Lemma utf8_ok_iff t : utf8_ok t = true <-> utf8 t.
Proof.
  split; [apply (utf8_ok_sound (String.length t)); auto|]. induction 1 as [|c t C T IH]; auto. rewrite utf8_char_ok; auto.
Qed.

(** ** Lines *)
Lemma one_line_tl c l : one_line (String c l) -> one_line l.
Proof. intros H a e b I X. apply (H (String c a) e b I). rewrite app_cons, <- X. reflexivity. Qed.
Lemma one_line_hd c l e t : one_line (String c l) -> In e (line_ends ++ other_ends)%list -> String c l <> e ++ t.
Proof. intros H I X. apply (H "" e t I). exact X. Qed.
Ltac in_list := cbn; repeat (first [left; reflexivity | right]).
Lemma code_neq c n : c <> ascii_of_nat n -> Nat.eqb (code c) n = false.
Proof. intros H. apply code_not. intros X. apply H. rewrite <- X. symmetry. apply ascii_nat_embedding. Qed.
Lemma plain_hd c l : one_line (String c l) ->
  Nat.eqb (code c) 13 = false /\ between 10 12 c = false /\ between 28 30 c = false.
Proof.
  intros H. assert (K : forall n, In (String (ascii_of_nat n) "") (line_ends ++ other_ends)%list -> Nat.eqb (code c) n = false).
  { intros n I. apply code_neq. intros ->. apply (one_line_hd _ _ _ l H I). reflexivity. }
  assert (K' : forall n, In (String (ascii_of_nat n) "") (line_ends ++ other_ends)%list -> nat_of_ascii c <> n).
  { intros n I X. specialize (K n I). apply Nat.eqb_neq in K. apply K. exact X. }
  split; [apply K; in_list|].
  assert (A10 : nat_of_ascii c <> 10%nat) by (apply K'; in_list). assert (A11 : nat_of_ascii c <> 11%nat) by (apply K'; in_list).
  assert (A12 : nat_of_ascii c <> 12%nat) by (apply K'; in_list). assert (A28 : nat_of_ascii c <> 28%nat) by (apply K'; in_list).
  assert (A29 : nat_of_ascii c <> 29%nat) by (apply K'; in_list). assert (A30 : nat_of_ascii c <> 30%nat) by (apply K'; in_list).
  split; apply between_false; unfold byte; lia.
Qed.

Lemma newlines_plain l t : one_line l -> newlines (l ++ t) = l ++ newlines t.
Proof.
  induction l as [|c l IH]; intros H; auto. rewrite app_cons. cbn [newlines]. destruct (plain_hd c l H) as (A & _). rewrite A. rewrite IH by (eapply one_line_tl; eauto). reflexivity.
Qed.
Lemma newlines_end e t : In e line_ends -> ~ (e = CR /\ exists t', t = LF ++ t') -> newlines (e ++ t) = LF ++ newlines t.
Proof.
  intros [<-|[<-|[<-|[]]]] H; try reflexivity. cbn [append CR newlines]. change (Nat.eqb (code "013") 13) with true. cbn iota.
  destruct t as [|b t]; [reflexivity|]. destruct (Nat.eqb (code b) 10) eqn:B; [|reflexivity].
  apply code_is in B. subst b. exfalso. apply H. split; [reflexivity|]. exists t. reflexivity.
Qed.

(** What comes after a line: its end, or nothing *)
Definition ended (t : string) : Prop := t = "" \/ exists t', t = LF ++ t'.
Lemma lines_put c l t : one_line (String c l) -> ended t -> lines_of (String c l ++ t) = put c (lines_of (l ++ t)).
Proof.
  intros H T. rewrite app_cons. cbn [lines_of]. destruct (plain_hd c l H) as (A & B & C). rewrite A, B, C. cbn [orb].
  destruct (Nat.eqb (code c) 194) eqn:E1.
  { apply code_is in E1. destruct l as [|b l]; [destruct T as [->|(t' & ->)]; reflexivity|]. cbn [append].
    destruct (Nat.eqb (code b) 133) eqn:E2; [|reflexivity]. apply code_is in E2. subst. exfalso.
    apply (one_line_hd _ _ (String "194" (String "133" "")) l H); [in_list|reflexivity]. }
  destruct (Nat.eqb (code c) 226) eqn:E3; [|reflexivity]. apply code_is in E3.
  destruct l as [|b l]; [destruct T as [->|([|x t'] & ->)]; reflexivity|]. cbn [append].
  destruct l as [|x l]; [destruct T as [->|(t' & ->)]; cbn [append LF]; [reflexivity|]; rewrite andb_false_r; reflexivity|]. cbn [append].
  destruct (Nat.eqb (code b) 128) eqn:E4; [|reflexivity]. apply code_is in E4. destruct (between_dec 168 169 x) as [[X ->]|[X ->]]; [|reflexivity].
  exfalso. subst. assert (x = "168"%char \/ x = "169"%char) as [-> | ->].
  { unfold byte in X. assert (nat_of_ascii x = 168 \/ nat_of_ascii x = 169)%nat as [Y|Y] by lia; [left|right]; rewrite <- (ascii_nat_embedding x), Y; reflexivity. }
  - apply (one_line_hd _ _ (String "226" (String "128" (String "168" ""))) l H); [in_list|reflexivity].
  - apply (one_line_hd _ _ (String "226" (String "128" (String "169" ""))) l H); [in_list|reflexivity].
Qed.
Lemma lines_line l t : one_line l -> lines_of (l ++ LF ++ t) = (Some l, splitlines t).
Proof.
  induction l as [|c l IH]; intros H; [reflexivity|]. rewrite lines_put by (auto; right; eauto). rewrite IH by (eapply one_line_tl; eauto). reflexivity.
Qed.
Lemma lines_last l : one_line l -> l <> "" -> lines_of l = (Some l, []).
Proof.
  induction l as [|c l IH]; intros H N; [congruence|]. assert (P := lines_put c l "" H (or_introl eq_refl)). rewrite !app_nil_s in P. rewrite P.
  destruct l as [|d l]; [reflexivity|]. rewrite IH by (try discriminate; eapply one_line_tl; eauto). reflexivity.
Qed.
Lemma wrote_lines ls t : wrote ls t -> splitlines (newlines t) = ls.
Proof.
  induction 1 as [|l H N|l e ls t H I X W IH]; [reflexivity| |].
  - rewrite <- (app_nil_s l), newlines_plain, app_nil_s by auto. unfold splitlines. cbn [newlines]. rewrite app_nil_s, lines_last by auto. reflexivity.
  - rewrite newlines_plain, newlines_end by auto. unfold splitlines. rewrite lines_line by auto. cbn [fst snd]. rewrite IH. reflexivity.
Qed.
Lemma skip_signature t : skip_bom (signature ++ t) = t. Proof. reflexivity. Qed.
Lemma skip_nothing t : (forall t', t <> signature ++ t') -> skip_bom t = t.
Proof.
  intros H. destruct t as [|a [|b [|c t]]]; auto. cbn [skip_bom]. destruct (Nat.eqb (code a) 239) eqn:A, (Nat.eqb (code b) 187) eqn:B, (Nat.eqb (code c) 191) eqn:C; auto.
  apply code_is in A, B, C. subst. exfalso. apply (H t). reflexivity.
Qed.
Lemma utf8_signature t : utf8 t -> utf8 (signature ++ t).
Proof. intros H. apply (utf8_cons signature t); auto. apply u3; [right|..]; unfold byte; cbn; lia. Qed.

Lemma reads_file t ls : utf8 t -> wrote ls t -> file_lines (signature ++ t) = Ok ls /\ ((forall t', t <> signature ++ t') -> file_lines t = Ok ls).
Proof.
  intros U W. unfold file_lines. split.
  - rewrite (proj2 (utf8_ok_iff _) (utf8_signature t U)), skip_signature, (wrote_lines ls t W). reflexivity.
  - intros H. rewrite (proj2 (utf8_ok_iff _) U), skip_nothing, (wrote_lines ls t W) by auto. reflexivity.
Qed.
Lemma refused t : ~ utf8 t -> file_lines t = Err ValueError.
Proof. intros H. unfold file_lines. destruct (utf8_ok t) eqn:E; auto. exfalso. apply H, utf8_ok_iff, E. Qed.

(** Every text without the unusual separators consists of lines *)
Definition no_others (t : string) : Prop := forall a e b, In e other_ends -> t <> a ++ e ++ b.
Lemma no_others_tl c t : no_others (String c t) -> no_others t.
Proof. intros H a e b I X. apply (H (String c a) e b I). rewrite app_cons, <- X. reflexivity. Qed.
Lemma no_others_app l t : no_others (l ++ t) -> no_others l.
Proof. intros H a e b I ->. apply (H a e (b ++ t) I). rewrite !app_assoc_s. reflexivity. Qed.
Lemma one_line_cons c l : c <> "010"%char -> c <> "013"%char -> one_line l -> no_others (String c l) -> one_line (String c l).
Proof.
  intros C1 C2 H N a e b I X. apply in_app_or in I as [I|I]; [|exact (N a e b I X)].
  destruct a as [|d a]; [|injection X as _ X; apply (H a e b); [apply in_or_app; auto|auto]].
  destruct I as [<-|[<-|[<-|[]]]]; cbn in X; injection X as Y _; congruence.
Qed.
Lemma one_line_nil : one_line "".
Proof. intros a e b I X. destruct a; [|discriminate]. destruct e; [|discriminate]. cbn in I. repeat destruct I as [I|I]; discriminate || auto. Qed.
Lemma has_lines n : forall t, (String.length t <= n)%nat -> no_others t -> exists ls, wrote ls t.
Proof.
  induction n as [|n IH]; intros [|c t] L N; try (exists []; apply wr_none); cbn [String.length] in L; try lia.
  destruct (IH t) as (ls & W); [lia|eapply no_others_tl; eauto|].
  destruct (ascii_dec c "010") as [->|C1].
  { exists ("" :: ls). apply (wr_line "" LF ls t); [apply one_line_nil|in_list|intros [X _]; discriminate|auto]. }
  destruct (ascii_dec c "013") as [->|C2].
  { destruct t as [|d t].
    - exists ["" ]. apply (wr_line "" CR [] ""); [apply one_line_nil|in_list|intros [_ [t' X]]; discriminate|constructor].
    - destruct (ascii_dec d "010") as [->|D].
      + cbn [String.length] in L. destruct (IH t) as (ls' & W'); [lia|eapply no_others_tl, no_others_tl; eauto|].
        exists ("" :: ls'). apply (wr_line "" (CR ++ LF) ls' t); [apply one_line_nil|in_list|intros [X _]; discriminate|auto].
      + exists ("" :: ls). apply (wr_line "" CR ls (String d t)); [apply one_line_nil|in_list| |auto].
        intros [_ [t' X]]. injection X as X _. congruence. }
  inversion W as [E1 E2|l H X E1 E2|l e ls' t' H I X W' E1 E2]; subst.
  - exists [String c ""]. apply wr_last; [|discriminate]. apply one_line_cons; auto. apply one_line_nil.
  - exists [String c t]. apply wr_last; [|discriminate]. apply one_line_cons; auto.
  - exists (String c l :: ls'). apply (wr_line (String c l) e ls' t'); auto. apply one_line_cons; auto.
    apply (no_others_app (String c l) (e ++ t')). exact N.
Qed.

(** ... and no line of a file contains a separator *)
Lemma lines_case n : forall t, (String.length t <= n)%nat ->
  (forall l, fst (lines_of t) = Some l -> one_line l /\ exists t', t = l ++ t') /\ Forall one_line (snd (lines_of t)).
Proof.
  induction n as [|n IH]; intros [|c t] L; cbn [String.length] in L; try lia; try (split; [intros l X; discriminate|constructor]).
  assert (T : forall r, (String.length r <= n)%nat ->
     (forall l, fst (cut (lines_of r)) = Some l -> one_line l /\ exists t', String c t = l ++ t') /\ Forall one_line (snd (cut (lines_of r)))).
  { intros r Lr. destruct (IH r Lr) as [A B]. unfold cut. cbn [fst snd]. split.
    - intros l X. injection X as <-. split; [apply one_line_nil|]. exists (String c t). reflexivity.
    - destruct (fst (lines_of r)) as [l|]; auto. constructor; auto. apply (A l eq_refl). }
  assert (P : (forall e r, In e (line_ends ++ other_ends)%list -> String c t <> e ++ r) ->
     (forall l, fst (put c (lines_of t)) = Some l -> one_line l /\ exists t', String c t = l ++ t') /\ Forall one_line (snd (put c (lines_of t)))).
  { intros H. destruct (IH t ltac:(lia)) as [A B]. unfold put. cbn [fst snd]. split; auto.
    intros l X. assert (K : forall l' t', one_line l' -> t = l' ++ t' -> one_line (String c l')).
    { intros l' t' O -> a e b I Y. destruct a as [|d a].
      - apply (H e (b ++ t') I). rewrite <- app_cons, Y. cbn [append]. apply app_assoc_s.
      - injection Y as _ Y. exact (O a e b I Y). }
    destruct (fst (lines_of t)) as [l'|]; injection X as <-.
    - destruct (A l' eq_refl) as (O & t' & E). split; [eapply K; eauto|]. exists t'. rewrite E. reflexivity.
    - split; [apply (K "" t); auto; apply one_line_nil|]. exists t. reflexivity. }
  cbn [lines_of]. destruct (Nat.eqb (code c) 13) eqn:C13.
  { destruct t as [|d t]; [apply T; cbn; lia|]. destruct (Nat.eqb (code d) 10); apply T; cbn [String.length] in *; lia. }
  destruct (between_dec 10 12 c) as [[_ E1]|[N1 E1]]; rewrite E1; cbn [orb]; [apply T; lia|].
  destruct (between_dec 28 30 c) as [[_ E2]|[N2 E2]]; rewrite E2; [apply T; lia|].
  apply Nat.eqb_neq in C13. unfold code in C13. unfold byte in N1, N2.
  assert (S1 : forall e r, In e [LF; CR; CR ++ LF; String "011" ""; String "012" ""; String "028" ""; String "029" ""; String "030" ""] -> String c t <> e ++ r).
  { intros e r I X. cbn in I. repeat (destruct I as [<-|I]; [cbn in X; injection X as X _; subst c; cbn in C13, N1, N2; lia|]). exact I. }
  assert (S2 : (forall r, String c t <> String "194" (String "133" "") ++ r) ->
     (forall x r, byte 168 169 x -> String c t <> String "226" (String "128" (String x "")) ++ r) -> forall e r, In e (line_ends ++ other_ends)%list -> String c t <> e ++ r).
  { intros H1 H2 e r I. cbn in I. repeat (destruct I as [<-|I]; [first [solve [apply S1; in_list] | solve [apply H1] | apply H2; unfold byte; cbn; lia]|]). contradiction. }
  destruct (Nat.eqb (code c) 194) eqn:E194.
  { destruct t as [|d t]; [apply P, S2; [intros r X|intros x r _ X]; discriminate|].
    destruct (Nat.eqb (code d) 133) eqn:D; [apply T; cbn [String.length] in *; lia|]. apply P, S2.
    - intros r X. cbn in X. injection X as _ X _. subst d. discriminate.
    - intros x r _ X. injection X as X _. subst c. discriminate. }
  destruct (Nat.eqb (code c) 226) eqn:E226.
  2:{ apply P, S2; [intros r X|intros x r _ X]; injection X as X _; subst c; discriminate. }
  assert (S3 : forall r, String c t <> String "194" (String "133" "") ++ r) by (intros r X; injection X as X _; subst c; discriminate).
  destruct t as [|d [|x t]]; [apply P, S2; auto; intros x r _ X; discriminate..|].
  destruct (Nat.eqb (code d) 128 && between 168 169 x)%bool eqn:D; [apply T; cbn [String.length] in *; lia|]. apply P, S2; auto.
  intros y r Y X. injection X as _ X1 X2 _. subst. rewrite between_true in D by auto. discriminate.
Qed.
Lemma lines_plain t : Forall one_line (splitlines t).
Proof.
  destruct (lines_case _ t (le_n _)) as [A B]. unfold splitlines. destruct (fst (lines_of t)) as [l|]; auto. constructor; auto. apply (A l eq_refl).
Qed.
Lemma file_lines_plain t ls : file_lines t = Ok ls -> utf8 t /\ Forall one_line ls.
Proof.
  unfold file_lines. destruct (utf8_ok t) eqn:U; [|discriminate]. intros X. injection X as <-. split; [apply utf8_ok_iff; auto|apply lines_plain].
Qed.
