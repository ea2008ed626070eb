(** PrintProofs.v - printed tables can be read back. *)
From Verif Require Import Base Graph Objects Sim Spec Print SpecPrint.

Lemma app_str_nil a : String.append a "" = a.
Proof. induction a; simpl; congruence. Qed.
Lemma app_str_assoc a b c : String.append (String.append a b) c = String.append a (String.append b c).
Proof. induction a; simpl; congruence. Qed.
Lemma app_str_length a b : String.length (String.append a b) = (String.length a + String.length b)%nat.
Proof. induction a; simpl; congruence. Qed.
Lemma blanks_length n : String.length (blanks n) = n.
Proof. induction n; simpl; congruence. Qed.

Lemma words_word a : forall w r, no_blank a -> words_after w (String.append a r) = words_after (String.append w a) r.
Proof.
  induction a as [|x a IH]; intros w r H; simpl.
  - now rewrite app_str_nil.
  - destruct H as [A B]. destruct (Ascii.eqb_spec x " "%char) as [->|_]; [congruence|]. rewrite IH by auto. now rewrite app_str_assoc.
Qed.
Lemma words_blanks n r : words_after "" (String.append (blanks n) r) = words_after "" r.
Proof. induction n; simpl; auto. Qed.
Lemma words_blanks_end n : words_after "" (blanks n) = [].
Proof. induction n; simpl; auto. Qed.
Lemma word_not a : a <> "" -> String.eqb a "" = false.
Proof. intros H. now apply String.eqb_neq. Qed.
Lemma words_last a n : one_word a -> words_after "" (String.append a (blanks n)) = [a].
Proof.
  intros [N B]. rewrite words_word by auto. simpl. destruct n as [|n]; simpl; rewrite (word_not a N); auto. now rewrite words_blanks_end.
Qed.
Lemma words_first a n r : one_word a -> words_after "" (String.append a (String.append (blanks n) (String " " r))) = a :: words_after "" r.
Proof.
  intros [N B]. rewrite words_word by auto. simpl. destruct n as [|n]; simpl; rewrite (word_not a N); simpl; auto.
  rewrite words_blanks. reflexivity.
Qed.
Lemma row_words cells : (forall c, In c cells -> one_word c) -> words (print_row cells) = cells.
Proof.
  unfold words, print_row. induction cells as [|c cells IH]; intros H; [reflexivity|]. cbn [map]. destruct cells as [|c2 cells].
  - simpl. unfold ljust12. apply words_last. apply H. now left.
  - change (String.concat " " (ljust12 c :: map ljust12 (c2 :: cells))) with (String.append (ljust12 c) (String " " (String.concat " " (map ljust12 (c2 :: cells))))).
    unfold ljust12 at 1. rewrite app_str_assoc, words_first by (apply H; now left). f_equal. apply IH. intros x Hx. apply H. now right.
Qed.
(** columns *)
Lemma ljust_length c : (String.length c <= 12)%nat -> String.length (ljust12 c) = 12%nat.
Proof. intros H. unfold ljust12. rewrite app_str_length, blanks_length. lia. Qed.
Lemma row_column cells : (forall c, In c cells -> (String.length c <= 12)%nat) -> forall j c, nth_error cells j = Some c -> at_column (print_row cells) (13 * j) c.
Proof.
  unfold print_row. induction cells as [|x cells IH]; intros H j c Hj; [destruct j; discriminate|].
  assert (X : exists r, String.concat " " (map ljust12 (x :: cells)) = String.append (ljust12 x) r /\ (cells <> [] -> r = String " " (String.concat " " (map ljust12 cells)))).
  { destruct cells as [|y cells]; cbn [map]; [exists ""; split; [simpl; now rewrite app_str_nil|congruence]|]. eexists. split; reflexivity. }
  destruct X as (r & X & Y). rewrite X. destruct j as [|j]; simpl in Hj.
  - injection Hj as ->. exists "", (String.append (blanks (12 - String.length c)) r). split; [|reflexivity]. unfold ljust12. now rewrite app_str_assoc.
  - destruct (IH (fun z Hz => H z (or_intror Hz)) j c Hj) as (p & q & E & L). exists (String.append (ljust12 x) (String " " p)), q. split.
    + rewrite Y; [|intros ->; destruct j; discriminate]. rewrite E. now rewrite app_str_assoc.
    + rewrite app_str_length. simpl. rewrite L, ljust_length by (apply H; now left). lia.
Qed.
Lemma failed_one b : one_word (str_bool b).
Proof. destruct b; (split; [discriminate|]); simpl; repeat split; discriminate. Qed.
Lemma failed_short b : (String.length (str_bool b) <= 12)%nat.
Proof. destruct b; simpl; lia. Qed.

(** demands *)
Lemma read_paths ps r n qs es : read_demands r = (n, qs, es) -> read_demands (flat_map (fun e => [e; SBlank]) (map SPath ps) ++ r) = (n, ps ++ qs, es).
Proof. intros H. induction ps as [|p ps IH]; simpl; [exact H|]. now rewrite IH. Qed.
Lemma read_all s ds : (forall d, In d ds -> exists ps, d_path (h_dm s d) = DPaths ps) ->
  read_demands (flat_map (display_demand s) ds) = (None, [], map (fun d => mkEntry (dsrc s d, ddst s d, d_name (h_dm s d))
    (Some (List.length (match d_path (h_dm s d) with DPaths ps => ps | DUnrouted => [] end))) (match d_path (h_dm s d) with DPaths ps => ps | DUnrouted => [] end)) ds).
Proof.
  induction ds as [|d ds IH]; intros H; [reflexivity|]. cbn [flat_map map]. unfold display_demand at 1. destruct (H d (or_introl eq_refl)) as (ps & E). rewrite E. cbn [path_elements].
  rewrite <- !app_assoc. cbn [app read_demands]. rewrite (read_paths ps _ None [] (map (fun d => mkEntry (dsrc s d, ddst s d, d_name (h_dm s d))
    (Some (List.length (match d_path (h_dm s d) with DPaths ps => ps | DUnrouted => [] end))) (match d_path (h_dm s d) with DPaths ps => ps | DUnrouted => [] end)) ds)).
  - now rewrite map_length, app_nil_r.
  - cbn [app read_demands]. rewrite IH; [reflexivity|]. intros x Hx. apply H. now right.
Qed.
