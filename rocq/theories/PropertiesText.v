(** PropertiesText.v - theorems about reading model files from their bytes (C99-C101). *)
From Verif Require Import Base Graph Objects Sim Api Loader Text Spec SpecLoad SpecText LoadProofs LoadRun LoadBuild TextProofs NumProofs PropertiesLoad.
Open Scope string_scope.

(** ** C99 The lines of a file *)
Theorem C99_reads_lines t ls : utf8 t -> wrote ls t ->
  file_lines (signature ++ t) = Ok ls /\ ((forall t', t <> signature ++ t') -> file_lines t = Ok ls).
Proof. exact (reads_file t ls). Qed.
Print Assumptions C99_reads_lines.

(** Every file that is not well-formed UTF-8 raises ValueError; no line contains a
    separator; every text without the unusual separators consists of lines. *)
Theorem C99_all_files t :
  (~ utf8 t -> file_lines t = Err ValueError) /\
  (utf8 t -> exists ls, file_lines t = Ok ls /\ Forall one_line ls) /\
  ((forall a e b, In e other_ends -> t <> a ++ e ++ b) -> exists ls, wrote ls t).
Proof.
  split; [apply refused|]. split; [|apply (has_lines _ t (le_n _))].
  intros U. assert (X := proj2 (utf8_ok_iff t) U). unfold file_lines. rewrite X. eexists. split; [reflexivity|]. apply lines_plain.
Qed.
Print Assumptions C99_all_files.

(** Line ends, a missing last line end and a signature do not matter. *)
Theorem C99_same_lines_same_model k t t' ls b b' :
  utf8 t -> utf8 t' -> wrote ls t -> wrote ls t' ->
  b = signature ++ t \/ (b = t /\ forall x, t <> signature ++ x) -> b' = signature ++ t' \/ (b' = t' /\ forall x, t' <> signature ++ x) ->
  load_file k b = load_file k b' /\ load_file k b = load_model_file k int_text float_text ls.
Proof.
  intros U U' W W' B B'. destruct (reads_file t ls U W) as [A1 A2], (reads_file t' ls U' W') as [A3 A4].
  assert (X : file_lines b = Ok ls) by (destruct B as [->|[-> N]]; auto). assert (X' : file_lines b' = Ok ls) by (destruct B' as [->|[-> N]]; auto).
  unfold load_file. rewrite X, X'. auto.
Qed.
Print Assumptions C99_same_lines_same_model.

(** Texts of the lines of a file *)
Definition text_with (e : string) (ls : list string) : string := String.concat e ls.
Definition plain_char (c : ascii) : bool := let n := nat_of_ascii c in ((32 <=? n) && (n <=? 126) || (n =? 9))%nat.
Fixpoint plain_text (t : string) : bool := match t with "" => true | String c r => plain_char c && plain_text r end.
Lemma plain_line l : plain_text l = true -> one_line l.
Proof.
  intros H a e b I ->. assert (X : plain_text (e ++ b) = true).
  { clear I. induction a as [|c a IH]; auto. cbn in H. apply andb_true_iff in H as [_ H]. auto. }
  cbn in I. repeat (destruct I as [<-|I]; [discriminate X|]). exact I.
Qed.
Lemma wrote_with e ls : In e line_ends -> forallb plain_text ls = true -> last ls "x" <> "" -> wrote ls (text_with e ls).
Proof.
  intros E. induction ls as [|l ls IH]; intros P L; [constructor|]. cbn in P. apply andb_true_iff in P as [P1 P2].
  destruct ls as [|l2 ls]; [apply wr_last; [apply plain_line; auto|exact L]|].
  change (text_with e (l :: l2 :: ls)) with (l ++ e ++ text_with e (l2 :: ls)). apply wr_line; [apply plain_line; auto|auto| |apply IH; auto].
  intros [-> (t' & X)]. cbn in P2. apply andb_true_iff in P2 as [P2 _]. destruct l2 as [|c l2]; [destruct ls; [exact (L eq_refl)|discriminate X]|].
  destruct ls; cbn in X; injection X as -> _; discriminate P2.
Qed.
Lemma wrote_final e ls : In e line_ends -> forallb plain_text ls = true -> (e = CR -> last ls "x" <> "") -> wrote ls (String.concat "" (map (fun l => l ++ e) ls)).
Proof.
  intros E. induction ls as [|l ls IH]; intros P L; [constructor|]. cbn in P. apply andb_true_iff in P as [P1 P2].
  assert (L' : e = CR -> last ls "x" <> "") by (intros X; specialize (L X); destruct ls; [discriminate|exact L]). specialize (IH P2 L').
  assert (T : String.concat "" (map (fun l => l ++ e) (l :: ls)) = l ++ e ++ String.concat "" (map (fun l => l ++ e) ls)).
  { cbn. destruct ls; cbn; [rewrite app_nil_s; reflexivity|]. rewrite app_assoc_s. reflexivity. }
  rewrite T. apply wr_line; [apply plain_line; auto|auto| |auto].
  intros [-> (t' & X)]. destruct ls as [|l2 ls]; [discriminate X|]. cbn in P2. apply andb_true_iff in P2 as [P2 _].
  destruct l2 as [|c l2]; [destruct ls; cbn in X; discriminate X|]. destruct ls; cbn in X; injection X as -> _; discriminate P2.
Qed.

Definition unix_file : string := String.concat "" (map (fun l => l ++ LF) flex_file).
Definition windows_file : string := text_with (CR ++ LF) flex_file.
Example C99_case : utf8 unix_file /\ utf8 windows_file /\ wrote flex_file unix_file /\ wrote flex_file windows_file /\
  unix_file <> windows_file /\ forall x, unix_file <> signature ++ x.
Proof.
  split; [apply utf8_ok_iff; vm_compute; reflexivity|]. split; [apply utf8_ok_iff; vm_compute; reflexivity|].
  split; [apply wrote_final; [left; auto|vm_compute; reflexivity|discriminate]|].
  split; [apply wrote_with; [right; right; left; auto|vm_compute; reflexivity|vm_compute; discriminate]|].
  split; [vm_compute; discriminate|]. intros x X. vm_compute in X. discriminate X.
Qed.
Example C99_example : shown (load_file Flex (signature ++ windows_file)) = shown (load_model_file Flex dec_int dec_float flex_file) /\
  shown (load_file Flex unix_file) = shown (load_model_file Flex dec_int dec_float flex_file).
Proof. split; vm_compute; reflexivity. Qed.

(** A form feed also splits a line. *)
Theorem C99_other_ends_refuted : ~ forall t ls, utf8 t -> file_lines t = Ok ls -> (forall a e b, In e line_ends -> t <> a ++ e ++ b) -> (List.length ls <= 1)%nat.
Proof.
  intros H. assert (X : utf8 ("a" ++ String "012" "b")) by (apply utf8_ok_iff; vm_compute; reflexivity).
  specialize (H ("a" ++ String "012" "b") ["a"; "b"] X eq_refl). cut (2 <= 1)%nat; [lia|]. apply H.
  intros a e b I Y. cbn in Y. destruct a as [|c [|c1 [|c2 [|c3 a]]]]; cbn in I; repeat (destruct I as [<-|I]; [discriminate Y|]); contradiction.
Qed.
Print Assumptions C99_other_ends_refuted.

(** An empty line at the end is not harmless: below the LSPs it raises. *)
Theorem C99_final_line_refuted : ~ forall k t s, load_file k t = Ok s -> exists s', load_file k (t ++ LF) = Ok s'.
Proof.
  intros H. assert (X : exists s, load_file Flex unix_file = Ok s).
  { assert (Y := proj2 C99_example). destruct (load_file Flex unix_file) as [s|e]; [eauto|]. rewrite flex_loads in Y. discriminate Y. }
  destruct X as (s & X). destruct (H Flex unix_file s X) as (s' & X').
  assert (Y : shown (load_file Flex (unix_file ++ LF)) = Err (ModelException "No node with name exists in the model")) by (vm_compute; reflexivity).
  rewrite X' in Y. discriminate Y.
Qed.
Print Assumptions C99_final_line_refuted.

(** ** C100 Numbers *)
Theorem C100_int t z : int_text t = Some z <-> an_int t z.
Proof. exact (int_text_iff t z). Qed.
Print Assumptions C100_int.
Theorem C100_float t : (forall q, float_text t = Some q -> a_float t q) /\ (forall q, a_float t q -> exists q', float_text t = Some q' /\ (q' == q)%Q).
Proof. split; [apply float_sound|apply float_complete]. Qed.
Print Assumptions C100_float.

(** Every integer can be written. *)
Lemma numeral_of n : (0 <= n)%Z -> exists t k, numeral t n k.
Proof.
  intros H. pattern n. apply (Z_lt_induction (fun n => (0 <= n)%Z -> exists t k, numeral t n k)); auto. clear n H. intros n IH H.
  assert (D : forall d, (0 <= d <= 9)%Z -> exists c, digit_is c d).
  { intros d Hd. exists (ascii_of_nat (Z.to_nat (48 + d))). split; auto. apply nat_ascii_embedding. lia. }
  destruct (Z_lt_le_dec n 10) as [L|L]; [destruct (D n) as (c & C); [lia|]; exists (String c ""), 1%nat; constructor; auto|].
  assert (0 <= n mod 10 < 10)%Z by (apply Z.mod_pos_bound; lia). assert (n = 10 * (n / 10) + n mod 10)%Z by (apply Z.div_mod; lia).
  destruct (IH (n / 10)%Z) as (t & k & N); [lia|lia|]. destruct (D (n mod 10)%Z) as (c & C); [lia|].
  exists (t ++ String c ""), (S k). replace n with (10 * (n / 10) + n mod 10)%Z at 1 by lia. constructor; auto.
Qed.
Theorem C100_every_int z : exists t, an_int t z /\ int_text t = Some z.
Proof.
  assert (X : exists t, an_int t z).
  { destruct (Z_le_gt_dec 0 z) as [H|H].
    - destruct (numeral_of z H) as (t & k & N). exists t, "", "", t, "", 1%Z, z, k. repeat split; auto; try (intros c []).
      + cbn. rewrite app_nil_s. reflexivity.
      + left; auto.
      + lia.
    - destruct (numeral_of (- z)) as (t & k & N); [lia|]. exists ("-" ++ t), "", "-", t, "", (-1)%Z, (- z)%Z, k. repeat split; auto; try (intros c []).
      + cbn. rewrite app_nil_s. reflexivity.
      + right; right; auto.
      + lia. }
  destruct X as (t & X). exists t. split; auto. apply C100_int. auto.
Qed.
Print Assumptions C100_every_int.
Example C100_case : int_text " -1_024 " = Some (-1024)%Z /\ int_text "10.5" = None /\ int_text "1__0" = None /\ int_text "" = None /\
  float_text "10.5" = Some 10.5%Q /\ float_text " -2.5E-1" = Some (-0.25)%Q /\ float_text "1e3" = Some 1000%Q /\ float_text "." = None.
Proof. vm_compute. repeat split. Qed.
Example C100_an_int : an_int " -1_024 " (-1024). Proof. apply C100_int. vm_compute. reflexivity. Qed.
Example C100_a_float : a_float "10.5" 10.5. Proof. apply C100_float. vm_compute. reflexivity. Qed.

(** A traffic with a fraction is refused, although demands may have one otherwise. *)
Definition tiny_file (lon traffic bw : string) : string :=
  text_with LF ["INTERFACES_TABLE"; "header"; cols ["A"; "B"; "ab"; "4"; "100"]; cols ["B"; "A"; "ba"; "4"; "100"];
    ""; "NODES_TABLE"; "header"; cols ["A"; lon; "2"]; ""; "DEMANDS_TABLE"; "header"; cols ["A"; "B"; traffic; "d"];
    ""; "RSVP_LSP_TABLE"; "header"; cols ["A"; "B"; "l"; bw]].
Theorem C100_fractions_refuted : ~ forall lon traffic bw x y z, a_float lon x -> a_float traffic y -> a_float bw z -> (0 <= y)%Q -> (0 <= z)%Q ->
  exists s, load_file Perf (tiny_file lon traffic bw) = Ok s.
Proof.
  intros H. destruct (H "1" "10.5" "2.5" 1%Q 10.5%Q 2.5%Q) as (s & L).
  1-3: apply C100_float; vm_compute; reflexivity. 1-2: discriminate.
  assert (X : shown (load_file Perf (tiny_file "1" "10.5" "2.5")) = Err ValueError) by (vm_compute; reflexivity). rewrite L in X. discriminate X.
Qed.
Print Assumptions C100_fractions_refuted.
(** The place of a node with a fraction is lost without a message. *)
Theorem C100_places_refuted : ~ forall lon x s n, a_float lon x -> load_file Perf (tiny_file lon "10" "2.5") = Ok s -> In n (m_nds s) -> nd_name s n = "A" -> (n_lon (h_nd s n) == x)%Q.
Proof.
  intros H. assert (X : exists s, load_file Perf (tiny_file "1.5" "10" "2.5") = Ok s /\ m_nds s = [0%nat; 1%nat] /\ nd_name s 0 = "A" /\ n_lon (h_nd s 0) = 0%Q).
  { assert (Y : match load_file Perf (tiny_file "1.5" "10" "2.5") with Ok s => m_nds s = [0%nat; 1%nat] /\ nd_name s 0 = "A" /\ n_lon (h_nd s 0) = 0%Q | Err _ => False end) by (vm_compute; auto).
    destruct (load_file Perf (tiny_file "1.5" "10" "2.5")) as [s|e]; [|contradiction]. eauto. }
  destruct X as (s & L & N & A & B). assert (Y : a_float "1.5" 1.5) by (apply C100_float; vm_compute; reflexivity).
  specialize (H "1.5" 1.5%Q s 0%nat Y L). rewrite N, B in H. assert (Z := H (or_introl eq_refl) A). discriminate Z.
Qed.
Print Assumptions C100_places_refuted.

(** ** C101 The layout of a file *)
Lemma not_title l : ~ In l ("" :: titles) -> l <> "" /\ ~ In l titles.
Proof. intros H. split; [intros ->; apply H; left; auto|intros X; apply H; right; auto]. Qed.
Theorem C101_tables k ifl ndl dml lsl lines irs nrs drs lrs :
  laid_out ifl ndl dml lsl lines ->
  Forall2 (if_row_of k int_text float_text) ifl irs -> Forall2 (nd_row_of int_text) ndl nrs -> Forall2 (dm_row_of int_text) dml drs ->
  (match lsl with Some l => Forall2 (ls_row_of int_text float_text) l lrs | None => lrs = [] end) ->
  (k = Flex -> forall r, In r irs -> exists a r1 b r2 c, irs = (a ++ r1 :: b ++ r2 :: c)%list /\ ir_cid r1 = ir_cid r /\ ir_cid r2 = ir_cid r /\
     forall x, In x (a ++ b ++ c)%list -> ir_cid x <> ir_cid r) ->
  (forall r, In r drs -> mentioned irs nrs (dr_src r) /\ mentioned irs nrs (dr_dst r)) ->
  (forall r, In r lrs -> mentioned irs nrs (lr_src r) /\ mentioned irs nrs (lr_dst r)) ->
  says k int_text float_text lines irs nrs drs lrs.
Proof.
  intros (h1 & h2 & h3 & h4 & H1 & H2 & H3 & H4 & N & E) F1 F2 F3 F4 T K1 K2.
  assert (A1 : forall l, In l ifl -> ~ In l ("" :: titles)) by (intros l I; apply N; apply in_or_app; auto).
  assert (A2 : forall l, In l ndl -> ~ In l ("" :: titles)) by (intros l I; apply N; apply in_or_app; right; apply in_or_app; auto).
  assert (A3 : forall l, In l dml -> ~ In l ("" :: titles)) by (intros l I; apply N; apply in_or_app; right; apply in_or_app; auto).
  clear N.
  assert (S : forall ls x, (forall l, In l ls -> ~ In l ("" :: titles)) -> In x ("" :: titles) -> ~ In x ls) by (intros ls x X I J; exact (X x J I)).
  set (tail4 := match lsl with Some l => ([""; "RSVP_LSP_TABLE"; h4] ++ l)%list | None => [] end) in E.
  constructor; auto.
  - exists ifl. split; auto. eexists. split; [exists [], (h1 :: ifl ++ [""; "NODES_TABLE"; h2] ++ ndl ++ [""; "DEMANDS_TABLE"; h3] ++ dml ++ tail4)%list; split; [exact E|split; [intros []|reflexivity]]|].
    split; [apply S; [exact A1|left; auto]|]. right. eexists. reflexivity.
  - exists ndl. split; auto. eexists. split.
    { exists (["INTERFACES_TABLE"; h1] ++ ifl ++ [""])%list, (h2 :: ndl ++ [""; "DEMANDS_TABLE"; h3] ++ dml ++ tail4)%list. split; [rewrite E, <- !app_assoc; reflexivity|]. split; [|reflexivity].
      intros I. rewrite !in_app_iff in I. destruct I as [[I|[I|[]]]|[I|[I|[]]]]; try discriminate I.
      - apply H1. rewrite I. right; left; auto.
      - revert I. apply S; [exact A1|]. right; right; left; auto. }
    split; [apply S; [exact A2|left; auto]|]. right. eexists. reflexivity.
  - exists dml. split; auto. eexists. split.
    { exists (["INTERFACES_TABLE"; h1] ++ ifl ++ [""; "NODES_TABLE"; h2] ++ ndl ++ [""])%list, (h3 :: dml ++ tail4)%list. split; [rewrite E, <- !app_assoc; reflexivity|]. split; [|reflexivity].
      intros I. rewrite !in_app_iff in I. destruct I as [[I|[I|[]]]|[I|[[I|[I|[I|[]]]]|[I|[I|[]]]]]]; try discriminate I.
      - apply H1. rewrite I. right; right; left; auto.
      - revert I. apply S; [exact A1|]. right; right; right; left; auto.
      - apply H2. rewrite I. right; right; left; auto.
      - revert I. apply S; [exact A2|]. right; right; right; left; auto. }
    split; [apply S; [exact A3|left; auto]|]. cbn [tl]. unfold tail4. destruct lsl as [l|]; [right; eexists; reflexivity|left; rewrite app_nil_r; reflexivity].
  - assert (P : ~ In "RSVP_LSP_TABLE" (["INTERFACES_TABLE"; h1] ++ ifl ++ [""; "NODES_TABLE"; h2] ++ ndl ++ [""; "DEMANDS_TABLE"; h3] ++ dml)%list).
    { intros I. rewrite !in_app_iff in I. destruct I as [[I|[I|[]]]|[I|[[I|[I|[I|[]]]]|[I|[[I|[I|[I|[]]]]|I]]]]]; try discriminate I.
      - apply H1. rewrite I. cbn; auto 10.
      - revert I. apply S; [exact A1|]. cbn; auto 10.
      - apply H2. rewrite I. cbn; auto 10.
      - revert I. apply S; [exact A2|]. cbn; auto 10.
      - apply H3. rewrite I. cbn; auto 10.
      - revert I. apply S; [exact A3|]. cbn; auto 10. }
    unfold tail4 in E. destruct lsl as [l|].
    + right. exists l. split; auto. exists ((["INTERFACES_TABLE"; h1] ++ ifl ++ [""; "NODES_TABLE"; h2] ++ ndl ++ [""; "DEMANDS_TABLE"; h3] ++ dml) ++ [""])%list, (h4 :: l).
      split; [rewrite E, <- !app_assoc; reflexivity|]. split; [|reflexivity].
      intros I. apply in_app_or in I as [I|[I|[]]]; [exact (P I)|discriminate I].
    + left. split; auto. rewrite E, app_nil_r. exact P.
Qed.
Print Assumptions C101_tables.

(** A text in this layout loads, and the model is the one its rows describe. *)
Theorem C101_loads k ifl ndl dml lsl lines t b irs nrs drs lrs :
  laid_out ifl ndl dml lsl lines -> wrote lines t -> utf8 t -> b = signature ++ t \/ (b = t /\ forall x, t <> signature ++ x) ->
  Forall2 (if_row_of k int_text float_text) ifl irs -> Forall2 (nd_row_of int_text) ndl nrs -> Forall2 (dm_row_of int_text) dml drs ->
  (match lsl with Some l => Forall2 (ls_row_of int_text float_text) l lrs | None => lrs = [] end) ->
  (k = Flex -> forall r, In r irs -> exists a r1 b r2 c, irs = (a ++ r1 :: b ++ r2 :: c)%list /\ ir_cid r1 = ir_cid r /\ ir_cid r2 = ir_cid r /\
     forall x, In x (a ++ b ++ c)%list -> ir_cid x <> ir_cid r) ->
  (forall r, In r drs -> mentioned irs nrs (dr_src r) /\ mentioned irs nrs (dr_dst r)) ->
  (forall r, In r lrs -> mentioned irs nrs (lr_src r) /\ mentioned irs nrs (lr_dst r)) ->
  exists s, load_file k b = Ok s /\ described s irs nrs drs lrs.
Proof.
  intros L W U B F1 F2 F3 F4 T K1 K2. assert (X := C101_tables k ifl ndl dml lsl lines irs nrs drs lrs L F1 F2 F3 F4 T K1 K2).
  destruct (load_accepts _ _ _ _ _ _ _ _ X) as (s & Y). exists s. split; [|exact (C51_loaded_is_described _ _ _ _ _ _ _ _ _ X Y)].
  destruct (C99_same_lines_same_model k t t lines b b U U W W B B) as [_ ->]. exact Y.
Qed.
Print Assumptions C101_loads.

(** A FlexModel file *)
Definition small_ifl := [cols ["A"; "B"; "ab"; " 4"; "1_00"; "1"]; cols ["B"; "A"; "ba"; "5"; "90"; "1"; "F"; "5e1"]].
Definition small_ndl := [cols ["A"; "1"; "-2"]].
Definition small_dml := [cols ["A"; "B"; "20"; ""]].
Definition small_lsl := [cols ["A"; "B"; "l1"; "6.5"; "12"]].
Definition small_lines : list string :=
  (["INTERFACES_TABLE"; "h"] ++ small_ifl ++ [""; "NODES_TABLE"; "h"] ++ small_ndl ++ [""; "DEMANDS_TABLE"; "h"] ++ small_dml ++ [""; "RSVP_LSP_TABLE"; "h"] ++ small_lsl)%list.
Definition small_irs := [mkIfRow "A" "B" "ab" 4 100 (CStr "1") true 100; mkIfRow "B" "A" "ba" 5 90 (CStr "1") false 50].
Definition small_nrs := [mkNdRow "A" 1 (-2) false].
Definition small_drs := [mkDmRow "A" "B" 20 "none"].
Definition small_lrs := [mkLsRow "A" "B" "l1" (Some 6.5%Q) (Some 12%Z)].
Lemma small_rows : laid_out small_ifl small_ndl small_dml (Some small_lsl) small_lines /\
  Forall2 (if_row_of Flex int_text float_text) small_ifl small_irs /\ Forall2 (nd_row_of int_text) small_ndl small_nrs /\
  Forall2 (dm_row_of int_text) small_dml small_drs /\ Forall2 (ls_row_of int_text float_text) small_lsl small_lrs.
Proof.
  split; [|split; [|split; [|split]]].
  - exists "h", "h", "h", "h". do 4 (split; [intros X; cbn in X; repeat (destruct X as [X|X]; [discriminate X|]); exact X|]). split; [|reflexivity].
    intros l I X. cbn in I. repeat (destruct I as [<-|I]; [cbn in X; repeat (destruct X as [X|X]; [discriminate X|]); exact X|]). exact I.
  - constructor; [|constructor; [|constructor]].
    + exists " 4", "1_00", []. do 4 (split; [vm_compute; first [reflexivity | discriminate]|]). split; [left; auto|]. exists "1". split; [reflexivity|apply tsv_of; vm_compute; reflexivity].
    + exists "5", "90", ["F"; "5e1"]. do 4 (split; [vm_compute; first [reflexivity | discriminate]|]).
      split; [right; exists "F"; split; [split; [discriminate|intros X; cbn in X; repeat (destruct X as [X|X]; [discriminate X|]); contradiction]|right; exists "5e1"; split; reflexivity]|].
      exists "1". split; [reflexivity|apply tsv_of; vm_compute; reflexivity].
  - constructor; [|constructor]. exists ["A"; "1"; "-2"]. split; [apply tsv_of; vm_compute; reflexivity|]. repeat (split; [reflexivity|]). left. auto.
  - constructor; [|constructor]. exists ["A"; "B"; "20"; ""], "20", "". split; [apply tsv_of; vm_compute; reflexivity|]. repeat (split; [first [reflexivity|discriminate]|]). left. auto.
  - constructor; [|constructor]. exists ["A"; "B"; "l1"; "6.5"; "12"]. split; [apply tsv_of; vm_compute; reflexivity|]. repeat split; reflexivity.
Qed.
Example C101_case : exists s, load_file Flex (signature ++ text_with (CR ++ LF) small_lines) = Ok s /\ described s small_irs small_nrs small_drs small_lrs.
Proof.
  destruct small_rows as (L & F1 & F2 & F3 & F4).
  apply (C101_loads Flex small_ifl small_ndl small_dml (Some small_lsl) small_lines (text_with (CR ++ LF) small_lines)); auto.
  - apply wrote_with; [right; right; left; auto|vm_compute; reflexivity|vm_compute; discriminate].
  - apply utf8_ok_iff. vm_compute. reflexivity.
  - intros _ r [<-|[<-|[]]]; exists [], (mkIfRow "A" "B" "ab" 4 100 (CStr "1") true 100), [], (mkIfRow "B" "A" "ba" 5 90 (CStr "1") false 50), []; repeat split; auto; intros x [].
  - intros r [<-|[]]. split; left; exists (mkIfRow "A" "B" "ab" 4 100 (CStr "1") true 100); cbn; auto.
  - intros r [<-|[]]. split; left; exists (mkIfRow "A" "B" "ab" 4 100 (CStr "1") true 100); cbn; auto.
Qed.
