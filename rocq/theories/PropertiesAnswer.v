(** PropertiesAnswer.v - theorems about the results of simulating the model of a file, in
    terms of its lines (C103). *)
From Verif Require Import Base Graph Objects Sim Api Loader Text Build Nets Spec SpecSim SpecLoad SpecText SpecFile SpecMore SpecAnswer LoadProofs LoadRun LoadBuild TextProofs NumProofs GraphProofs FileLsps Answers
  PropertiesLoad PropertiesFile PropertiesText PropertiesShortData.
From Coq Require Import Permutation.
Open Scope string_scope.

Theorem C103_lines k py_int py_float lines irs nrs drs lrs : says k py_int py_float lines irs nrs drs lrs -> usual_file k irs nrs drs lrs ->
  exists s, load_model_file k py_int py_float lines = Ok s /\
    forall E, env_ok E -> exists s', update_simulation E k s = (s', Ok tt) /\ answers k s' irs nrs drs lrs.
Proof.
  intros S U. destruct (C98_loads_and_simulates _ _ _ _ _ _ _ _ S U) as (s & L & _ & _ & H). exists s. split; [exact L|]. intros E HE. destruct (H E HE) as (s' & Up). exists s'. split; [exact Up|].
  exact (file_answers k py_int py_float lines irs nrs drs lrs s S U (C51_loaded_is_described _ _ _ _ _ _ _ _ _ S L) E s' HE Up).
Qed.
Print Assumptions C103_lines.
(** From the bytes of a file to the results *)
Theorem C103_bytes k b irs nrs drs lrs : documented k int_text float_text b irs nrs drs lrs -> usual_file k irs nrs drs lrs ->
  exists s, load_file k b = Ok s /\
    forall E, env_ok E -> exists s', update_simulation E k s = (s', Ok tt) /\ answers k s' irs nrs drs lrs.
Proof.
  intros ((ifl & ndl & dml & lsl & lines & t & L & W & U8 & B & F1 & F2 & F3 & F4) & T & K1 & K2) U.
  destruct (C103_lines k int_text float_text lines irs nrs drs lrs (C101_tables k ifl ndl dml lsl lines irs nrs drs lrs L F1 F2 F3 F4 T K1 K2) U) as (s & Y & H). exists s. split; [|exact H].
  destruct (C99_same_lines_same_model k t t lines b b U8 U8 W W B B) as [_ ->]. exact Y.
Qed.
Print Assumptions C103_bytes.

(** ** Finding the ways of an example *)
Fixpoint walks (irs : list if_row) (u : string) (n : nat) : list (list if_row) :=
  match n with
  | O => [[]]
  | S n => [] :: flat_map (fun r => if String.eqb (ir_node r) u && ir_rsvp r then map (cons r) (walks irs (ir_remote r) n) else []) irs
  end.
Fixpoint end_of (u : string) (p : list if_row) : string := match p with [] => u | r :: t => end_of (ir_remote r) t end.
Lemma walks_all irs u p v n : line_route irs u p v -> (List.length p <= n)%nat -> In p (walks irs u n) /\ end_of u p = v.
Proof.
  intros H. revert n. induction H as [x|r p v Hr Ho H IH]; intros n L; [destruct n; simpl; auto|]. destruct n as [|n]; [simpl in L; lia|]. destruct (IH n) as [A B]; [simpl in L; lia|]. split; [|exact B].
  cbn [walks]. right. apply in_flat_map. exists r. split; [exact Hr|]. rewrite String.eqb_refl, Ho. cbn [andb]. now apply in_map.
Qed.
Lemma walks_route irs u p n : In p (walks irs u n) -> line_route irs u p (end_of u p).
Proof.
  revert u p. induction n as [|n IH]; intros u p H; cbn [walks] in H; destruct H as [<-|H]; try (constructor; fail); [destruct H|].
  apply in_flat_map in H as (r & Hr & H). destruct (String.eqb_spec (ir_node r) u) as [<-|]; [|destruct H]. destruct (ir_rsvp r) eqn:Ho; [|destruct H]. cbn [andb] in H. apply in_map_iff in H as (q & <- & H).
  cbn [end_of]. constructor; auto.
Qed.
Definition least_of (irs : list if_row) (u v : string) (c : Z) : list (list if_row) :=
  filter (fun p => String.eqb (end_of u p) v && Z.eqb (line_cost p) c)%bool (walks irs u (Z.to_nat c)).
Lemma cost_length irs u p v : (forall r, In r irs -> 1 <= ir_cost r)%Z -> line_route irs u p v -> (Z.of_nat (List.length p) <= line_cost p)%Z.
Proof. intros C. induction 1 as [|r p v Hr Ho H IH]; [simpl; lia|]. cbn [List.length line_cost]. specialize (C r Hr). lia. Qed.
Lemma cost_nonneg irs u p v : (forall r, In r irs -> 1 <= ir_cost r)%Z -> line_route irs u p v -> (0 <= line_cost p)%Z.
Proof. intros C H. assert (X := cost_length irs u p v C H). lia. Qed.
Lemma least_by irs u v c : forallb (fun r => Z.leb 1 (ir_cost r)) irs = true -> least_of irs u v c <> [] ->
  forallb (fun p => negb (String.eqb (end_of u p) v) || Z.leb c (line_cost p))%bool (walks irs u (Z.to_nat c)) = true ->
  forall p, In p (least_of irs u v c) <-> line_least irs u p v.
Proof.
  intros C0 Ne F. assert (C : forall r, In r irs -> (1 <= ir_cost r)%Z) by (intros r Hr; rewrite forallb_forall in C0; apply Z.leb_le; auto). clear C0.
  assert (Lo : forall q, line_route irs u q v -> (c <= line_cost q)%Z).
  { intros q Hq. destruct (Z.le_gt_cases (Z.of_nat (List.length q)) c) as [Le|Gt]; [|assert (X := cost_length irs u q v C Hq); lia].
    destruct (walks_all irs u q v (Z.to_nat c) Hq ltac:(lia)) as [A B]. rewrite forallb_forall in F. specialize (F q A). rewrite B, String.eqb_refl in F. cbn [negb orb] in F. now apply Z.leb_le. }
  assert (Ex : exists p, line_route irs u p v /\ line_cost p = c).
  { destruct (least_of irs u v c) as [|p L] eqn:E; [contradiction|]. assert (X : In p (least_of irs u v c)) by (rewrite E; left; auto). unfold least_of in X. apply filter_In in X as [X Y]. apply andb_prop in Y as [Y Z].
    apply String.eqb_eq in Y. apply Z.eqb_eq in Z. exists p. split; [|exact Z]. rewrite <- Y. eapply walks_route; eauto. }
  intros p. unfold least_of. rewrite filter_In, Bool.andb_true_iff, String.eqb_eq, Z.eqb_eq. split.
  - intros (A & B & D). apply walks_route in A. rewrite B in A. split; [exact A|]. intros q Hq. rewrite D. auto.
  - intros [A B]. destruct Ex as (q & Hq & Cq). assert (X := B q Hq). assert (Y := Lo p A). assert (D : line_cost p = c) by lia. assert (Z := cost_length irs u p v C A).
    destruct (walks_all irs u p v (Z.to_nat c) A ltac:(lia)) as [G G']. auto.
Qed.
(** the shortest of the least-cost ways *)
Lemma best_by irs u v L p : (forall q, In q L <-> line_least irs u q v) -> In p L -> forallb (fun q => Nat.ltb (List.length p) (List.length q)) (filter (fun q => negb (forallb (fun xy => same_line (fst xy) (snd xy)) (combine p q) && Nat.eqb (List.length p) (List.length q))) L) = true ->
  NoDup (map ir_key irs) -> forall q, In q [p] <-> line_best irs u q v.
Proof.
  intros H Hp F N. rewrite forallb_forall in F.
  assert (Same : forall q, In q L -> forallb (fun xy => same_line (fst xy) (snd xy)) (combine p q) = true -> List.length p = List.length q -> q = p).
  { intros q Hq E Ln. assert (On : forall a b l, line_route irs a l b -> forall x, In x l -> In x irs) by (clear; induction 1; intros x []; [subst; auto|auto]).
    assert (Ip := On _ _ _ (proj1 (proj1 (H p) Hp))). assert (Iq := On _ _ _ (proj1 (proj1 (H q) Hq))). clear -E Ln Ip Iq N. revert q E Ln Iq. induction p as [|x p IH]; intros [|y q] E Ln Iq; try discriminate; [reflexivity|].
    cbn in E. apply andb_prop in E as [E1 E2]. f_equal; [|apply IH; auto; [intros z Hz; apply Ip; right; auto|intros z Hz; apply Iq; right; auto]].
    unfold same_line in E1. apply andb_prop in E1 as [E1 E3]. apply String.eqb_eq in E1, E3. apply (MatchLsps.nodup_map_inj ir_key irs N); [apply Iq; left; auto|apply Ip; left; auto|unfold ir_key; congruence]. }
  assert (Min : forall q, In q L -> (List.length p <= List.length q)%nat /\ ((List.length q <= List.length p)%nat -> q = p)).
  { intros q Hq. destruct (forallb (fun xy => same_line (fst xy) (snd xy)) (combine p q) && Nat.eqb (List.length p) (List.length q))%bool eqn:E.
    - apply andb_prop in E as [E1 E2]. apply Nat.eqb_eq in E2. split; [lia|]. intros _. now apply Same.
    - assert (X := F q). rewrite filter_In, E in X. specialize (X (conj Hq eq_refl)). apply Nat.ltb_lt in X. split; [lia|]. intros Y. lia. }
  intros q. split.
  - intros [<-|[]]. split; [now apply H|]. intros r Hr. apply H in Hr. apply (Min r Hr).
  - intros [A B]. left. symmetry. apply (Min q); [now apply H|]. apply B. now apply H.
Qed.

(** A diamond with a cross link, written with Windows line ends *)
Definition dia_ifl := [link Flex "A" "B" "ab" "1" "100" "1" []; link Flex "B" "A" "ba" "1" "100" "1" []; link Flex "A" "C" "ac" "1" "100" "2" []; link Flex "C" "A" "ca" "1" "100" "2" [];
  link Flex "B" "D" "bd" "1" "100" "3" []; link Flex "D" "B" "db" "1" "100" "3" []; link Flex "C" "D" "cd" "1" "100" "4" []; link Flex "D" "C" "dc" "1" "100" "4" [];
  link Flex "B" "C" "bc" "1" "100" "5" []; link Flex "C" "B" "cb" "1" "100" "5" []].
Definition dia_ndl := [cols ["A"; "1"; "-2"]].
Definition dia_dml := [cols ["A"; "D"; "20"; "d0"]; cols ["B"; "C"; "6"; "d1"]].
Definition dia_lsl := [cols ["B"; "C"; "l1"]].
Definition dia_lines : list string :=
  (["INTERFACES_TABLE"; "h"] ++ dia_ifl ++ [""; "NODES_TABLE"; "h"] ++ dia_ndl ++ [""; "DEMANDS_TABLE"; "h"] ++ dia_dml ++ [""; "RSVP_LSP_TABLE"; "h"] ++ dia_lsl)%list.
Definition dia_file : string := text_with (CR ++ LF) dia_lines.
Definition dia_row a b name c := row Flex a b name 1 100 c true 100.
Definition dia_irs := [dia_row "A" "B" "ab" "1"; dia_row "B" "A" "ba" "1"; dia_row "A" "C" "ac" "2"; dia_row "C" "A" "ca" "2"; dia_row "B" "D" "bd" "3"; dia_row "D" "B" "db" "3";
  dia_row "C" "D" "cd" "4"; dia_row "D" "C" "dc" "4"; dia_row "B" "C" "bc" "5"; dia_row "C" "B" "cb" "5"].
Definition dia_nrs := [mkNdRow "A" 1 (-2) false].
Definition dia_d0 := mkDmRow "A" "D" 20 "d0".
Definition dia_d1 := mkDmRow "B" "C" 6 "d1".
Definition dia_drs := [dia_d0; dia_d1].
Definition dia_lrs := [mkLsRow "B" "C" "l1" None None].

Lemma read_forall2 {A} (read : string -> option A) (P : string -> A -> Prop) l rs : (forall x r, read x = Some r <-> P x r) -> map read l = map Some rs -> Forall2 P l rs.
Proof. intros H. revert rs. induction l as [|x l IH]; intros [|r rs] E; try discriminate; constructor; injection E as E1 E2; [now apply H|auto]. Qed.
Lemma dia_documented : documented Flex int_text float_text dia_file dia_irs dia_nrs dia_drs dia_lrs.
Proof.
  split; [|split; [|split]].
  - exists dia_ifl, dia_ndl, dia_dml, (Some dia_lsl), dia_lines, dia_file. split; [|split; [|split; [|split; [|split; [|split; [|split]]]]]].
    + exists "h", "h", "h", "h". do 4 (split; [intros X; cbn in X; repeat (destruct X as [X|X]; [discriminate X|]); exact X|]). split; [|reflexivity].
      intros l I X. cbn in I. repeat (destruct I as [<-|I]; [cbn in X; repeat (destruct X as [X|X]; [discriminate X|]); exact X|]). exact I.
    + apply wrote_with; [right; right; left; auto|vm_compute; reflexivity|vm_compute; discriminate].
    + apply utf8_ok_iff. vm_compute. reflexivity.
    + right. split; [reflexivity|]. intros x X. vm_compute in X. discriminate X.
    + apply (read_forall2 (if_read Flex int_text float_text)); [intros; apply if_read_iff|vm_compute; reflexivity].
    + apply (read_forall2 (nd_read int_text)); [intros; apply nd_read_iff|vm_compute; reflexivity].
    + apply (read_forall2 (dm_read int_text)); [intros; apply dm_read_iff|vm_compute; reflexivity].
    + apply (read_forall2 (ls_read int_text float_text)); [intros; apply ls_read_iff|vm_compute; reflexivity].
  - intros _ r H. unfold dia_irs in *.
    repeat (destruct H as [<-|H]; [first [eexists [], _, [], _, _; split; [reflexivity|]; split; [reflexivity|]; split; [reflexivity|]; intros x Hx; cbn in Hx; in_tac; discriminate
      |eexists [_; _], _, [], _, _; split; [reflexivity|]; split; [reflexivity|]; split; [reflexivity|]; intros x Hx; cbn in Hx; in_tac; discriminate
      |eexists [_; _; _; _], _, [], _, _; split; [reflexivity|]; split; [reflexivity|]; split; [reflexivity|]; intros x Hx; cbn in Hx; in_tac; discriminate
      |eexists [_; _; _; _; _; _], _, [], _, _; split; [reflexivity|]; split; [reflexivity|]; split; [reflexivity|]; intros x Hx; cbn in Hx; in_tac; discriminate
      |eexists [_; _; _; _; _; _; _; _], _, [], _, _; split; [reflexivity|]; split; [reflexivity|]; split; [reflexivity|]; intros x Hx; cbn in Hx; in_tac; discriminate]|]). destruct H.
  - intros r [<-|[<-|[]]]; split; left; first [exists (dia_row "A" "B" "ab" "1"); cbn; auto 12; fail|exists (dia_row "B" "D" "bd" "3"); cbn; auto 12; fail|exists (dia_row "B" "C" "bc" "5"); cbn; auto 12; fail].
  - intros r [<-|[]]; split; left; exists (dia_row "B" "C" "bc" "5"); cbn; auto 12.
Qed.
Lemma dia_usual : usual_file Flex dia_irs dia_nrs dia_drs dia_lrs.
Proof.
  constructor.
  - vm_compute; nodup_tac.
  - vm_compute; nodup_tac.
  - vm_compute; nodup_tac.
  - intros r H. split; [vm_compute in H; in_tac; discriminate|].
    vm_compute in H; in_tac;
    first [eexists; split; [left; reflexivity|solve [repeat split; reflexivity]]
          |eexists; split; [right; left; reflexivity|solve [repeat split; reflexivity]]
          |eexists; split; [right; right; left; reflexivity|solve [repeat split; reflexivity]]
          |eexists; split; [do 3 right; left; reflexivity|solve [repeat split; reflexivity]]
          |eexists; split; [do 4 right; left; reflexivity|solve [repeat split; reflexivity]]
          |eexists; split; [do 5 right; left; reflexivity|solve [repeat split; reflexivity]]
          |eexists; split; [do 6 right; left; reflexivity|solve [repeat split; reflexivity]]
          |eexists; split; [do 7 right; left; reflexivity|solve [repeat split; reflexivity]]
          |eexists; split; [do 8 right; left; reflexivity|solve [repeat split; reflexivity]]
          |eexists; split; [do 9 right; left; reflexivity|solve [repeat split; reflexivity]]].
  - discriminate.
  - intros r H. vm_compute in H; in_tac; (split; vm_compute; discriminate).
  - intros r H. vm_compute in H; in_tac; discriminate.
  - intros r H. vm_compute in H; in_tac; discriminate.
  - apply ends_by. vm_compute. reflexivity.
  - intros r q H Hq. vm_compute in H; in_tac; vm_compute in Hq; first [discriminate Hq|injection Hq as <-; discriminate].
  - intros r m H Hm. vm_compute in H; in_tac; vm_compute in Hm; first [discriminate Hm|injection Hm as <-; discriminate].
  - intros r H. vm_compute in H; in_tac; first [exists 60; reflexivity|exists 100; reflexivity].
  - intros r H Rv. vm_compute in H; in_tac; first [discriminate Rv|vm_compute; discriminate].
  - intros _ r H. vm_compute in H; in_tac; reflexivity.
  - intros (r & H & X). vm_compute in H; in_tac; discriminate X.
Qed.
Definition dia_ways (d : dm_row) : list (list if_row) :=
  if String.eqb (dr_src d) "A" then least_of dia_irs "A" "D" 2 else least_of dia_irs "B" "C" 1.
Lemma dia_carriers d : In d dia_drs -> carriers dia_irs dia_lrs d (dia_ways d).
Proof.
  intros [<-|[<-|[]]]; split; [vm_compute; nodup_tac| |vm_compute; nodup_tac|]; split.
  - intros x [<-|[]] [X _]. discriminate X.
  - intros _. apply least_by; vm_compute; [reflexivity|discriminate|reflexivity].
  - intros x _ _. split; [vm_compute; lia|]. intros p. assert (L : forall q, In q (least_of dia_irs "B" "C" 1) <-> line_least dia_irs "B" q "C") by (apply least_by; vm_compute; [reflexivity|discriminate|reflexivity]).
    apply (best_by dia_irs "B" "C" _ [dia_row "B" "C" "bc" "5"] L); [vm_compute; auto|vm_compute; reflexivity|vm_compute; nodup_tac].
  - intros X. exfalso. apply (X (mkLsRow "B" "C" "l1" None None)); [left; auto|split; reflexivity].
Qed.
(** ... whose links carry half of the first demand each, and the LSP the second one. *)
Example C103_case E : env_ok E -> exists s s', load_file Flex dia_file = Ok s /\ update_simulation E Flex s = (s', Ok tt) /\
  forall i, In i (m_ifs s') -> exists q, i_traffic (h_if s' i) = TNum q /\
    (q == match i_name (h_if s' i) with "ab" | "ac" | "bd" | "cd" => 10 | "bc" => 6 | _ => 0 end)%Q.
Proof.
  intros HE. destruct (C103_bytes Flex dia_file dia_irs dia_nrs dia_drs dia_lrs dia_documented dia_usual) as (s & L & H). destruct (H E HE) as (s' & U & A). exists s, s'. split; [exact L|]. split; [exact U|].
  intros i Hi. assert (X : In (if_key s' i) (map ir_key dia_irs)) by (apply (Permutation_in _ (lo_ifs _ _ _ _ (an_objects _ _ _ _ _ _ A))), in_map; exact Hi).
  apply in_map_iff in X as (r & Ek & Hr).
  destruct (an_traffic _ _ _ _ _ _ A) with (ways := dia_ways) (i := i) (r := r) as (q & Eq & Q).
  { intros n [<-|[]]; reflexivity. } { intros d Hd. split; [now apply dia_carriers|discriminate]. } { exact Hi. } { exact Hr. } { symmetry; exact Ek. }
  exists q. split; [exact Eq|]. assert (Nm : i_name (h_if s' i) = ir_name r) by (unfold if_key, ir_key in Ek; congruence). rewrite Nm, Q. clear - Hr.
  cbn in Hr. repeat (destruct Hr as [<-|Hr]; [vm_compute; reflexivity|]). destruct Hr.
Qed.

(** With IGP shortcuts demands take other ways. *)
Lemma k1_loads : load_model_file Flex dec_int dec_float short_file = Ok k1. Proof. unfold k1. apply loaded_ok. vm_compute. reflexivity. Qed.
Lemma k1_run : update_simulation E0 Flex k1 = (k2, Ok tt). Proof. unfold k2. apply run_split. vm_compute. reflexivity. Qed.
Theorem C103_shortcuts_refuted : ~ forall k py_int py_float lines irs nrs drs lrs s E s' d r, says k py_int py_float lines irs nrs drs lrs -> usual_file k irs nrs drs lrs ->
  load_model_file k py_int py_float lines = Ok s -> env_ok E -> update_simulation E k s = (s', Ok tt) -> In d (m_dms s') -> In r drs -> dmd_key s' d = dr_key r -> demand_answer s' irs lrs d r.
Proof.
  intros H. destruct C102_files_example as (Sy & _ & _ & Uf & _).
  assert (X : demand_answer k2 (ring_irs Flex) ring_lrs 15 (mkDmRow "A" "D" 5 "none")).
  { apply (H Flex dec_int dec_float short_file (ring_irs Flex) short_nrs ring_drs ring_lrs k1 E0 k2 15%nat (mkDmRow "A" "D" 5 "none") Sy Uf k1_loads E0_ok k1_run); clear; vm_compute; auto. }
  clear H Sy Uf. unfold demand_answer in X. assert (P : exists a l ps, d_path (h_dm k2 15) = DPaths ((ILsp l :: a) :: ps)) by (clear; do 3 eexists; vm_compute; reflexivity). destruct P as (a & l & ps & P). rewrite P in X.
  destruct X as [((x & Hx & B) & _)|(_ & L & E & _)].
  - clear - Hx B. destruct B as [B1 B2]. vm_compute in Hx. in_tac; vm_compute in B1, B2; first [discriminate B1|discriminate B2].
  - clear - E. destruct L as [|[|p q] L]; discriminate E.
Qed.
Print Assumptions C103_shortcuts_refuted.
(** Three equal ways through a PerformanceModel *)
Definition fan_file : list string :=
  ["INTERFACES_TABLE"; "header";
   cols ["A"; "B"; "ab"; "1"; "100"]; cols ["B"; "A"; "ba"; "1"; "100"]; cols ["A"; "C"; "ac"; "1"; "100"]; cols ["C"; "A"; "ca"; "1"; "100"]; cols ["A"; "D"; "ad"; "1"; "100"]; cols ["D"; "A"; "da"; "1"; "100"];
   cols ["B"; "Z"; "bz"; "1"; "100"]; cols ["Z"; "B"; "zb"; "1"; "100"]; cols ["C"; "Z"; "cz"; "1"; "100"]; cols ["Z"; "C"; "zc"; "1"; "100"]; cols ["D"; "Z"; "dz"; "1"; "100"]; cols ["Z"; "D"; "zd"; "1"; "100"];
   ""; "NODES_TABLE"; "header"; ""; "DEMANDS_TABLE"; "header"; cols ["A"; "Z"; "10"; "d0"]; ""; "RSVP_LSP_TABLE"; "header"].
Definition fan_row a b name := row Perf a b name 1 100 "" true 100.
Definition fan_irs := [fan_row "A" "B" "ab"; fan_row "B" "A" "ba"; fan_row "A" "C" "ac"; fan_row "C" "A" "ca"; fan_row "A" "D" "ad"; fan_row "D" "A" "da";
  fan_row "B" "Z" "bz"; fan_row "Z" "B" "zb"; fan_row "C" "Z" "cz"; fan_row "Z" "C" "zc"; fan_row "D" "Z" "dz"; fan_row "Z" "D" "zd"].
Definition fan_drs := [mkDmRow "A" "Z" 10 "d0"].
Lemma fan_says : says Perf dec_int dec_float fan_file fan_irs [] fan_drs []. Proof. says_tac. Qed.
Lemma fan_usual : usual_file Perf fan_irs [] fan_drs [].
Proof.
  constructor.
  - vm_compute; nodup_tac.
  - vm_compute; nodup_tac.
  - constructor.
  - intros r H. split; [vm_compute in H; in_tac; discriminate|].
    vm_compute in H; in_tac;
    first [eexists; split; [left; reflexivity|solve [repeat split; reflexivity]]
          |eexists; split; [right; left; reflexivity|solve [repeat split; reflexivity]]
          |eexists; split; [right; right; left; reflexivity|solve [repeat split; reflexivity]]
          |eexists; split; [do 3 right; left; reflexivity|solve [repeat split; reflexivity]]
          |eexists; split; [do 4 right; left; reflexivity|solve [repeat split; reflexivity]]
          |eexists; split; [do 5 right; left; reflexivity|solve [repeat split; reflexivity]]
          |eexists; split; [do 6 right; left; reflexivity|solve [repeat split; reflexivity]]
          |eexists; split; [do 7 right; left; reflexivity|solve [repeat split; reflexivity]]
          |eexists; split; [do 8 right; left; reflexivity|solve [repeat split; reflexivity]]
          |eexists; split; [do 9 right; left; reflexivity|solve [repeat split; reflexivity]]
          |eexists; split; [do 10 right; left; reflexivity|solve [repeat split; reflexivity]]
          |eexists; split; [do 11 right; left; reflexivity|solve [repeat split; reflexivity]]].
  - intros _. vm_compute; nodup_tac.
  - intros r H. vm_compute in H; in_tac; (split; vm_compute; discriminate).
  - intros r H. vm_compute in H; in_tac; discriminate.
  - intros r [].
  - apply ends_by. vm_compute. reflexivity.
  - intros r q [].
  - intros r m [].
  - intros r [].
  - intros r H Rv. vm_compute in H; in_tac; first [discriminate Rv|vm_compute; discriminate].
  - intros _ r [].
  - intros (r & [] & X).
Qed.
Definition fan1 : st := loaded (load_model_file Perf dec_int dec_float fan_file).
Definition fan2 : st := fst (update_simulation E0 Perf fan1).
Lemma fan_loads : load_model_file Perf dec_int dec_float fan_file = Ok fan1. Proof. unfold fan1. apply loaded_ok. vm_compute. reflexivity. Qed.
Lemma fan_run : update_simulation E0 Perf fan1 = (fan2, Ok tt). Proof. unfold fan2. apply run_split. vm_compute. reflexivity. Qed.
Theorem C103_rounded_refuted : ~ forall k py_int py_float lines irs nrs drs lrs s E s' ways i r, says k py_int py_float lines irs nrs drs lrs -> usual_file k irs nrs drs lrs ->
  (forall n, In n nrs -> nr_shortcuts n = false) -> load_model_file k py_int py_float lines = Ok s -> env_ok E -> update_simulation E k s = (s', Ok tt) ->
  (forall d, In d drs -> carriers irs lrs d (ways d)) -> In i (m_ifs s') -> In r irs -> if_key s' i = ir_key r ->
  exists q, i_traffic (h_if s' i) = TNum q /\ (q == line_traffic irs drs ways r)%Q.
Proof.
  intros H.
  assert (X : exists q, i_traffic (h_if fan2 2) = TNum q /\ (q == line_traffic fan_irs fan_drs (fun _ => least_of fan_irs "A" "Z" 2) (fan_row "A" "B" "ab"))%Q).
  { apply (H Perf dec_int dec_float fan_file fan_irs [] fan_drs [] fan1 E0 fan2 (fun _ => least_of fan_irs "A" "Z" 2) 2%nat (fan_row "A" "B" "ab") fan_says fan_usual); clear H.
    - intros n [].
    - exact fan_loads.
    - exact E0_ok.
    - exact fan_run.
    - intros d [<-|[]]. split; [vm_compute; nodup_tac|]. split; [intros x []|]. intros _. apply least_by; vm_compute; [reflexivity|discriminate|reflexivity].
    - vm_compute. auto.
    - left. auto.
    - vm_compute. reflexivity. }
  clear H. destruct X as (q & A & B). assert (Y : i_traffic (h_if fan2 2) <> TNum q \/ ~ (q == line_traffic fan_irs fan_drs (fun _ => least_of fan_irs "A" "Z" 2) (fan_row "A" "B" "ab"))%Q).
  { clear. destruct (Qeq_dec q (line_traffic fan_irs fan_drs (fun _ => least_of fan_irs "A" "Z" 2) (fan_row "A" "B" "ab"))) as [G|G]; [left|right; exact G]. intros A. vm_compute in A. injection A as <-. vm_compute in G. discriminate G. }
  destruct Y; contradiction.
Qed.
Print Assumptions C103_rounded_refuted.
