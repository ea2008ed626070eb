(** PropertiesLoad.v - theorems about load_model_file. *)
From Verif Require Import Base Graph Objects Sim Api Loader Spec SpecLoad Nets GraphProofs MonadProofs PathProofs ObjProofs RoundProofs AddProofs LoadProofs LoadRun LoadBuild.

(** ** A file to load *)
Definition digit (a : ascii) : option Z :=
  let n := (Z.of_nat (nat_of_ascii a) - 48)%Z in if ((0 <=? n) && (n <=? 9))%Z%bool then Some n else None.
Fixpoint digits (acc : Z) (t : string) : option Z :=
  match t with
  | EmptyString => Some acc
  | String a t => match digit a with Some d => digits (acc * 10 + d)%Z t | None => None end
  end.
Definition dec_int (t : string) : option Z :=
  match t with
  | EmptyString => None
  | String "-" (String a t) => match digits 0 (String a t) with Some z => Some (- z)%Z | None => None end
  | _ => digits 0 t
  end.
Definition dec_float (t : string) : option Q := match dec_int t with Some z => Some (inject_Z z) | None => None end.
Definition cols (fs : list string) : string := String.concat (String tab_char "") fs.

Definition flex_file : list string :=
  ["INTERFACES_TABLE"; cols ["node"; "remote"; "name"; "cost"; "capacity"; "circuit_id"; "rsvp_enabled"; "percent"];
   cols ["A"; "B"; "ab"; "4"; "100"; "1"]; cols ["B"; "A"; "ba"; "5"; "90"; "1"; "F"; "50"];
   cols ["A"; "B"; "ab"; "9"; "9"; "2"; "T"]; cols ["B"; "C"; "bc"; "7"; "10"; "2"];
   ""; "NODES_TABLE"; cols ["name"; "lon"; "lat"; "shortcuts"];
   cols ["A"; "1"; "-2"; "True"]; cols ["D"]; cols ["A"; "x"; "3"; "False"];
   ""; "DEMANDS_TABLE"; cols ["source"; "dest"; "traffic"; "name"];
   cols ["A"; "D"; "20"; ""]; cols ["A"; "D"; "30"; "none"];
   ""; "RSVP_LSP_TABLE"; cols ["source"; "dest"; "name"; "bw"; "metric"];
   cols ["A"; "C"; "l1"; "6"]; cols ["C"; "A"; "l2"; "-"; "12"]].
Definition shown (r : res st) :=
  match r with
  | Err e => Err e
  | Ok s => Ok (map (fun i => (i_name (h_if s i), loc s i, rem s i, i_cost (h_if s i), i_cap (h_if s i), i_cid (h_if s i), i_rsvp (h_if s i), i_pct (h_if s i))) (m_ifs s),
      map (fun n => (nd_name s n, n_lon (h_nd s n), n_lat (h_nd s n), n_shortcuts (h_nd s n))) (m_nds s),
      map (fun d => (dmd_key s d, d_traffic (h_dm s d))) (m_dms s), map (fun l => (lsp_key s l, l_cfg (h_ls s l), l_imm (h_ls s l))) (m_lsps s))
  end.
Example flex_loads : shown (load_model_file Flex dec_int dec_float flex_file) = Ok
  ([("ab", "A", "B", 4%Z, 100%Q, CStr "1", true, 100%Q); ("ba", "B", "A", 5%Z, 90%Q, CStr "1", false, 50%Q); ("bc", "B", "C", 7%Z, 10%Q, CStr "2", true, 100%Q)],
   [("A", 0%Q, 3%Q, false); ("B", 0%Q, 0%Q, false); ("C", 0%Q, 0%Q, false); ("D", 0%Q, 0%Q, false)],
   [(("A", "D", "none"), 20%Q)], [(("A", "C", "l1"), Some 6%Q, None); (("C", "A", "l2"), None, Some 12%Z)]).
Proof. vm_compute. reflexivity. Qed.
Lemma flex_ok : exists s, load_model_file Flex dec_int dec_float flex_file = Ok s.
Proof. assert (X := flex_loads). destruct (load_model_file _ _ _ _) as [s|e]; [eauto|discriminate X]. Qed.

(** ** C50 Loaded models are well formed *)
Theorem C50_loaded_well_formed k py_int py_float lines s : load_model_file k py_int py_float lines = Ok s ->
  keys_unique s /\
  (forall i, In i (m_ifs s) -> (1 <= i_cost (h_if s i))%Z /\ (0 < i_cap (h_if s i))%Q /\ i_failed (h_if s i) = false /\
     i_traffic (h_if s i) = TNum 0 /\ i_res (h_if s i) = 0%Q /\ i_srlgs (h_if s i) = [] /\ In (i_node (h_if s i)) (m_nds s)) /\
  (forall n, In n (m_nds s) -> n_failed (h_nd s n) = false /\ n_srlgs (h_nd s n) = []) /\
  (forall d, In d (m_dms s) -> (0 <= d_traffic (h_dm s d))%Q /\ d_path (h_dm s d) = DUnrouted) /\
  (forall l, In l (m_lsps s) -> l_path (h_ls s l) = PInit /\ l_res (h_ls s l) = RInit /\ l_setup (h_ls s l) = RInit /\ l_mm (h_ls s l) = None) /\
  m_srs s = [] /\ m_ckts s = [] /\ m_groups s = [] /\
  ((forall i, In i (m_ifs s) -> loc s i <> rem s i) -> refs_ok s).
Proof.
  intros H. apply load_ok in H as (irs & nrs & drs & lrs & X & D). destruct D as [D0 D1 D2 D3 D4 D5 D6 D7 D8 (R1 & R2 & R3) (E1 & E2 & E3)].
  split; auto. split; [|split; [|split; [|split; [|split; [auto|split; [auto|split; [auto|]]]]]]].
  - intros i Hi. destruct (D1 i Hi) as (r & (A1 & A2 & A3 & A4 & A5 & A6 & A7 & A8 & A9 & A10 & A11 & A12 & A13) & (pre & post & -> & _)).
    destruct (sy_ifs _ _ _ _ _ _ _ _ X) as (l & _ & F). destruct (Forall2_in_r _ _ _ r F) as (line & _ & (c & p & fs & _ & B1 & _ & B2 & _)); [apply in_or_app; right; left; auto|].
    rewrite A2, A3. split; auto. split; [unfold Qlt; simpl; lia|]. split; auto. split; auto. split; auto. split; auto. apply (proj1 (R1 i Hi)).
  - intros n Hn. destruct (D3 n Hn) as (_ & r & (_ & _ & _ & _ & Y & Z) & _). auto.
  - intros d Hd. destruct (D5 d Hd) as (r & (_ & _ & A & _ & B & _) & (pre & post & -> & _)).
    destruct (sy_dms _ _ _ _ _ _ _ _ X) as (l & _ & F). destruct (Forall2_in_r _ _ _ r F) as (line & _ & (fs & t & nm & _ & _ & _ & _ & _ & C & _)); [apply in_or_app; right; left; auto|].
    rewrite A. split; auto. unfold Qle; simpl; lia.
  - intros l Hl. destruct (D7 l Hl) as (r & (_ & _ & _ & _ & _ & A & B & C & E) & _). auto.
  - intros N. split; [|split; auto]. intros i Hi. destruct (R1 i Hi) as [A [B|B]]; auto. exfalso. now apply (N i Hi).
Qed.
Print Assumptions C50_loaded_well_formed.

(** The remote node of an interface can be a Node object outside the model: the
    first line that mentions a node joins it to itself. *)
Definition loop_file : list string :=
  ["INTERFACES_TABLE"; "header"; cols ["A"; "A"; "aa"; "4"; "100"]; ""; "NODES_TABLE"; "header"; ""; "DEMANDS_TABLE"; "header"].
Theorem C50_refs_refuted : ~ forall k py_int py_float lines s, load_model_file k py_int py_float lines = Ok s -> refs_ok s.
Proof.
  intros H. assert (X := fun s => H Perf dec_int dec_float loop_file s).
  assert (Y : exists s, load_model_file Perf dec_int dec_float loop_file = Ok s /\ m_ifs s = [2%nat] /\ i_rem (h_if s 2) = 1%nat /\ m_nds s = [0%nat]).
  { vm_compute. eexists. split; [reflexivity|]. auto. }
  destruct Y as (s & L & A & B & C). destruct (X s L) as (R & _). destruct (R 2%nat) as [_ R2]; [rewrite A; left; auto|]. rewrite B, C in R2. destruct R2 as [R2|[]]. discriminate R2.
Qed.
Print Assumptions C50_refs_refuted.

(** ** C51 The model is the one the file describes *)
Theorem C51_loaded_is_described k py_int py_float lines irs nrs drs lrs s :
  says k py_int py_float lines irs nrs drs lrs -> load_model_file k py_int py_float lines = Ok s -> described s irs nrs drs lrs.
Proof.
  intros X H. apply load_ok in H as (a & b & c & d & Y & D). destruct (says_det _ _ _ _ _ _ _ _ _ _ _ _ X Y) as (-> & -> & -> & ->). exact D.
Qed.
Print Assumptions C51_loaded_is_described.

Example C51_case : exists irs nrs drs lrs s, says Flex dec_int dec_float flex_file irs nrs drs lrs /\ load_model_file Flex dec_int dec_float flex_file = Ok s.
Proof. destruct flex_ok as (s & H). destruct (load_ok _ _ _ _ _ H) as (irs & nrs & drs & lrs & X & _). exists irs, nrs, drs, lrs, s. auto. Qed.

(** ** C52 Which files load *)
Theorem C52_loads_iff k py_int py_float lines :
  (exists s, load_model_file k py_int py_float lines = Ok s) <-> (exists irs nrs drs lrs, says k py_int py_float lines irs nrs drs lrs).
Proof.
  split.
  - intros (s & H). apply load_ok in H as (irs & nrs & drs & lrs & X & _). eauto 6.
  - intros (irs & nrs & drs & lrs & X). eapply load_accepts; eauto.
Qed.
Print Assumptions C52_loads_iff.

Definition rejected k py_int py_float lines : Prop := exists e, load_model_file k py_int py_float lines = Err e.
Lemma rejected_iff k py_int py_float lines : (forall irs nrs drs lrs, ~ says k py_int py_float lines irs nrs drs lrs) -> rejected k py_int py_float lines.
Proof.
  intros N. unfold rejected. destruct (load_model_file k py_int py_float lines) as [s|e] eqn:L; [|eauto].
  apply load_ok in L as (a & b & c & d & X & _). exfalso. eapply N; eauto.
Qed.

Theorem C52_missing_table k py_int py_float lines name :
  In name ["INTERFACES_TABLE"; "NODES_TABLE"; "DEMANDS_TABLE"] -> ~ In name lines -> rejected k py_int py_float lines.
Proof.
  intros Hn N. apply rejected_iff. intros irs nrs drs lrs X.
  assert (Y : exists body, in_table name lines body).
  { destruct Hn as [<-|[<-|[<-|[]]]]; [destruct (sy_ifs _ _ _ _ _ _ _ _ X) as (l & T & _)|destruct (sy_nds _ _ _ _ _ _ _ _ X) as (l & T & _)|destruct (sy_dms _ _ _ _ _ _ _ _ X) as (l & T & _)]; eauto. }
  destruct Y as (body & rest & (pre & more & -> & _) & _). apply N. apply in_or_app; right; left; auto.
Qed.
Print Assumptions C52_missing_table.

(** A line of INTERFACES_TABLE with too few or too many columns, or whose cost or
    capacity cannot be read or is out of range. *)
Theorem C52_bad_interface_line k py_int py_float lines l line fs :
  in_table "INTERFACES_TABLE" lines l -> In line l -> tsv fs line ->
  (List.length fs < match k with Flex => 6 | Perf => 5 end)%nat \/ (match k with Flex => 8 | Perf => 7 end < List.length fs)%nat \/
  (exists t, nth_error fs 3 = Some t /\ forall c, py_int t = Some c -> (c < 1)%Z) \/
  (exists t, nth_error fs 4 = Some t /\ forall c, py_int t = Some c -> (c <= 0)%Z) ->
  rejected k py_int py_float lines.
Proof.
  intros T Hl Tf B. apply rejected_iff. intros irs nrs drs lrs X. destruct (sy_ifs _ _ _ _ _ _ _ _ X) as (l' & T' & F).
  apply in_table_table in T, T'. rewrite T in T'. injection T' as <-. destruct (Forall2_in_l _ _ _ line F Hl) as (r & _ & (c & p & gs & P1 & L1 & P2 & L2 & RC & S)).
  assert (LG : (List.length gs <= 2)%nat) by (destruct RC as [(-> & _)|(v & _ & [(-> & _)|(q & -> & _)])]; simpl; lia).
  assert (E : exists a b n rest, fs = a :: b :: n :: c :: p :: rest /\
    (List.length fs = List.length gs + match k with Flex => 6 | Perf => 5 end)%nat).
  { apply tsv_split in Tf. destruct k; [destruct S as (ci & _ & S)|destruct S as (_ & S)]; apply tsv_split in S; rewrite Tf in S; rewrite S; eexists _, _, _, _; (split; [reflexivity|simpl; lia]). }
  destruct E as (a & b & n & rest & E & LE). destruct B as [B|[B|[(t & B1 & B2)|(t & B1 & B2)]]].
  - destruct k; lia.
  - destruct k; lia.
  - rewrite E in B1. simpl in B1. injection B1 as <-. specialize (B2 _ P1). lia.
  - rewrite E in B1. simpl in B1. injection B1 as <-. specialize (B2 _ P2). lia.
Qed.
Print Assumptions C52_bad_interface_line.

(** FlexModel: a circuit_id that appears once, or three times or more. *)
Theorem C52_bad_circuit_id py_int py_float lines l pre line post fs c :
  in_table "INTERFACES_TABLE" lines l -> l = pre ++ line :: post -> tsv fs line -> nth_error fs 5 = Some c ->
  (forall x gs, In x (pre ++ post) -> tsv gs x -> nth_error gs 5 <> Some c) \/
  (exists a x b y d, pre ++ post = a ++ x :: b ++ y :: d /\ (exists gs, tsv gs x /\ nth_error gs 5 = Some c) /\ (exists gs, tsv gs y /\ nth_error gs 5 = Some c)) ->
  rejected Flex py_int py_float lines.
Proof.
  intros T El Tf C B. apply rejected_iff. intros irs nrs drs lrs X. destruct (sy_ifs _ _ _ _ _ _ _ _ X) as (l' & T' & F).
  apply in_table_table in T, T'. rewrite T in T'. injection T' as <-.
  assert (OK := proj2 (circuit_ids_spec Flex py_int py_float l irs eq_refl F) (fun r Hr => sy_twice _ _ _ _ _ _ _ _ X eq_refl r Hr)).
  unfold circuit_ids_ok in OK. rewrite forallb_forall in OK. apply tsv_split in Tf.
  set (p := fun x => match nth_error (split_tab x) 5 with Some c' => String.eqb c c' | None => false end).
  assert (L : forall l0, count_str c (circuit_ids_of l0) = List.length (filter p l0)).
  { unfold count_str. induction l0 as [|x l0 IH]; auto. cbn [filter]. unfold circuit_ids_of. cbn [flat_map]. fold (circuit_ids_of l0). unfold p at 1.
    destruct (nth_error (split_tab x) 5) as [c'|]; [|exact IH]. cbn [app filter]. destruct (String.eqb c c'); [cbn [List.length]; now rewrite IH|exact IH]. }
  assert (Hc : In c (circuit_ids_of l)).
  { unfold circuit_ids_of. rewrite in_flat_map. exists line. split; [rewrite El; apply in_or_app; right; left; auto|]. rewrite Tf, C. left; auto. }
  specialize (OK c Hc). apply Nat.eqb_eq in OK. rewrite L, El, filter_app in OK. simpl in OK.
  assert (PL : p line = true) by (unfold p; rewrite Tf, C; apply String.eqb_refl). rewrite PL in OK. rewrite app_length in OK. simpl in OK.
  assert (E : List.length (filter p (pre ++ post)) = 1%nat) by (rewrite filter_app, app_length; lia).
  destruct B as [B|(a & x & b & y & d & B & (gx & Tx & Cx) & (gy & Ty & Cy))].
  - rewrite filter_nothing in E; [discriminate E|]. intros x Hx. unfold p. destruct (nth_error (split_tab x) 5) as [c'|] eqn:N; auto.
    apply String.eqb_neq. intros <-. apply (B x (split_tab x)); auto. apply split_tsv.
  - rewrite B, filter_app in E. simpl in E. apply tsv_split in Tx, Ty. assert (PX : p x = true) by (unfold p; rewrite Tx, Cx; apply String.eqb_refl).
    assert (PY : p y = true) by (unfold p; rewrite Ty, Cy; apply String.eqb_refl). rewrite PX, filter_app in E. simpl in E. rewrite PY in E.
    rewrite !app_length in E. simpl in E. rewrite app_length in E. simpl in E. lia.
Qed.
Print Assumptions C52_bad_circuit_id.

(** A node no line of INTERFACES_TABLE or NODES_TABLE names. *)
Definition unknown (k : kind) (lines : list string) (x : string) : Prop :=
  (forall l line fs, in_table "INTERFACES_TABLE" lines l -> In line l -> tsv fs line -> nth_error fs 0 <> Some x /\ nth_error fs 1 <> Some x) /\
  (forall l line fs, in_table "NODES_TABLE" lines l -> In line l -> tsv fs line -> nth_error fs 0 <> Some x).
Lemma unknown_not k py_int py_float lines irs nrs drs lrs x : unknown k lines x -> says k py_int py_float lines irs nrs drs lrs -> ~ mentioned irs nrs x.
Proof.
  intros (U1 & U2) X [(r & Hr & M)|(r & Hr & M)].
  - destruct (sy_ifs _ _ _ _ _ _ _ _ X) as (l & T & F). destruct (Forall2_in_r _ _ _ _ F Hr) as (line & Hl & (c & p & gs & _ & _ & _ & _ & _ & S)).
    assert (Y : exists rest, tsv (ir_node r :: ir_remote r :: rest) line) by (destruct k; [destruct S as (ci & _ & S)|destruct S as (_ & S)]; eexists; exact S).
    destruct Y as (rest & Y). destruct (U1 l line _ T Hl Y) as [Y1 Y2]. destruct M as [-> | ->]; [now apply Y1|now apply Y2].
  - destruct (sy_nds _ _ _ _ _ _ _ _ X) as (l & T & F). destruct (Forall2_in_r _ _ _ _ F Hr) as (line & Hl & (fs & S & N & _)).
    apply (U2 l line fs T Hl S). congruence.
Qed.
Theorem C52_unknown_node k py_int py_float lines l line fs x :
  (in_table "DEMANDS_TABLE" lines l \/ below "RSVP_LSP_TABLE" lines l) -> In line l -> tsv fs line ->
  (nth_error fs 0 = Some x \/ nth_error fs 1 = Some x) -> unknown k lines x -> rejected k py_int py_float lines.
Proof.
  intros T Hl S N U. apply rejected_iff. intros irs nrs drs lrs X. apply (unknown_not k py_int py_float lines irs nrs drs lrs x U X).
  destruct T as [T|T].
  - destruct (sy_dms _ _ _ _ _ _ _ _ X) as (l' & T' & F). apply in_table_table in T, T'. rewrite T in T'. injection T' as <-.
    destruct (Forall2_in_l _ _ _ _ F Hl) as (r & Hr & (gs & t & nm & S' & A & B & _)). apply tsv_split in S, S'. rewrite S in S'. subst gs.
    destruct (sy_dms_known _ _ _ _ _ _ _ _ X r Hr) as [K1 K2]. destruct N as [N|N]; [rewrite N in A; injection A as ->; auto|rewrite N in B; injection B as ->; auto].
  - destruct (sy_ls _ _ _ _ _ _ _ _ X) as [(NI & _)|(l' & T' & F)]; [destruct T as (pre & more & -> & _); exfalso; apply NI; apply in_or_app; right; left; auto|].
    apply below_iff in T as (i & Li & ->), T' as (i' & Li' & ->). assert (i = i') by congruence. subst i'.
    destruct (Forall2_in_l _ _ _ _ F Hl) as (r & Hr & (gs & S' & A & B & _)). apply tsv_split in S, S'. rewrite S in S'. subst gs.
    destruct (sy_ls_known _ _ _ _ _ _ _ _ X r Hr) as [K1 K2]. destruct N as [N|N]; [rewrite N in A; injection A as ->; auto|rewrite N in B; injection B as ->; auto].
Qed.
Print Assumptions C52_unknown_node.

(** An empty line below the RSVP_LSP_TABLE. *)
Theorem C52_blank_line_after_lsps k py_int py_float lines l :
  below "RSVP_LSP_TABLE" lines l -> In "" l -> rejected k py_int py_float lines.
Proof.
  intros T Hl. apply rejected_iff. intros irs nrs drs lrs X.
  destruct (sy_ls _ _ _ _ _ _ _ _ X) as [(NI & _)|(l' & T' & F)]; [destruct T as (pre & more & -> & _); apply NI; apply in_or_app; right; left; auto|].
  apply below_iff in T as (i & Li & ->), T' as (i' & Li' & ->). assert (i = i') by congruence. subst i'.
  destruct (Forall2_in_l _ _ _ _ F Hl) as (r & Hr & (gs & S' & A & B & _)). apply tsv_split in S'. change (split_tab "") with [""] in S'. subst gs. discriminate B.
Qed.
Print Assumptions C52_blank_line_after_lsps.

Example C52_blank_raises : shown (load_model_file Flex dec_int dec_float (flex_file ++ [""])) = Err (ModelException "No node with name exists in the model").
Proof. vm_compute. reflexivity. Qed.
Example C52_blank_case : below "RSVP_LSP_TABLE" (flex_file ++ [""]) (skipn 20 flex_file ++ [""]) /\ In "" (skipn 20 flex_file ++ [""]).
Proof.
  split; [|simpl; auto 10]. exists (firstn 18 flex_file), (skipn 19 flex_file ++ [""]). split; [reflexivity|]. split; [|reflexivity].
  simpl. intuition discriminate.
Qed.

(** Files the rejections apply to. *)
Lemma in_table_of name lines body : table name lines = Ok body -> in_table name lines body.
Proof. intros H. assert (S := table_spec name lines). rewrite H in S. exact S. Qed.
Lemma tsv_of fs line : split_tab line = fs -> tsv fs line.
Proof. intros <-. apply split_tsv. Qed.
Example C52_missing_case : In "NODES_TABLE" ["INTERFACES_TABLE"; "NODES_TABLE"; "DEMANDS_TABLE"] /\ ~ In "NODES_TABLE" (firstn 7 flex_file ++ skipn 8 flex_file).
Proof. simpl. intuition discriminate. Qed.
Example C52_columns_case : in_table "INTERFACES_TABLE" loop_file [cols ["A"; "A"; "aa"; "4"; "100"]] /\ tsv ["A"; "A"; "aa"; "4"; "100"] (cols ["A"; "A"; "aa"; "4"; "100"]) /\
  (List.length ["A"; "A"; "aa"; "4"; "100"] < 6)%nat.
Proof. split; [apply in_table_of; reflexivity|]. split; [apply tsv_of; reflexivity|simpl; lia]. Qed.
Example C52_circuit_case : let line := cols ["A"; "B"; "ab"; "4"; "100"; "1"] in
  in_table "INTERFACES_TABLE" (firstn 3 flex_file ++ skipn 6 flex_file) [line] /\ tsv ["A"; "B"; "ab"; "4"; "100"; "1"] line /\
  forall x gs, In x ([] ++ [] : list string) -> tsv gs x -> nth_error gs 5 <> Some "1".
Proof. split; [apply in_table_of; reflexivity|]. split; [apply tsv_of; reflexivity|]. intros x gs []. Qed.
Definition stray_file : list string := firstn 16 flex_file ++ [cols ["A"; "Z"; "1"; "d"]] ++ skipn 16 flex_file.
Example C52_unknown_case : in_table "DEMANDS_TABLE" stray_file [cols ["A"; "D"; "20"; ""]; cols ["A"; "Z"; "1"; "d"]; cols ["A"; "D"; "30"; "none"]] /\
  tsv ["A"; "Z"; "1"; "d"] (cols ["A"; "Z"; "1"; "d"]) /\ unknown Flex stray_file "Z".
Proof.
  split; [apply in_table_of; reflexivity|]. split; [apply tsv_of; reflexivity|].
  split; intros l line fs T Hl S; apply in_table_table in T; vm_compute in T; injection T as <-; vm_compute in Hl; in_tac; apply tsv_split in S; vm_compute in S; subst fs;
    try split; vm_compute; intros Z0; discriminate Z0.
Qed.

(** ** C53 Nothing but the tables matters *)
Theorem C53_table_extent k py_int py_float l1 l2 :
  (forall name body, In name ["INTERFACES_TABLE"; "NODES_TABLE"; "DEMANDS_TABLE"] -> in_table name l1 body <-> in_table name l2 body) ->
  (forall body, below "RSVP_LSP_TABLE" l1 body <-> below "RSVP_LSP_TABLE" l2 body) ->
  load_model_file k py_int py_float l1 = load_model_file k py_int py_float l2.
Proof.
  intros H1 H2. assert (T : forall name, In name ["INTERFACES_TABLE"; "NODES_TABLE"; "DEMANDS_TABLE"] -> table name l1 = table name l2).
  { intros name Hn. assert (A := table_spec name l1). assert (B := table_spec name l2).
    destruct (table name l1) as [b1|e1] eqn:T1, (table name l2) as [b2|e2] eqn:T2.
    - apply H1 in A; auto. apply in_table_table in A. congruence.
    - apply H1 in A; auto. apply in_table_table in A. congruence.
    - apply H1 in B; auto. apply in_table_table in B. congruence.
    - destruct A as [-> _], B as [-> _]. reflexivity. }
  unfold load_model_file, load. rewrite (T "INTERFACES_TABLE"), (T "NODES_TABLE"), (T "DEMANDS_TABLE") by (simpl; auto).
  assert (L : match line_index "RSVP_LSP_TABLE" l1 with None => None | Some i => Some (skipn (i + 2) l1) end =
              match line_index "RSVP_LSP_TABLE" l2 with None => None | Some i => Some (skipn (i + 2) l2) end).
  { destruct (line_index "RSVP_LSP_TABLE" l1) as [i|] eqn:L1.
    - assert (X : below "RSVP_LSP_TABLE" l1 (skipn (i + 2) l1)) by (apply below_iff; eauto). apply H2 in X. apply below_iff in X as (j & Lj & E). now rewrite Lj, E.
    - destruct (line_index "RSVP_LSP_TABLE" l2) as [i|] eqn:L2; auto.
      assert (X : below "RSVP_LSP_TABLE" l2 (skipn (i + 2) l2)) by (apply below_iff; eauto). apply H2 in X. apply below_iff in X as (j & Lj & E). congruence. }
  replace (match line_index "RSVP_LSP_TABLE" l1 with None => ret tt | Some i => try (mfor (skipn (i + 2) l1) (load_lsp_line py_int py_float))
          (fun e => match e with ValueError => Some (ret tt) | _ => None end) end)
     with (match line_index "RSVP_LSP_TABLE" l2 with None => ret tt | Some i => try (mfor (skipn (i + 2) l2) (load_lsp_line py_int py_float))
          (fun e => match e with ValueError => Some (ret tt) | _ => None end) end); [reflexivity|].
  destruct (line_index "RSVP_LSP_TABLE" l1), (line_index "RSVP_LSP_TABLE" l2); try discriminate; auto. injection L as ->. reflexivity.
Qed.
Print Assumptions C53_table_extent.

(** Lines between the tables and before the first one are not read. *)
Definition noisy_file : list string := ["a comment"] ++ firstn 7 flex_file ++ ["anything"] ++ skipn 7 flex_file.
Example C53_case : forall s, load_model_file Flex dec_int dec_float flex_file = Ok s -> load_model_file Flex dec_int dec_float noisy_file = Ok s.
Proof.
  intros s <-. apply C53_table_extent.
  - intros name body Hn. assert (E : table name noisy_file = table name flex_file) by (destruct Hn as [<-|[<-|[<-|[]]]]; reflexivity).
    split; intros T; assert (T' := in_table_table _ _ _ T); [rewrite E in T'; assert (S := table_spec name flex_file)|rewrite <- E in T'; assert (S := table_spec name noisy_file)]; rewrite T' in S; exact S.
  - intros body. rewrite !below_iff. split; intros (i & L & ->); vm_compute in L; injection L as <-; eexists; (split; [vm_compute; reflexivity|reflexivity]).
Qed.

(** ** C58 Circuits of a loaded FlexModel *)
(** If no two lines describe the same interface, each circuit_id is on exactly two interfaces. *)
Theorem C58_two_ends py_int py_float lines irs nrs drs lrs s i :
  says Flex py_int py_float lines irs nrs drs lrs -> NoDup (map ir_key irs) -> load_model_file Flex py_int py_float lines = Ok s ->
  In i (m_ifs s) -> exists j, In j (m_ifs s) /\ j <> i /\ i_cid (h_if s j) = i_cid (h_if s i) /\
    forall x, In x (m_ifs s) -> i_cid (h_if s x) = i_cid (h_if s i) -> x = i \/ x = j.
Proof.
  intros X ND H Hi. assert (D := C51_loaded_is_described _ _ _ _ _ _ _ _ _ X H). destruct D as [(KU & _) D1 D2 _ _ _ _ _ _ _ _].
  assert (FW : forall r, In r irs -> first_with ir_key irs r).
  { intros r Hr. apply in_split in Hr as (pre & post & ->). exists pre, post. split; auto. intros x Hx C. rewrite map_app in ND. simpl in ND.
    apply NoDup_remove_2 in ND. apply ND. apply in_or_app. left. rewrite <- C. now apply in_map. }
  assert (IK : forall j x, if_is s j x -> if_key s j = ir_key x /\ i_cid (h_if s j) = ir_cid x).
  { intros j x (A & _ & _ & B & _ & C & _). unfold if_key, ir_key. split; congruence. }
  destruct (D1 i Hi) as (r & Ri & (pre & post & E & _)). destruct (IK _ _ Ri) as [Ki Ci].
  assert (Hr : In r irs) by (rewrite E; apply in_or_app; right; left; auto).
  destruct (sy_twice _ _ _ _ _ _ _ _ X eq_refl r Hr) as (a & r1 & b & r2 & c & E2 & C1 & C2 & N).
  assert (H1 : In r1 irs) by (rewrite E2; apply in_or_app; right; left; auto).
  assert (H2 : In r2 irs) by (rewrite E2; apply in_or_app; right; right; apply in_or_app; right; left; auto).
  assert (N12 : ir_key r1 <> ir_key r2).
  { rewrite E2, map_app in ND. simpl in ND. apply NoDup_remove_2 in ND. intros C. apply ND. apply in_or_app. right. rewrite C. apply in_map. apply in_or_app. right. left. auto. }
  assert (U : forall x y, In x irs -> In y irs -> ir_key x = ir_key y -> x = y).
  { clear - ND. induction irs as [|z irs IH]; [intros x y []|]. simpl in ND. inversion ND as [|? ? N ND']; subst. intros x y [<-|Hx] [<-|Hy] K; auto.
    - exfalso. apply N. rewrite K. now apply in_map.
    - exfalso. apply N. rewrite <- K. now apply in_map. }
  assert (U3 : forall x, In x irs -> ir_cid x = ir_cid r -> x = r1 \/ x = r2).
  { intros x Hx C. rewrite E2 in Hx. rewrite in_app_iff in Hx. simpl in Hx. rewrite in_app_iff in Hx. simpl in Hx.
    destruct Hx as [Hx|[Hx|[Hx|[Hx|Hx]]]]; auto; exfalso; apply (N x); auto; rewrite !in_app_iff; auto. }
  assert (O : exists r', In r' irs /\ r' <> r /\ ir_cid r' = ir_cid r /\ forall x, In x irs -> ir_cid x = ir_cid r -> x = r \/ x = r').
  { destruct (U3 r Hr eq_refl) as [-> | ->]; [exists r2|exists r1].
    - split; auto. split; [intros ->; apply N12; auto|auto].
    - split; auto. split; [intros ->; apply N12; auto|]. split; auto. intros x Hx C. destruct (U3 x Hx C); auto. }
  destruct O as (r' & H' & Ne & C' & U4). destruct (D2 r' (FW r' H')) as (j & Hj & Rj). destruct (IK _ _ Rj) as [Kj Cj].
  exists j. split; auto. split; [intros ->; apply Ne; apply U; auto; congruence|]. split; [congruence|].
  intros x Hx C. destruct (D1 x Hx) as (rx & Rx & (px & qx & Ex & _)). destruct (IK _ _ Rx) as [Kx Cx].
  assert (Hrx : In rx irs) by (rewrite Ex; apply in_or_app; right; left; auto).
  destruct (U4 rx Hrx) as [-> | ->]; [congruence| |]; [left|right]; apply (NoDup_map_inj (if_key s) (m_ifs s)); auto; congruence.
Qed.
Print Assumptions C58_two_ends.

Definition pair_lines : list string := firstn 4 flex_file ++ skipn 6 (firstn 18 flex_file).
Example C58_case : exists irs nrs drs lrs s, says Flex dec_int dec_float pair_lines irs nrs drs lrs /\ NoDup (map ir_key irs) /\
  load_model_file Flex dec_int dec_float pair_lines = Ok s /\ List.length (m_ifs s) = 2%nat.
Proof.
  assert (Y : exists s, load_model_file Flex dec_int dec_float pair_lines = Ok s /\ List.length (m_ifs s) = 2%nat).
  { vm_compute. eexists. split; [reflexivity|]. reflexivity. }
  destruct Y as (s & L & N). destruct (load_ok _ _ _ _ _ L) as (irs & nrs & drs & lrs & X & _). exists irs, nrs, drs, lrs, s. split; auto. split; auto.
  destruct (sy_ifs _ _ _ _ _ _ _ _ X) as (l & T & F). apply in_table_table in T. vm_compute in T. injection T as <-.
  inversion F as [|? r1 ? ? A1 F1]; subst. inversion F1 as [|? r2 ? ? A2 F2]; subst. inversion F2; subst.
  apply if_read_iff in A1, A2. vm_compute in A1, A2. injection A1 as <-. injection A2 as <-. vm_compute. repeat constructor; simpl; intuition discriminate.
Qed.

(** With a repeated line, the check of the circuit_ids passes though an interface has no other end. *)
Theorem C58_single_end_refuted : ~ forall py_int py_float lines s i, load_model_file Flex py_int py_float lines = Ok s -> In i (m_ifs s) ->
  exists j, In j (m_ifs s) /\ j <> i /\ i_cid (h_if s j) = i_cid (h_if s i).
Proof.
  intros H. assert (Y : exists s, load_model_file Flex dec_int dec_float flex_file = Ok s /\
    map (fun i => (i, i_cid (h_if s i))) (m_ifs s) = [(2%nat, CStr "1"); (3%nat, CStr "1"); (6%nat, CStr "2")]).
  { vm_compute. eexists. split; [reflexivity|]. reflexivity. }
  destruct Y as (s & L & M). assert (A : forall x, In x (m_ifs s) -> In (x, i_cid (h_if s x)) [(2%nat, CStr "1"); (3%nat, CStr "1"); (6%nat, CStr "2")]).
  { intros x Hx. rewrite <- M. exact (in_map (fun i => (i, i_cid (h_if s i))) _ _ Hx). }
  assert (I6 : In 6%nat (m_ifs s) /\ i_cid (h_if s 6) = CStr "2").
  { assert (B : In (6%nat, CStr "2") (map (fun i => (i, i_cid (h_if s i))) (m_ifs s))) by (rewrite M; simpl; auto).
    apply in_map_iff in B as (x & B & Hx). injection B as -> B. auto. }
  destruct I6 as [I6 C6]. destruct (H _ _ _ s 6%nat L I6) as (j & Hj & Nj & Cj). apply A in Hj. rewrite Cj, C6 in Hj.
  destruct Hj as [Hj|[Hj|[Hj|[]]]]; try discriminate Hj. injection Hj as <-. now apply Nj.
Qed.
Print Assumptions C58_single_end_refuted.
