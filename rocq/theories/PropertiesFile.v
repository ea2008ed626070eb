(** PropertiesFile.v - simulating models loaded from files: files that say the same
    (C97), files of usual networks (C98). *)
From Verif Require Import Base Graph Objects Sim Api Loader Build Spec SpecCkt SpecSim SpecMetric SpecSig SpecFlow SpecOrder SpecTotal SpecSame SpecMore SpecData SpecLoad SpecFile Nets
  GraphProofs PathProofs LoadProofs LoadRun LoadBuild PropertiesLoad PropertiesOrder PropertiesMore PropertiesData FileLsps.
From Coq Require Import Permutation.

(** ** C97 Files that say the same *)
Theorem C97_same_data k py_int py_float lines lines' irs irs' nrs nrs' drs drs' lrs lrs' s t :
  says k py_int py_float lines irs nrs drs lrs -> says k py_int py_float lines' irs' nrs' drs' lrs' -> same_rows irs irs' nrs nrs' drs drs' lrs lrs' ->
  load_model_file k py_int py_float lines = Ok s -> load_model_file k py_int py_float lines' = Ok t -> same_data k s t /\ keys_unique s /\ keys_unique t.
Proof.
  intros S S' R L L'. assert (D := C51_loaded_is_described _ _ _ _ _ _ _ _ _ S L). assert (D' := C51_loaded_is_described _ _ _ _ _ _ _ _ _ S' L').
  split; [exact (files_same_data k s t _ _ _ _ _ _ _ _ D D' R)|]. split; [exact (ds_keys _ _ _ _ _ D)|exact (ds_keys _ _ _ _ _ D')].
Qed.
Print Assumptions C97_same_data.
(** The order of the lines of a table does not matter when no two have the same name. *)
Theorem C97_order irs irs' nrs nrs' drs drs' lrs lrs' : NoDup (map ir_key irs) -> NoDup (map nr_name nrs) -> NoDup (map dr_key drs) -> NoDup (map lr_key lrs) ->
  Permutation irs irs' -> Permutation nrs nrs' -> Permutation drs drs' -> Permutation lrs lrs' -> same_rows irs irs' nrs nrs' drs drs' lrs lrs'.
Proof. apply rows_permuted. Qed.
Print Assumptions C97_order.
(** Simulating the two models gives the same answers, by name. *)
Theorem C97_results E E' k py_int py_float lines lines' irs irs' nrs nrs' drs drs' lrs lrs' s t s' t' :
  env_ok E -> env_ok E' -> says k py_int py_float lines irs nrs drs lrs -> says k py_int py_float lines' irs' nrs' drs' lrs' -> same_rows irs irs' nrs nrs' drs drs' lrs lrs' ->
  load_model_file k py_int py_float lines = Ok s -> load_model_file k py_int py_float lines' = Ok t -> with_room k s ->
  update_simulation E k s = (s', Ok tt) -> update_simulation E' k t = (t', Ok tt) ->
  (forall l m, In l (m_lsps s) -> In m (m_lsps t) -> lsp_key t m = lsp_key s l -> same_fate (l_path (h_ls s' l)) (l_path (h_ls t' m)) /\ same_amount (l_res (h_ls s' l)) (l_res (h_ls t' m))) /\
  (forall d e, In d (m_dms s) -> In e (m_dms t) -> dmd_key t e = dmd_key s d -> same_routes s' (d_path (h_dm s' d)) t' (d_path (h_dm t' e))) /\
  ((forall d l, In d (m_dms s) -> preferred s' d l -> sole_road s l) ->
   forall i j, In i (m_ifs s) -> In j (m_ifs t) -> if_key t j = if_key s i -> same_traffic (i_traffic (h_if s' i)) (i_traffic (h_if t' j))).
Proof.
  intros HE HE' S S' R L L' W U U'. destruct (C97_same_data k py_int py_float lines lines' irs irs' nrs nrs' drs drs' lrs lrs' s t S S' R L L') as (D & K & K'). split; [|split].
  - intros l m Hl Hm X. destruct (C93_lsps E E' k s t s' t' l m HE HE' D K K' W U U' Hl Hm X) as (A & B & _). auto.
  - intros d e. exact (C93_paths E E' k s t s' t' d e HE HE' D K K' W U U').
  - intros So i j Hi Hj X. exact (C93_traffic E E' k s t s' t' i j HE HE' D K K' W U U' Hi Hj X So).
Qed.
Print Assumptions C97_results.

(** ** C98 Files of usual networks load and simulate *)
Theorem C98_loads_and_simulates k py_int py_float lines irs nrs drs lrs : says k py_int py_float lines irs nrs drs lrs -> usual_file k irs nrs drs lrs ->
  exists s, load_model_file k py_int py_float lines = Ok s /\ usual_room k s /\ refs_ok s /\ forall E, env_ok E -> exists s', update_simulation E k s = (s', Ok tt).
Proof.
  intros S U. destruct (load_accepts _ _ _ _ _ _ _ _ S) as (s & L). assert (D := C51_loaded_is_described _ _ _ _ _ _ _ _ _ S L). exists s. split; [exact L|].
  split; [exact (file_room k py_int py_float lines irs nrs drs lrs s S U D)|]. split; [exact (file_refs k irs nrs drs lrs s U D)|]. intros E HE. exact (file_succeeds k py_int py_float lines irs nrs drs lrs s S U D E HE).
Qed.
Print Assumptions C98_loads_and_simulates.
(** ... and every LSP gets the bandwidth its line asks for, or there is no way for it *)
Theorem C98_lsps E k py_int py_float lines irs nrs drs lrs s s' r : env_ok E -> says k py_int py_float lines irs nrs drs lrs -> usual_file k irs nrs drs lrs ->
  load_model_file k py_int py_float lines = Ok s -> update_simulation E k s = (s', Ok tt) -> In r lrs ->
  exists l, In l (m_lsps s) /\ ls_is s l r /\
    ((exists p b q, l_path (h_ls s' l) = PRouted p (route_cost s p) b /\ best_road s l p /\ l_res (h_ls s' l) = RNum q /\ (q == row_wanted drs lrs r)%Q) \/
     (l_path (h_ls s' l) = PUnrouted /\ l_res (h_ls s' l) = RUnrouted /\ forall p, ~ road s l p)).
Proof.
  intros HE S U L Up Hr. assert (D := C51_loaded_is_described _ _ _ _ _ _ _ _ _ S L). destruct (ds_ls_all _ _ _ _ _ D r) as (l & Hl & A); [apply first_nodup; [apply (uf_lsps _ _ _ _ _ U)|exact Hr]|].
  exists l. split; [exact Hl|]. split; [exact A|]. assert (R := file_room k py_int py_float lines irs nrs drs lrs s S U D).
  destruct (PropertiesTotal.C88_own_way E k s s' l HE (ur_posed _ _ R) (ur_known _ _ R) (ur_usual _ _ R) (ur_ample _ _ R) Up Hl) as [(p & b & q & X1 & X2 & X3 & X4)|X]; [left|right; exact X].
  exists p, b, q. split; [exact X1|]. split; [exact X2|]. split; [exact X3|]. rewrite X4. exact (wanted_row k irs nrs drs lrs s U D l r Hl A).
Qed.
Print Assumptions C98_lsps.

(** ** Examples *)
Lemma forall2_read {A} (read : string -> option A) (P : string -> A -> Prop) l rs rs' : (forall x r, P x r -> read x = Some r) -> Forall2 P l rs -> map read l = map Some rs' -> rs = rs'.
Proof.
  intros H F. revert rs'. induction F as [|x r l rs X F IH]; intros [|r' rs'] E; try discriminate; auto. simpl in E. injection E as E1 E2. rewrite (H x r X) in E1. injection E1 as ->. f_equal. auto.
Qed.
Lemma says_by k py_int py_float lines irs nrs drs lrs : (match load_model_file k py_int py_float lines with Ok _ => true | Err _ => false end) = true ->
  (exists l, table "INTERFACES_TABLE" lines = Ok l /\ map (if_read k py_int py_float) l = map Some irs) ->
  (exists l, table "NODES_TABLE" lines = Ok l /\ map (nd_read py_int) l = map Some nrs) ->
  (exists l, table "DEMANDS_TABLE" lines = Ok l /\ map (dm_read py_int) l = map Some drs) ->
  (exists i, line_index "RSVP_LSP_TABLE" lines = Some i /\ map (ls_read py_int py_float) (skipn (i + 2) lines) = map Some lrs) ->
  says k py_int py_float lines irs nrs drs lrs.
Proof.
  intros L0 (a & A & A') (b & B & B') (c & C & C') (d & D & D'). destruct (load_model_file k py_int py_float lines) as [s|] eqn:L; [clear L0|discriminate L0]. apply load_ok in L as (irs' & nrs' & drs' & lrs' & X & _). assert (Y := X). destruct Y as [(a0 & T1 & F1) _ (b0 & T2 & F2) (c0 & T3 & F3) _ T4 _].
  apply in_table_table in T1, T2, T3. rewrite A in T1. rewrite B in T2. rewrite C in T3. injection T1 as <-. injection T2 as <-. injection T3 as <-.
  assert (E1 : irs' = irs) by (eapply forall2_read; [|exact F1|exact A']; intros x r; apply if_read_iff).
  assert (E2 : nrs' = nrs) by (eapply forall2_read; [|exact F2|exact B']; intros x r; apply nd_read_iff).
  assert (E3 : drs' = drs) by (eapply forall2_read; [|exact F3|exact C']; intros x r; apply dm_read_iff).
  assert (E4 : lrs' = lrs).
  { destruct T4 as [[N _]|(l & T & F)]; [apply line_index_none in N; congruence|]. apply below_iff in T as (i & Li & ->). assert (i = d) by congruence. subst i.
    eapply forall2_read; [|exact F|exact D']. intros x r; apply ls_read_iff. }
  subst. exact X.
Qed.

(** A ring with a spur, as a file of either kind *)
Definition link (k : kind) (a b name cost cap c : string) (more : list string) : string :=
  cols ([a; b; name; cost; cap] ++ match k with Flex => [c] | Perf => [] end ++ more).
Definition row (k : kind) (a b name : string) (cost cap : Z) (c : string) (r : bool) (p : Q) : if_row :=
  mkIfRow a b name cost cap (match k with Flex => CStr c | Perf => CNone end) r p.
Definition ring_file (k : kind) : list string :=
  ["INTERFACES_TABLE"; "header";
   link k "A" "B" "ab" "1" "100" "1" []; link k "B" "A" "ba" "1" "100" "1" []; link k "B" "C" "bc" "1" "100" "2" ["True"; "60"]; link k "C" "B" "cb" "2" "100" "2" ["T"; "80"];
   link k "A" "C" "ac" "3" "70" "3" ["no"]; link k "C" "A" "ca" "3" "70" "3" ["F"; "10"]; link k "C" "D" "cd" "1" "100" "4" []; link k "D" "C" "dc" "1" "100" "4" [];
   ""; "NODES_TABLE"; "header"; cols ["A"; "10"; "20"]; cols ["E"; "1"; "2"; "False"];
   ""; "DEMANDS_TABLE"; "header"; cols ["A"; "C"; "20"; "d0"]; cols ["A"; "D"; "5"; ""]; cols ["D"; "A"; "3"; "d2"]; cols ["B"; "D"; "4"; "d3"];
   ""; "RSVP_LSP_TABLE"; "header"; cols ["A"; "C"; "l0"]; cols ["A"; "C"; "l1"; "5"]; cols ["D"; "A"; "l2"; "-"; "7"]; cols ["A"; "E"; "l3"; "1"; "0"]].
Definition ring_irs (k : kind) : list if_row :=
  [row k "A" "B" "ab" 1 100 "1" true 100; row k "B" "A" "ba" 1 100 "1" true 100; row k "B" "C" "bc" 1 100 "2" true 60; row k "C" "B" "cb" 2 100 "2" true 80;
   row k "A" "C" "ac" 3 70 "3" false 100; row k "C" "A" "ca" 3 70 "3" false 10; row k "C" "D" "cd" 1 100 "4" true 100; row k "D" "C" "dc" 1 100 "4" true 100].
Definition ring_nrs : list nd_row := [mkNdRow "A" 10 20 false; mkNdRow "E" 1 2 false].
Definition ring_drs : list dm_row := [mkDmRow "A" "C" 20 "d0"; mkDmRow "A" "D" 5 "none"; mkDmRow "D" "A" 3 "d2"; mkDmRow "B" "D" 4 "d3"].
Definition ring_lrs : list ls_row := [mkLsRow "A" "C" "l0" None None; mkLsRow "A" "C" "l1" (Some 5%Q) None; mkLsRow "D" "A" "l2" None (Some 7); mkLsRow "A" "E" "l3" (Some 1%Q) (Some 0)].
Ltac says_tac := apply says_by; [vm_compute; reflexivity|eexists; split; [vm_compute; reflexivity|vm_compute; reflexivity]|eexists; split; [vm_compute; reflexivity|vm_compute; reflexivity]|eexists; split; [vm_compute; reflexivity|vm_compute; reflexivity]|eexists; split; [vm_compute; reflexivity|vm_compute; reflexivity]].
Lemma ring_says k : says k dec_int dec_float (ring_file k) (ring_irs k) ring_nrs ring_drs ring_lrs.
Proof. destruct k; says_tac. Qed.
Lemma ends_by (A B : list string) :
  forallb (fun a => forallb (fun a' => forallb (fun b => forallb (fun b' => (negb (String.eqb (ends_text a b) (ends_text a' b')) || (String.eqb a a' && String.eqb b b'))%bool) B) B) A) A = true ->
  forall a a' b b', In a A -> In a' A -> In b B -> In b' B -> ends_text a b = ends_text a' b' -> a = a' /\ b = b'.
Proof.
  intros H a a' b b' Ha Ha' Hb Hb' X. rewrite forallb_forall in H. specialize (H a Ha). rewrite forallb_forall in H. specialize (H a' Ha'). rewrite forallb_forall in H.
  specialize (H b Hb). rewrite forallb_forall in H. specialize (H b' Hb'). rewrite X, String.eqb_refl in H. simpl in H. apply andb_prop in H as [Y Z]. now apply String.eqb_eq in Y, Z.
Qed.
Lemma ring_usual k : usual_file k (ring_irs k) ring_nrs ring_drs ring_lrs.
Proof.
  constructor.
  - destruct k; vm_compute; nodup_tac.
  - vm_compute; nodup_tac.
  - vm_compute; nodup_tac.
  - intros r H. split; [destruct k; vm_compute in H; in_tac; discriminate|].
    destruct k; vm_compute in H; in_tac;
    first [eexists; split; [left; reflexivity|solve [repeat split; reflexivity]]
          |eexists; split; [right; left; reflexivity|solve [repeat split; reflexivity]]
          |eexists; split; [right; right; left; reflexivity|solve [repeat split; reflexivity]]
          |eexists; split; [do 3 right; left; reflexivity|solve [repeat split; reflexivity]]
          |eexists; split; [do 4 right; left; reflexivity|solve [repeat split; reflexivity]]
          |eexists; split; [do 5 right; left; reflexivity|solve [repeat split; reflexivity]]
          |eexists; split; [do 6 right; left; reflexivity|solve [repeat split; reflexivity]]
          |eexists; split; [do 7 right; left; reflexivity|solve [repeat split; reflexivity]]].
  - intros ->. vm_compute; nodup_tac.
  - intros r H. destruct k; vm_compute in H; in_tac; (split; vm_compute; discriminate).
  - intros r H. vm_compute in H; in_tac; discriminate.
  - intros r H. vm_compute in H; in_tac; discriminate.
  - apply ends_by. vm_compute. reflexivity.
  - intros r q H Hq. vm_compute in H; in_tac; vm_compute in Hq; first [discriminate Hq|injection Hq as <-; discriminate].
  - intros r m H Hm. vm_compute in H; in_tac; vm_compute in Hm; first [discriminate Hm|injection Hm as <-; discriminate].
  - intros r H. vm_compute in H; in_tac; first [exists 100; reflexivity|exists 50; reflexivity|exists 30; reflexivity|exists 10; reflexivity].
  - intros r H Rv. destruct k; vm_compute in H; in_tac; first [discriminate Rv|vm_compute; discriminate].
  - intros _ r H. vm_compute in H; in_tac; reflexivity.
  - intros (r & H & X). vm_compute in H; in_tac; discriminate X.
Qed.

(** The same network, written in another order and with lines that do not count *)
Definition ring_file' (k : kind) : list string :=
  ["DEMANDS_TABLE"; "header"; cols ["D"; "A"; "3"; "d2"]; cols ["A"; "D"; "5"; ""]; cols ["D"; "A"; "9"; "d2"]; cols ["A"; "C"; "20"; "d0"]; cols ["B"; "D"; "4"; "d3"]; cols ["A"; "D"; "6"; "none"];
   ""; "INTERFACES_TABLE"; "header";
   link k "C" "D" "cd" "1" "100" "4" []; link k "A" "B" "ab" "1" "100" "1" []; link k "B" "C" "bc" "1" "100" "2" ["True"; "60"]; link k "C" "A" "ca" "3" "70" "3" ["F"; "10"];
   link k "D" "C" "dc" "1" "100" "4" ["True"; "100"]; link k "B" "A" "ba" "1" "100" "1" []; link k "C" "B" "cb" "2" "100" "2" ["T"; "80"]; link k "A" "C" "ac" "3" "70" "3" ["no"];
   ""; "NODES_TABLE"; "header"; cols ["E"; "8"; "9"; "True"]; cols ["E"; "1"; "2"; "False"]; cols ["A"; "10"; "20"; "False"];
   ""; "RSVP_LSP_TABLE"; "header"; cols ["A"; "E"; "l3"; "1"; "0"]; cols ["D"; "A"; "l2"; "-"; "7"]; cols ["A"; "C"; "l0"]; cols ["A"; "C"; "l0"; "90"]; cols ["A"; "C"; "l1"; "5"]].
Definition ring_irs' (k : kind) : list if_row :=
  [row k "C" "D" "cd" 1 100 "4" true 100; row k "A" "B" "ab" 1 100 "1" true 100; row k "B" "C" "bc" 1 100 "2" true 60; row k "C" "A" "ca" 3 70 "3" false 10;
   row k "D" "C" "dc" 1 100 "4" true 100; row k "B" "A" "ba" 1 100 "1" true 100; row k "C" "B" "cb" 2 100 "2" true 80; row k "A" "C" "ac" 3 70 "3" false 100].
Definition ring_nrs' : list nd_row := [mkNdRow "E" 8 9 true; mkNdRow "E" 1 2 false; mkNdRow "A" 10 20 false].
Definition ring_drs' : list dm_row :=
  [mkDmRow "D" "A" 3 "d2"; mkDmRow "A" "D" 5 "none"; mkDmRow "D" "A" 9 "d2"; mkDmRow "A" "C" 20 "d0"; mkDmRow "B" "D" 4 "d3"; mkDmRow "A" "D" 6 "none"].
Definition ring_lrs' : list ls_row :=
  [mkLsRow "A" "E" "l3" (Some 1%Q) (Some 0); mkLsRow "D" "A" "l2" None (Some 7); mkLsRow "A" "C" "l0" None None; mkLsRow "A" "C" "l0" (Some 90%Q) None; mkLsRow "A" "C" "l1" (Some 5%Q) None].
Lemma ring_says' k : says k dec_int dec_float (ring_file' k) (ring_irs' k) ring_nrs' ring_drs' ring_lrs'.
Proof. destruct k; says_tac. Qed.
Lemma last_first {A K} (key : A -> K) l r : last_with key l r <-> first_with key (rev l) r.
Proof.
  split; intros (a & b & E & H).
  - exists (rev b), (rev a). split; [rewrite E, rev_app_distr; simpl; now rewrite <- app_assoc|]. intros x Hx. apply H. now apply in_rev.
  - exists (rev b), (rev a). split; [rewrite <- (rev_involutive l), E, rev_app_distr; simpl; now rewrite <- app_assoc|]. intros x Hx. apply H. now apply in_rev.
Qed.
Lemma mentioned_list irs nrs x : mentioned irs nrs x <-> In x (flat_map (fun r => [ir_node r; ir_remote r]) irs ++ map nr_name nrs).
Proof.
  unfold mentioned. rewrite in_app_iff, in_flat_map, in_map_iff. split.
  - intros [(r & H & X)|(r & H & X)]; [left; exists r; split; [exact H|destruct X; simpl; auto]|right; exists r; auto].
  - intros [(r & H & X)|(r & X & H)]; [left; exists r; split; [exact H|destruct X as [X|[X|[]]]; auto]|right; exists r; auto].
Qed.
Lemma str_iff a b : String.eqb a b = true <-> a = b. Proof. apply String.eqb_eq. Qed.
Ltac perm_in := vm_compute; split; intros X; repeat (destruct X as [X|X]; [subst; auto 20|]); destruct X.
Lemma ring_same k : same_rows (ring_irs k) (ring_irs' k) ring_nrs ring_nrs' ring_drs ring_drs' ring_lrs ring_lrs'.
Proof.
  constructor; intros r.
  - rewrite <- !(firsts_In ir_key key2_eqb key2_iff). destruct k; perm_in.
  - rewrite !last_first, <- !(firsts_In nr_name String.eqb str_iff). perm_in.
  - rewrite !mentioned_list. destruct k; perm_in.
  - rewrite <- !(firsts_In dr_key key3_eqb key3_iff). perm_in.
  - rewrite <- !(firsts_In lr_key key3_eqb key3_iff). perm_in.
Qed.
Definition loaded (r : res st) : st := match r with Ok s => s | Err _ => init_st end.
Definition f1 (k : kind) : st := loaded (load_model_file k dec_int dec_float (ring_file k)).
Definition f1' (k : kind) : st := loaded (load_model_file k dec_int dec_float (ring_file' k)).
Lemma loaded_ok r : (match r with Ok _ => true | Err _ => false end) = true -> r = Ok (loaded r).
Proof. destruct r; simpl; congruence. Qed.
Lemma f1_loads k : load_model_file k dec_int dec_float (ring_file k) = Ok (f1 k). Proof. apply loaded_ok. destruct k; vm_compute; reflexivity. Qed.
Lemma f1'_loads k : load_model_file k dec_int dec_float (ring_file' k) = Ok (f1' k). Proof. apply loaded_ok. destruct k; vm_compute; reflexivity. Qed.
Definition f2 : st := fst (update_simulation E0 Flex (f1 Flex)).
Definition f2' : st := fst (update_simulation E0 Flex (f1' Flex)).
Lemma f1_run : update_simulation E0 Flex (f1 Flex) = (f2, Ok tt). Proof. unfold f2. apply run_split. vm_compute. reflexivity. Qed.
Lemma f1'_run : update_simulation E0 Flex (f1' Flex) = (f2', Ok tt). Proof. unfold f2'. apply run_split. vm_compute. reflexivity. Qed.
Lemma f1_room k : with_room k (f1 k).
Proof. apply (file_plain k _ _ _ _ _ _ _ _ (ring_says k) (ring_usual k) (C51_loaded_is_described _ _ _ _ _ _ _ _ _ (ring_says k) (f1_loads k))). intros r H. vm_compute in H; in_tac; reflexivity. Qed.
Lemma f1_sole : forall l, In l (m_lsps (f1 Flex)) -> sole_road (f1 Flex) l.
Proof.
  assert (S : sole_roads (f1 Flex)) by (apply PropertiesSame.sole_by; [vm_compute; nodup_tac|intros i H; vm_compute in H; in_tac; vm_compute; discriminate|vm_compute; reflexivity]).
  intros l Hl p q. exact (S l p q Hl).
Qed.
Definition shown_traffic (s : st) : list (string * string * traf) := map (fun i => (if_key s i, i_traffic (h_if s i))) (m_ifs s).
Example C97_example k : says k dec_int dec_float (ring_file k) (ring_irs k) ring_nrs ring_drs ring_lrs /\ says k dec_int dec_float (ring_file' k) (ring_irs' k) ring_nrs' ring_drs' ring_lrs' /\
  same_rows (ring_irs k) (ring_irs' k) ring_nrs ring_nrs' ring_drs ring_drs' ring_lrs ring_lrs' /\
  load_model_file k dec_int dec_float (ring_file k) = Ok (f1 k) /\ load_model_file k dec_int dec_float (ring_file' k) = Ok (f1' k) /\ with_room k (f1 k) /\
  update_simulation E0 Flex (f1 Flex) = (f2, Ok tt) /\ update_simulation E0 Flex (f1' Flex) = (f2', Ok tt) /\ (forall l, In l (m_lsps (f1 Flex)) -> sole_road (f1 Flex) l) /\
  shown_traffic f2 = [("ab", "A", TNum (100 # 4)); ("ba", "B", TNum 3); ("bc", "B", TNum (116 # 4)); ("cb", "C", TNum 3); ("ac", "A", TNum 0); ("ca", "C", TNum 0); ("cd", "C", TNum 9); ("dc", "D", TNum 3)] /\
  shown_traffic f2' = [("cd", "C", TNum 9); ("ab", "A", TNum (100 # 4)); ("bc", "B", TNum (116 # 4)); ("ca", "C", TNum 0); ("dc", "D", TNum 3); ("ba", "B", TNum 3); ("cb", "C", TNum 3); ("ac", "A", TNum 0)].
Proof.
  split; [apply ring_says|]. split; [apply ring_says'|]. split; [apply ring_same|]. split; [apply f1_loads|]. split; [apply f1'_loads|]. split; [apply f1_room|].
  split; [exact f1_run|]. split; [exact f1'_run|]. split; [exact f1_sole|]. split; vm_compute; reflexivity.
Qed.
Example C98_example k : says k dec_int dec_float (ring_file k) (ring_irs k) ring_nrs ring_drs ring_lrs /\ usual_file k (ring_irs k) ring_nrs ring_drs ring_lrs /\
  map (row_wanted ring_drs ring_lrs) ring_lrs = [20 # 2; 5; 3; 1]%Q /\
  map (fun l => (lsp_key f2 l, l_res (h_ls f2 l))) (m_lsps f2) = [("A", "C", "l0", RNum (20 # 2)); ("A", "C", "l1", RNum 5); ("D", "A", "l2", RNum 3); ("A", "E", "l3", RUnrouted)].
Proof. split; [apply ring_says|]. split; [apply ring_usual|]. split; vm_compute; reflexivity. Qed.

(** ** Files that load need not simulate *)
(** load_model_file checks that each circuit_id appears twice, not that it joins two
    nodes: this file loads and update_simulation rejects the model. *)
Theorem C98_all_files_refuted :
  ~ (forall k py_int py_float lines s E, load_model_file k py_int py_float lines = Ok s -> env_ok E -> exists s', update_simulation E k s = (s', Ok tt)).
Proof.
  intros H. destruct flex_ok as (s & L). destruct (H Flex dec_int dec_float flex_file s E0 L E0_ok) as (s' & U). clear H.
  assert (X : match load_model_file Flex dec_int dec_float flex_file with Ok s0 => snd (update_simulation E0 Flex s0) = Ok tt | Err _ => True end) by (rewrite L; now rewrite U).
  clear -X. vm_compute in X. discriminate X.
Qed.
Print Assumptions C98_all_files_refuted.
(** A line without a partner: a PerformanceModel loads a link in one direction only. *)
Definition oneway_file : list string :=
  ["INTERFACES_TABLE"; "header"; cols ["A"; "B"; "ab"; "1"; "100"]; ""; "NODES_TABLE"; "header"; ""; "DEMANDS_TABLE"; "header"; cols ["A"; "B"; "1"; "d"]].
Theorem C98_one_way_refuted :
  ~ (forall py_int py_float lines s E, load_model_file Perf py_int py_float lines = Ok s -> env_ok E -> exists s', update_simulation E Perf s = (s', Ok tt)).
Proof.
  intros H. assert (L : load_model_file Perf dec_int dec_float oneway_file = Ok (loaded (load_model_file Perf dec_int dec_float oneway_file))) by (clear; apply loaded_ok; vm_compute; reflexivity).
  destruct (H dec_int dec_float oneway_file _ E0 L E0_ok) as (s' & U). clear H L. apply (f_equal snd) in U. vm_compute in U. discriminate U.
Qed.
Print Assumptions C98_one_way_refuted.
