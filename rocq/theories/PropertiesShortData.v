(** PropertiesShortData.v - only the data count, also with IGP shortcuts (C102). *)
From Verif Require Import Base Graph Objects Sim Api Loader Build Spec SpecHist SpecCkt SpecSim SpecMetric SpecSig SpecFlow SpecOrder SpecShort SpecTotal SpecSame SpecFail SpecWhatIf SpecMore SpecData SpecLoad SpecFile Nets
  PropertiesApi PropertiesRoute PropertiesFail PropertiesOrder PropertiesTotal PropertiesShort PropertiesWhatIf PropertiesSame PropertiesLoad PropertiesMore PropertiesData PropertiesFile GraphProofs LoadProofs LoadRun LoadBuild MoreLsps DataLsps KindLsps FileLsps DataShort.

(** ** Models with the same data *)
Theorem C102_success E E' k s t : env_ok E -> env_ok E' -> same_data k s t -> keys_unique s -> keys_unique t -> usual_room k s ->
  usual_room k t /\ ((exists s', update_simulation E k s = (s', Ok tt)) <-> exists t', update_simulation E' k t = (t', Ok tt)).
Proof.
  intros HE HE' D Ks Kt R. assert (Rt := sd_usual k s t D Ks Kt (ur_usual _ _ R) R). split; [exact Rt|]. split; intros H.
  - exact (sd_succeeds E E' k s t HE HE' D Ks Kt R H).
  - exact (sd_succeeds E' E k t s HE' HE (sd_sym _ _ _ D) Kt Ks Rt H).
Qed.
Print Assumptions C102_success.
Theorem C102_lsps E E' k s t s' t' l m : env_ok E -> env_ok E' -> same_data k s t -> keys_unique s -> keys_unique t -> usual_room k s ->
  update_simulation E k s = (s', Ok tt) -> update_simulation E' k t = (t', Ok tt) -> In l (m_lsps s) -> In m (m_lsps t) -> lsp_key t m = lsp_key s l ->
  same_fate (l_path (h_ls s' l)) (l_path (h_ls t' m)) /\ same_amount (l_res (h_ls s' l)) (l_res (h_ls t' m)) /\ same_amount (l_setup (h_ls s' l)) (l_setup (h_ls t' m)) /\
  (sole_road s l -> same_named_way s' (l_path (h_ls s' l)) t' (l_path (h_ls t' m))).
Proof. intros HE HE' D Ks Kt R U U'. exact (sd_lsps_same E E' k HE HE' s t s' t' D Ks Kt R U U' l m). Qed.
Print Assumptions C102_lsps.
Theorem C102_paths E E' s t s' t' d e : env_ok E -> env_ok E' -> same_data Flex s t -> keys_unique s -> keys_unique t -> refs_ok s -> refs_ok t -> usual_room Flex s ->
  update_simulation E Flex s = (s', Ok tt) -> update_simulation E' Flex t = (t', Ok tt) -> In d (m_dms s) -> In e (m_dms t) -> dmd_key t e = dmd_key s d ->
  (no_lsp_for s' d -> one_road s d) ->
  same_routes s' (d_path (h_dm s' d)) t' (d_path (h_dm t' e)).
Proof. intros HE HE' D Ks Kt R0 R1 R U U'. exact (ds_paths E E' HE HE' s t s' t' D Ks Kt R0 R1 R U U' d e). Qed.
Print Assumptions C102_paths.
Theorem C102_traffic E E' s t s' t' i j : env_ok E -> env_ok E' -> same_data Flex s t -> keys_unique s -> keys_unique t -> refs_ok s -> refs_ok t -> usual_room Flex s ->
  update_simulation E Flex s = (s', Ok tt) -> update_simulation E' Flex t = (t', Ok tt) -> In i (m_ifs s) -> In j (m_ifs t) -> if_key t j = if_key s i ->
  (forall d, In d (m_dms s) -> no_lsp_for s' d -> one_road s d) -> used_roads s s' ->
  same_traffic (i_traffic (h_if s' i)) (i_traffic (h_if t' j)).
Proof. intros HE HE' D Ks Kt R0 R1 R U U'. exact (ds_traffic E E' HE HE' s t s' t' D Ks Kt R0 R1 R U U' i j). Qed.
Print Assumptions C102_traffic.

(** ** Files *)
Theorem C102_files E E' k py_int py_float lines lines' irs irs' nrs nrs' drs drs' lrs lrs' :
  env_ok E -> env_ok E' -> says k py_int py_float lines irs nrs drs lrs -> says k py_int py_float lines' irs' nrs' drs' lrs' -> same_rows irs irs' nrs nrs' drs drs' lrs lrs' ->
  usual_file k irs nrs drs lrs ->
  exists s t s' t', load_model_file k py_int py_float lines = Ok s /\ load_model_file k py_int py_float lines' = Ok t /\
    update_simulation E k s = (s', Ok tt) /\ update_simulation E' k t = (t', Ok tt) /\
    (forall l m, In l (m_lsps s) -> In m (m_lsps t) -> lsp_key t m = lsp_key s l -> same_fate (l_path (h_ls s' l)) (l_path (h_ls t' m)) /\ same_amount (l_res (h_ls s' l)) (l_res (h_ls t' m))) /\
    (forall d e, In d (m_dms s) -> In e (m_dms t) -> dmd_key t e = dmd_key s d -> (k = Flex -> no_lsp_for s' d -> one_road s d) -> same_routes s' (d_path (h_dm s' d)) t' (d_path (h_dm t' e))) /\
    ((k = Flex -> forall d, In d (m_dms s) -> no_lsp_for s' d -> one_road s d) -> used_roads s s' ->
     forall i j, In i (m_ifs s) -> In j (m_ifs t) -> if_key t j = if_key s i -> same_traffic (i_traffic (h_if s' i)) (i_traffic (h_if t' j))).
Proof.
  intros HE HE' S S' Sm Uf. destruct (C98_loads_and_simulates _ _ _ _ _ _ _ _ S Uf) as (s & L & R & RO & U). destruct (load_accepts _ _ _ _ _ _ _ _ S') as (t & L').
  exact (files_alike E E' k py_int py_float lines lines' irs irs' nrs nrs' drs drs' lrs lrs' s t HE HE' S S' Sm Uf L L' R RO (U E HE)).
Qed.
Print Assumptions C102_files.

(** ** Scaled costs and traffic *)
Theorem C102_scaled_lsps E E' k z c s t s' t' l : env_ok E -> env_ok E' -> 0 < z -> multiplied z c s t -> NoDup (m_dms s) -> NoDup (m_dms t) -> usual_room k s -> usual_room k t ->
  update_simulation E k s = (s', Ok tt) -> update_simulation E' k t = (t', Ok tt) -> In l (m_lsps s) ->
  times_fate z (l_path (h_ls s' l)) (l_path (h_ls t' l)) /\ times_amount c (l_res (h_ls s' l)) (l_res (h_ls t' l)) /\ times_amount c (l_setup (h_ls s' l)) (l_setup (h_ls t' l)) /\
  (sole_road s l -> same_hops (l_path (h_ls s' l)) (l_path (h_ls t' l))).
Proof. intros HE HE' Hz M N N' R R' U U'. exact (sl_lsps E E' k z c HE HE' s t s' t' Hz M N N' R R' U U' l). Qed.
Print Assumptions C102_scaled_lsps.
Theorem C102_scaled_paths E E' z c s t s' t' d : env_ok E -> env_ok E' -> 0 < z -> multiplied z c s t -> (forall n, shortcut_node s n <-> shortcut_node t n) ->
  keys_unique s -> keys_unique t -> refs_ok s -> refs_ok t -> usual_room Flex s -> usual_room Flex t ->
  update_simulation E Flex s = (s', Ok tt) -> update_simulation E' Flex t = (t', Ok tt) -> In d (m_dms s) -> (no_lsp_for s' d -> one_road s d) ->
  same_paths (d_path (h_dm s' d)) (d_path (h_dm t' d)).
Proof. intros HE HE' Hz M SN Ks Kt R0 R1 R R' U U'. exact (sx_paths E E' z c HE HE' s t s' t' Hz M Ks Kt R0 R1 R R' SN U U' d). Qed.
Print Assumptions C102_scaled_paths.
(** the traffic stays when only the costs are multiplied *)
Theorem C102_scaled_costs E E' z c s t s' t' i : env_ok E -> env_ok E' -> 0 < z -> multiplied z c s t -> (forall n, shortcut_node s n <-> shortcut_node t n) ->
  keys_unique s -> keys_unique t -> refs_ok s -> refs_ok t -> usual_room Flex s -> usual_room Flex t ->
  update_simulation E Flex s = (s', Ok tt) -> update_simulation E' Flex t = (t', Ok tt) -> (c == 1)%Q -> In i (m_ifs s) ->
  (forall d, In d (m_dms s) -> no_lsp_for s' d -> one_road s d) -> used_roads s s' ->
  same_traffic (i_traffic (h_if s' i)) (i_traffic (h_if t' i)).
Proof. intros HE HE' Hz M SN Ks Kt R0 R1 R R' U U'. exact (sx_traffic E E' z c HE HE' s t s' t' Hz M Ks Kt R0 R1 R R' SN U U' i). Qed.
Print Assumptions C102_scaled_costs.

(** ** Past failures *)
Theorem C102_past_succeeds E k s l : env_ok E -> usual_room k s -> always_room s -> wf_net k s -> srlg_sound k s -> consistent k s -> (forall o, In o l -> outage_op s o) ->
  usual_room k (run_ops E k l s) /\
  ((exists s', update_simulation E k s = (s', Ok tt)) <-> exists t', update_simulation E k (run_ops E k l s) = (t', Ok tt)).
Proof. intros HE R A W S C H. split; [exact (past_usual E k s HE R A W S C l H)|exact (past_succeeds E k s HE R A W S C l H)]. Qed.
Print Assumptions C102_past_succeeds.
Theorem C102_past_lsps E E1 E2 k s l1 l2 t1 t2 l : env_ok E -> env_ok E1 -> env_ok E2 -> usual_room k s -> always_room s -> wf_net k s -> srlg_sound k s -> consistent k s ->
  (forall o, In o l1 -> outage_op s o) -> (forall o, In o l2 -> outage_op s o) ->
  (forall i, In i (m_ifs s) -> i_failed (h_if (run_ops E k l2 s) i) = i_failed (h_if (run_ops E k l1 s) i)) ->
  update_simulation E1 k (run_ops E k l1 s) = (t1, Ok tt) -> update_simulation E2 k (run_ops E k l2 s) = (t2, Ok tt) -> In l (m_lsps s) ->
  same_fate (l_path (h_ls t1 l)) (l_path (h_ls t2 l)) /\ same_amount (l_res (h_ls t1 l)) (l_res (h_ls t2 l)) /\ same_amount (l_setup (h_ls t1 l)) (l_setup (h_ls t2 l)) /\
  (sole_road (run_ops E k l1 s) l -> same_way (l_path (h_ls t1 l)) (l_path (h_ls t2 l))).
Proof. intros HE H1 H2 R A W S C O1 O2 F U1 U2. exact (past_lsps E k s l1 l2 HE R A W S C O1 O2 F E1 E2 t1 t2 H1 H2 U1 U2 l). Qed.
Print Assumptions C102_past_lsps.
Theorem C102_past E E1 E2 s l1 l2 t1 t2 : env_ok E -> env_ok E1 -> env_ok E2 -> usual_room Flex s -> always_room s -> wf_net Flex s -> srlg_sound Flex s -> consistent Flex s ->
  (forall o, In o l1 -> outage_op s o) -> (forall o, In o l2 -> outage_op s o) ->
  (forall i, In i (m_ifs s) -> i_failed (h_if (run_ops E Flex l2 s) i) = i_failed (h_if (run_ops E Flex l1 s) i)) ->
  update_simulation E1 Flex (run_ops E Flex l1 s) = (t1, Ok tt) -> update_simulation E2 Flex (run_ops E Flex l2 s) = (t2, Ok tt) ->
  (forall d, In d (m_dms s) -> (no_lsp_for t1 d -> one_road (run_ops E Flex l1 s) d) -> same_paths (d_path (h_dm t1 d)) (d_path (h_dm t2 d))) /\
  ((forall d, In d (m_dms s) -> no_lsp_for t1 d -> one_road (run_ops E Flex l1 s) d) -> used_roads (run_ops E Flex l1 s) t1 ->
   forall i, In i (m_ifs s) -> same_traffic (i_traffic (h_if t1 i)) (i_traffic (h_if t2 i))).
Proof.
  intros HE H1 H2 R A W S C O1 O2 F U1 U2. split; [exact (ph_paths E s l1 l2 HE R A W S C O1 O2 F E1 E2 t1 t2 H1 H2 U1 U2)|].
  intros One So i Hi. exact (ph_traffic E s l1 l2 HE R A W S C O1 O2 F E1 E2 t1 t2 H1 H2 U1 U2 i Hi One So).
Qed.
Print Assumptions C102_past.

(** ** Examples *)
(** The ring of C89 with IGP shortcuts at A: the demand from A to D takes an LSP for a
    part of its way; [g1m] holds the same data in another order. *)
Definition ntexts_ok (s : st) : bool :=
  let N := map (nd_name s) (m_nds s) in
  forallb (fun a => forallb (fun b => forallb (fun a' => forallb (fun b' =>
    (negb (String.eqb (ends_text a b) (ends_text a' b')) || (String.eqb a a' && String.eqb b b'))%bool) (map (lsp_to s) (m_lsps s))) (map (lsp_from s) (m_lsps s))) N) N.
Lemma ntexts_by s : ntexts_ok s = true -> node_texts s.
Proof.
  intros H a b a' b' Ha Hb Ha' Hb' X. unfold ntexts_ok in H. rewrite forallb_forall in H. specialize (H a Ha). rewrite forallb_forall in H. specialize (H b Hb). rewrite forallb_forall in H.
  specialize (H a' Ha'). rewrite forallb_forall in H. specialize (H b' Hb'). rewrite X, String.eqb_refl in H. simpl in H. apply andb_prop in H as [A B]. now apply String.eqb_eq in A, B.
Qed.
Ltac tenths_more := first [tenths_vm|exists 0; vm_compute; reflexivity|exists 10; vm_compute; reflexivity|exists 20; vm_compute; reflexivity|exists 200; vm_compute; reflexivity].
Ltac usual_short := apply Build_lsps_usual;
  [once_tac|once_tac|intros d H; vm_compute in H; in_tac; vm_compute; discriminate
  |intros l c H Hc; vm_compute in H; in_tac; vm_compute in Hc; first [discriminate Hc|injection Hc as <-; vm_compute; discriminate]
  |intros l H; vm_compute in H; in_tac; tenths_more
  |intros i H; vm_compute in H; in_tac; (split; [tenths_more|split; [|split]; vm_compute; discriminate])
  |intros l c H Hc; vm_compute in H; in_tac; vm_compute in Hc; first [discriminate Hc|injection Hc as <-; reflexivity]
  |intros _ _; apply ntexts_by; vm_compute; reflexivity].
Ltac short_tac := constructor; [posed_vm|known_tac|cids_tac|usual_short|intros i H F R; vm_compute in H; in_tac; vm_compute; discriminate|agree_tac].
Ltac sole_short := match goal with |- forall l : nat, In l (m_lsps ?s) -> _ =>
  let X := fresh in assert (X : sole_roads s) by (apply sole_by; [once_tac|intros i H; vm_compute in H; in_tac; vm_compute; discriminate|vm_compute; reflexivity]); intros l Hl p q; exact (X l p q Hl) end.
Ltac one_short := intros d H _; apply one_by; [once_tac|intros i Hi; vm_compute in Hi; in_tac; vm_compute; discriminate|vm_compute in H; in_tac; vm_compute; reflexivity].
Definition g1 : st := ring true.
Definition g1m : st := net [nd "C"; nd "D"; nd_sc "A"; nd "B"]
  [itf "dc" 1 100 1 0 4; itf "bc" 1 100 3 0 2; itf "ab" 1 100 2 3 1; itf "ca" 3 100 0 2 3; itf "ba" 1 100 3 2 1; itf "cb" 1 100 0 3 2; itf "ac" 3 100 2 0 3; itf "cd" 1 100 0 1 4]
  [dmd 3 1 4 "d3"; dmd 2 0 10 "d0"; dmd 1 2 3 "d2"; dmd 2 1 5 "d1"]
  [mkLsp 1 2 "l2" PInit RInit RInit None (Some 7) None; lsp_ 2 0 "l0"; mkLsp 2 0 "l1" PInit RInit RInit (Some 5%Q) None None] [].
Definition g2 : st := fst (update_simulation E0 Flex g1).
Lemma g1_run : update_simulation E0 Flex g1 = (g2, Ok tt). Proof. unfold g2. apply run_split. vm_compute. reflexivity. Qed.
Definition g2m : st := fst (update_simulation PropertiesSame.E1 Flex g1m).
Lemma g1m_run : update_simulation PropertiesSame.E1 Flex g1m = (g2m, Ok tt). Proof. unfold g2m. apply run_split. vm_compute. reflexivity. Qed.
Lemma g1_keys : keys_unique g1 /\ refs_ok g1 /\ node_texts g1. Proof. split; [net_tac|]. split; [refs_tac|apply ntexts_by; vm_compute; reflexivity]. Qed.
Lemma g1_room : usual_room Flex g1. Proof. short_tac. Qed.
Lemma g1_sole : forall l, In l (m_lsps g1) -> sole_road g1 l. Proof. sole_short. Qed.
Lemma g1_used : used_roads g1 g2.
Proof. destruct g1_keys as (A & B & C). exact (all_used E0 E0_ok g1 g2 g1_room g1_run A B C g1_sole). Qed.
Lemma g1_one : forall d, In d (m_dms g1) -> no_lsp_for g2 d -> one_road g1 d. Proof. one_short. Qed.
Example C102_example : same_data Flex g1 g1m /\ keys_unique g1 /\ keys_unique g1m /\ refs_ok g1 /\ refs_ok g1m /\ usual_room Flex g1 /\
  update_simulation E0 Flex g1 = (g2, Ok tt) /\ update_simulation PropertiesSame.E1 Flex g1m = (g2m, Ok tt) /\ (forall d, In d (m_dms g1) -> no_lsp_for g2 d -> one_road g1 d) /\ used_roads g1 g2 /\
  d_path (h_dm g2 1) = DPaths [[ILsp 0; IIf 6]; [ILsp 1; IIf 6]]%nat /\ d_path (h_dm g2m 3) = DPaths [[ILsp 1; IIf 7]; [ILsp 2; IIf 7]]%nat.
Proof.
  destruct g1_keys as (A & B & _). split; [constructor; has_tac|]. split; [exact A|]. split; [net_tac|]. split; [exact B|]. split; [refs_tac|]. split; [exact g1_room|].
  split; [exact g1_run|]. split; [exact g1m_run|]. split; [exact g1_one|]. split; [exact g1_used|]. split; vm_compute; reflexivity.
Qed.

(** three times the costs and metrics, twice the traffic *)
Definition g1x (b : bool) : st := let c := (if b then 2 else 1)%Q in
  net [nd_sc "A"; nd "B"; nd "C"; nd "D"]
  [itf "ab" 3 100 0 1 1; itf "ba" 3 100 1 0 1; itf "bc" 3 100 1 2 2; itf "cb" 3 100 2 1 2; itf "ac" 9 100 0 2 3; itf "ca" 9 100 2 0 3; itf "cd" 3 100 2 3 4; itf "dc" 3 100 3 2 4]
  [dmd 0 2 (c * 10) "d0"; dmd 0 3 (c * 5) "d1"; dmd 3 0 (c * 3) "d2"; dmd 1 3 (c * 4) "d3"]
  [lsp_ 0 2 "l0"; mkLsp 0 2 "l1" PInit RInit RInit (Some (c * 5)%Q) None None; mkLsp 3 0 "l2" PInit RInit RInit None None (Some 21)] [].
Definition g2x (b : bool) : st := fst (update_simulation E0 Flex (g1x b)).
Lemma g1x_run b : update_simulation E0 Flex (g1x b) = (g2x b, Ok tt). Proof. unfold g2x. apply run_split. destruct b; vm_compute; reflexivity. Qed.
Ltac times_tac := 
  constructor; [intros i; vm_compute; tauto|intros i; vm_compute; tauto|intros i; vm_compute; tauto|intros i H; vm_compute in H; in_tac; (split; [vmr|]; split; [vmr|]; split; [vmr|]; split; vmr)
  |intros i H; vm_compute in H; in_tac; (split; [vmr|]; split; vmr)|intros i H; vm_compute in H; in_tac; (split; [vmr|]; split; [vmr|]; split; vm_compute; try reflexivity; auto)].
Ltac snode_tac := let n := fresh "n" in intros n; split; intros (x & Hx & Nx & Sx); vm_compute in Hx; in_tac; vm_compute in Sx; try discriminate Sx; exists 0%nat; (split; [vm_compute; auto|split; vm_compute; reflexivity]).
Example C102_scaled_example (b : bool) : let c := (if b then 2 else 1)%Q in multiplied 3 c g1 (g1x b) /\ (forall n, shortcut_node g1 n <-> shortcut_node (g1x b) n) /\ keys_unique g1 /\ keys_unique (g1x b) /\ refs_ok g1 /\ refs_ok (g1x b) /\
  usual_room Flex g1 /\ usual_room Flex (g1x b) /\ update_simulation E0 Flex g1 = (g2, Ok tt) /\ update_simulation E0 Flex (g1x b) = (g2x b, Ok tt) /\
  (forall d, In d (m_dms g1) -> no_lsp_for g2 d -> one_road g1 d) /\ used_roads g1 g2 /\ d_path (h_dm (g2x b) 1) = DPaths [[ILsp 0; IIf 6]; [ILsp 1; IIf 6]]%nat.
Proof.
  destruct g1_keys as (A & B & _). split; [destruct b; times_tac|]. split; [destruct b; snode_tac|]. split; [exact A|]. split; [destruct b; net_tac|]. split; [exact B|]. split; [destruct b; refs_tac|]. split; [exact g1_room|].
  split; [destruct b; short_tac|]. split; [exact g1_run|]. split; [apply g1x_run|]. split; [exact g1_one|]. split; [exact g1_used|]. destruct b; vm_compute; reflexivity.
Qed.

(** D and A-C went down and D came back, against A-C alone *)
Lemma g1_wf : wf_net Flex g1 /\ srlg_sound Flex g1 /\ consistent Flex g1.
Proof.
  split; [wf_tac; wlink_tac|]. split;
  [split; [|split]; [intros i H (g & G & _); vm_compute in H; in_tac; vm_compute in G; destruct G
    |intros n H (g & G & _); vm_compute in H; in_tac; vm_compute in G; destruct G
    |intros i j Hi Hj _ g; vm_compute in Hi, Hj; in_tac; vm_compute; tauto]
  |split; [intros i H _; vm_compute in H; in_tac; up_tac|agree_tac]].
Qed.
Definition h1 : st := fst (update_simulation E0 Flex (run_ops E0 Flex m_ops1 g1)).
Definition h2 : st := fst (update_simulation PropertiesSame.E1 Flex (run_ops E0 Flex m_ops2 g1)).
Lemma h1_run : update_simulation E0 Flex (run_ops E0 Flex m_ops1 g1) = (h1, Ok tt). Proof. unfold h1. apply run_split. vm_compute. reflexivity. Qed.
Lemma h2_run : update_simulation PropertiesSame.E1 Flex (run_ops E0 Flex m_ops2 g1) = (h2, Ok tt). Proof. unfold h2. apply run_split. vm_compute. reflexivity. Qed.
Example C102_past_example : usual_room Flex g1 /\ always_room g1 /\ wf_net Flex g1 /\ srlg_sound Flex g1 /\ consistent Flex g1 /\
  (forall o, In o m_ops1 -> outage_op g1 o) /\ (forall o, In o m_ops2 -> outage_op g1 o) /\
  (forall i, In i (m_ifs g1) -> i_failed (h_if (run_ops E0 Flex m_ops2 g1) i) = i_failed (h_if (run_ops E0 Flex m_ops1 g1) i)) /\
  update_simulation E0 Flex (run_ops E0 Flex m_ops1 g1) = (h1, Ok tt) /\ update_simulation PropertiesSame.E1 Flex (run_ops E0 Flex m_ops2 g1) = (h2, Ok tt) /\
  (forall d, In d (m_dms g1) -> no_lsp_for h1 d -> one_road (run_ops E0 Flex m_ops1 g1) d) /\
  d_path (h_dm h1 1) = DPaths [[ILsp 0; IIf 6]; [ILsp 1; IIf 6]]%nat /\ i_failed (h_if h1 4) = true.
Proof.
  split; [exact g1_room|]. split; [intros i H R; vm_compute in H; in_tac; vm_compute; discriminate|]. destruct g1_wf as (A & B & C). split; [exact A|]. split; [exact B|]. split; [exact C|].
  split; [intros o H; simpl in H; in_tac; exact I|]. split; [intros o H; simpl in H; in_tac; exact I|]. split; [intros i H; vm_compute in H; in_tac; vmr|].
  split; [exact h1_run|]. split; [exact h2_run|]. split; [one_short|]. split; vmr.
Qed.

(** The ring of C97 with IGP shortcuts at A, in two files that say the same *)
Definition short_file : list string :=
  ["INTERFACES_TABLE"; "header";
   link Flex "A" "B" "ab" "1" "100" "1" []; link Flex "B" "A" "ba" "1" "100" "1" []; link Flex "B" "C" "bc" "1" "100" "2" ["True"; "60"]; link Flex "C" "B" "cb" "2" "100" "2" ["T"; "80"];
   link Flex "A" "C" "ac" "3" "70" "3" ["no"]; link Flex "C" "A" "ca" "3" "70" "3" ["F"; "10"]; link Flex "C" "D" "cd" "1" "100" "4" []; link Flex "D" "C" "dc" "1" "100" "4" [];
   ""; "NODES_TABLE"; "header"; cols ["A"; "10"; "20"; "True"]; cols ["E"; "1"; "2"; "False"];
   ""; "DEMANDS_TABLE"; "header"; cols ["A"; "C"; "20"; "d0"]; cols ["A"; "D"; "5"; ""]; cols ["D"; "A"; "3"; "d2"]; cols ["B"; "D"; "4"; "d3"];
   ""; "RSVP_LSP_TABLE"; "header"; cols ["A"; "C"; "l0"]; cols ["A"; "C"; "l1"; "5"]; cols ["D"; "A"; "l2"; "-"; "7"]; cols ["A"; "E"; "l3"; "1"; "0"]].
Definition short_file' : list string :=
  ["DEMANDS_TABLE"; "header"; cols ["D"; "A"; "3"; "d2"]; cols ["A"; "D"; "5"; ""]; cols ["D"; "A"; "9"; "d2"]; cols ["A"; "C"; "20"; "d0"]; cols ["B"; "D"; "4"; "d3"]; cols ["A"; "D"; "6"; "none"];
   ""; "INTERFACES_TABLE"; "header";
   link Flex "C" "D" "cd" "1" "100" "4" []; link Flex "A" "B" "ab" "1" "100" "1" []; link Flex "B" "C" "bc" "1" "100" "2" ["True"; "60"]; link Flex "C" "A" "ca" "3" "70" "3" ["F"; "10"];
   link Flex "D" "C" "dc" "1" "100" "4" ["True"; "100"]; link Flex "B" "A" "ba" "1" "100" "1" []; link Flex "C" "B" "cb" "2" "100" "2" ["T"; "80"]; link Flex "A" "C" "ac" "3" "70" "3" ["no"];
   ""; "NODES_TABLE"; "header"; cols ["E"; "8"; "9"; "True"]; cols ["E"; "1"; "2"; "False"]; cols ["A"; "10"; "20"; "True"];
   ""; "RSVP_LSP_TABLE"; "header"; cols ["A"; "E"; "l3"; "1"; "0"]; cols ["D"; "A"; "l2"; "-"; "7"]; cols ["A"; "C"; "l0"]; cols ["A"; "C"; "l0"; "90"]; cols ["A"; "C"; "l1"; "5"]].
Definition short_nrs : list nd_row := [mkNdRow "A" 10 20 true; mkNdRow "E" 1 2 false].
Definition short_nrs' : list nd_row := [mkNdRow "E" 8 9 true; mkNdRow "E" 1 2 false; mkNdRow "A" 10 20 true].
Lemma mentioned_texts irs nrs lrs :
  (let N := (flat_map (fun r => [ir_node r; ir_remote r]) irs ++ map nr_name nrs)%list in
   forallb (fun a => forallb (fun b => forallb (fun a' => forallb (fun b' =>
    (negb (String.eqb (ends_text a b) (ends_text a' b')) || (String.eqb a a' && String.eqb b b'))%bool) (map lr_dst lrs)) (map lr_src lrs)) N) N) = true ->
  forall a b a' b', mentioned irs nrs a -> mentioned irs nrs b -> In a' (map lr_src lrs) -> In b' (map lr_dst lrs) -> ends_text a b = ends_text a' b' -> a = a' /\ b = b'.
Proof.
  intros H a b a' b' Ha Hb Ha' Hb' X. apply mentioned_list in Ha, Hb. cbv zeta in H. rewrite forallb_forall in H. specialize (H a Ha). rewrite forallb_forall in H. specialize (H b Hb). rewrite forallb_forall in H.
  specialize (H a' Ha'). rewrite forallb_forall in H. specialize (H b' Hb'). rewrite X, String.eqb_refl in H. simpl in H. apply andb_prop in H as [A B]. now apply String.eqb_eq in A, B.
Qed.
Definition k1 : st := loaded (load_model_file Flex dec_int dec_float short_file).
Definition k2 : st := fst (update_simulation E0 Flex k1).
Example C102_files_example : says Flex dec_int dec_float short_file (ring_irs Flex) short_nrs ring_drs ring_lrs /\ says Flex dec_int dec_float short_file' (ring_irs' Flex) short_nrs' ring_drs' ring_lrs' /\ same_rows (ring_irs Flex) (ring_irs' Flex) short_nrs short_nrs' ring_drs ring_drs' ring_lrs ring_lrs' /\ usual_file Flex (ring_irs Flex) short_nrs ring_drs ring_lrs /\ (forall d, In d (m_dms k1) -> no_lsp_for k2 d -> one_road k1 d) /\ map (fun d => (dmd_key k2 d, match d_path (h_dm k2 d) with DPaths ps => map (map (hop_of k2)) ps | DUnrouted => [] end)) [nth 1 (m_dms k2) 0%nat] =
    [("A", "D", "none", [[HopLsp ("A", "C", "l0"); HopIf ("cd", "C")]; [HopLsp ("A", "C", "l1"); HopIf ("cd", "C")]])].
Proof.
  split; [says_tac|]. split; [says_tac|]. split.
  { destruct (ring_same Flex) as [A _ _ C D]. constructor; [exact A| | |exact C|exact D]; intros r; [rewrite !last_first, <- !(firsts_In nr_name String.eqb str_iff); perm_in|rewrite !mentioned_list; perm_in]. }
  split.
  { destruct (ring_usual Flex) as [A1 A2 A3 A4 A5 A6 A7 A8 A9 A10 A11 A12 A13 _ _]. constructor; try assumption; [discriminate|]. intros _. apply mentioned_texts. vm_compute. reflexivity. }
  split; [one_short|]. vm_compute. reflexivity.
Qed.

(** ** Conditions that are needed *)
(** Least-cost ways over different nodes: the order of the data decides which LSPs are
    taken. *)
Lemma backwards_data k s : same_data k s (backwards s).
Proof.
  destruct (same_data_refl k s) as [[A1 A2] [B1 B2] [C1 C2] [D1 D2]]. constructor; (split; intros x Hx; [|simpl in Hx; apply in_rev in Hx]).
  - destruct (A1 x Hx) as (y & Hy & X). exists y. split; [exact (proj1 (in_rev _ y) Hy)|exact X].
  - exact (A2 x Hx).
  - destruct (B1 x Hx) as (y & Hy & X). exists y. split; [exact (proj1 (in_rev _ y) Hy)|exact X].
  - exact (B2 x Hx).
  - destruct (C1 x Hx) as (y & Hy & X). exists y. split; [exact (proj1 (in_rev _ y) Hy)|exact X].
  - exact (C2 x Hx).
  - destruct (D1 x Hx) as (y & Hy & X). exists y. split; [exact (proj1 (in_rev _ y) Hy)|exact X].
  - exact (D2 x Hx).
Qed.
Theorem C102_two_roads_refuted :
  ~ (forall E E' s t s' t' d e, env_ok E -> env_ok E' -> same_data Flex s t -> keys_unique s -> keys_unique t -> refs_ok s -> refs_ok t -> usual_room Flex s ->
       update_simulation E Flex s = (s', Ok tt) -> update_simulation E' Flex t = (t', Ok tt) -> In d (m_dms s) -> In e (m_dms t) -> dmd_key t e = dmd_key s d ->
       same_routes s' (d_path (h_dm s' d)) t' (d_path (h_dm t' e))).
Proof.
  intros H. specialize (H E0 E0 two1 (backwards two1) two2 two3 0%nat 0%nat E0_ok E0_ok).
  assert (KU : keys_unique two1) by (clear; net_tac). assert (KU' : keys_unique (backwards two1)) by (clear; net_tac).
  assert (RF : refs_ok two1) by (clear; refs_tac). assert (RF' : refs_ok (backwards two1)) by (clear; refs_tac). assert (R : usual_room Flex two1) by (clear; short_tac).
  specialize (H (backwards_data Flex two1) KU KU' RF RF' R two1_run two3_run (or_introl eq_refl) (or_introl eq_refl) eq_refl). clear -H.
  assert (X : d_path (h_dm two2 0) = DPaths [[IIf 0; IIf 2; IIf 4]; [IIf 6; ILsp 1]]%nat) by (vm_compute; reflexivity).
  assert (Y : d_path (h_dm two3 0) = DPaths [[IIf 6; IIf 8; IIf 10]; [IIf 0; ILsp 0]]%nat) by (vm_compute; reflexivity).
  rewrite X, Y in H. clear X Y. destruct (H [HopIf ("ab", "A"); HopIf ("bc", "B"); HopIf ("cz", "C")]) as [Z _]. clear H. vm_compute in Z. destruct (Z (or_introl eq_refl)) as [W|[W|[]]]; discriminate W.
Qed.
Print Assumptions C102_two_roads_refuted.
(** With IGP shortcuts twice the traffic need not give twice the load: what an LSP
    takes of a demand without LSP of its own is rounded to one decimal. *)
Definition v1 (q : Q) : st := net [nd_sc "A"; nd "B"; nd "C"]
  [itf "ab" 1 100 0 1 1; itf "ba" 1 100 1 0 1; itf "bc" 1 100 1 2 2; itf "cb" 1 100 2 1 2] [dmd 0 2 (q * (1 # 4)) "d"]
  [mkLsp 0 1 "l" PInit RInit RInit (Some q) None None] [].
Definition v2 (q : Q) : st := fst (update_simulation E0 Flex (v1 q)).
Lemma v1_run : update_simulation E0 Flex (v1 1) = (v2 1, Ok tt). Proof. unfold v2. apply run_split. vm_compute. reflexivity. Qed.
Lemma v1_run' : update_simulation E0 Flex (v1 2) = (v2 2, Ok tt). Proof. unfold v2. apply run_split. vm_compute. reflexivity. Qed.
Theorem C102_scaled_traffic_refuted :
  ~ (forall E E' z c s t s' t' i, env_ok E -> env_ok E' -> 0 < z -> multiplied z c s t -> (forall n, shortcut_node s n <-> shortcut_node t n) ->
       keys_unique s -> keys_unique t -> refs_ok s -> refs_ok t -> usual_room Flex s -> usual_room Flex t ->
       update_simulation E Flex s = (s', Ok tt) -> update_simulation E' Flex t = (t', Ok tt) -> In i (m_ifs s) ->
       (forall d, In d (m_dms s) -> no_lsp_for s' d -> one_road s d) -> used_roads s s' ->
       if i_failed (h_if s i) then i_traffic (h_if s' i) = TDown /\ i_traffic (h_if t' i) = TDown
       else exists q r, i_traffic (h_if s' i) = TNum q /\ i_traffic (h_if t' i) = TNum r /\ (r == c * q)%Q).
Proof.
  intros H. specialize (H E0 E0 1 2%Q (v1 1) (v1 2) (v2 1) (v2 2) 0%nat E0_ok E0_ok eq_refl).
  assert (M : multiplied 1 2 (v1 1) (v1 2)) by (clear; times_tac). assert (SN : forall n, shortcut_node (v1 1) n <-> shortcut_node (v1 2) n) by (clear; snode_tac).
  assert (K1 : keys_unique (v1 1)) by (clear; net_tac). assert (K2 : keys_unique (v1 2)) by (clear; net_tac). assert (F1 : refs_ok (v1 1)) by (clear; refs_tac). assert (F2 : refs_ok (v1 2)) by (clear; refs_tac).
  assert (R1 : usual_room Flex (v1 1)) by (clear; short_tac). assert (R2 : usual_room Flex (v1 2)) by (clear; short_tac).
  assert (One : forall d, In d (m_dms (v1 1)) -> no_lsp_for (v2 1) d -> one_road (v1 1) d) by (clear; one_short).
  assert (So : forall l, In l (m_lsps (v1 1)) -> sole_road (v1 1) l) by (clear; sole_short).
  assert (Us : used_roads (v1 1) (v2 1)). { clear H. apply (all_used E0 E0_ok _ _ R1 v1_run K1 F1); [apply ntexts_by; vm_compute; reflexivity|exact So]. }
  specialize (H M SN K1 K2 F1 F2 R1 R2 v1_run v1_run' (or_introl eq_refl) One Us). clear -H. vm_compute in H. destruct H as (q & r & X & Y & Z). injection X as <-. injection Y as <-. discriminate Z.
Qed.
Print Assumptions C102_scaled_traffic_refuted.
