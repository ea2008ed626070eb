(** PropertiesValidate.v - theorems about validate_model and circuits. *)
From Verif Require Import Base Graph Objects Sim Api Build Spec SpecHist SpecCkt Nets
  GraphProofs ApiProofs ValidateProofs.

Lemma flex2_nodup : NoDup (m_ifs flex2). Proof. vm_compute. nodup_tac. Qed.
Lemma perf2_nodup : NoDup (m_ifs perf2). Proof. vm_compute. nodup_tac. Qed.
Lemma flex2_sane : lsps_sane flex2.
Proof. intros l H. vm_compute in H. in_tac; vm_compute; split; eauto; intros j Hj; in_tac; subst; auto 10. Qed.
Lemma perf2_sane : lsps_sane perf2.
Proof. intros l H. vm_compute in H. in_tac; vm_compute; split; eauto; intros j Hj; in_tac; subst; auto 10. Qed.
Lemma flex2_cids : cids_set Flex flex2.
Proof. intros _ i H. vm_compute in H. in_tac; vm_compute; discriminate. Qed.
Lemma perf2_cids : cids_set Perf perf2.
Proof. unfold cids_set. intros H. discriminate H. Qed.
Lemma some_rounding : exists rd : Q -> Q, forall x, rounds 10 x (rd x).
Proof. exists round1. exact round1_ok. Qed.

(** ** C22 What validate_model accepts *)
Theorem C22_verdict E k s s' r rd : env_ok E -> NoDup (m_ifs s) -> lsps_sane s -> (forall x, rounds 10 x (rd x)) ->
  validate_model E k s = (s', r) ->
  (pairs_up k s -> exists errs, NoDup errs /\ (forall v, In v errs <-> check_fails rd k s (m_ckts s') v) /\
     (errs = [] -> r = Ok tt) /\ (errs <> [] -> r = Err (ValidationException errs))) /\
  (~ pairs_up k s -> exists e, r = Err e /\ is_model_exn e = true).
Proof. exact (validate_verdict E k s s' r rd). Qed.
Print Assumptions C22_verdict.

Theorem C22_accepts_exactly E k s s' r rd : env_ok E -> NoDup (m_ifs s) -> lsps_sane s -> cids_set k s ->
  (forall x, rounds 10 x (rd x)) -> validate_model E k s = (s', r) ->
  (r = Ok tt <->
   pairs_up k s /\
   (forall i, In i (m_ifs s) -> (rd (i_res (h_if s i)) <= i_cap (h_if s i))%Q /\
      (rd (i_res (h_if s i)) == rd (lsp_total rd s i (m_lsps s)))%Q) /\
   (forall i j, In i (m_ifs s) -> In j (m_ifs s) -> available s i -> is_reverse k s i j ->
      (i_cap (h_if s i) == i_cap (h_if s j))%Q) /\
   NoDup (map (nd_name s) (m_nds s)) /\
   (k = Perf -> NoDup (map (fun i => ends_text (loc s i) (rem s i)) (m_ifs s)) /\
      forall n, In n (m_nds s) -> n_shortcuts (h_nd s n) = false)).
Proof. exact (validate_accepts_exactly E k s s' r rd). Qed.
Print Assumptions C22_accepts_exactly.

(** simulated models with reservations of routed LSPs are accepted *)
Example C22_example_flex : NoDup (m_ifs flex2) /\ lsps_sane flex2 /\ cids_set Flex flex2 /\
  snd (validate_model E0 Flex flex2) = Ok tt /\ (i_res (h_if flex2 1) == 6)%Q.
Proof. split; [exact flex2_nodup|]. split; [exact flex2_sane|]. split; [exact flex2_cids|]. vm_compute. split; reflexivity. Qed.
Example C22_example_perf : NoDup (m_ifs perf2) /\ lsps_sane perf2 /\
  snd (validate_model E0 Perf perf2) = Ok tt /\ (i_res (h_if perf2 1) == 6)%Q.
Proof. split; [exact perf2_nodup|]. split; [exact perf2_sane|]. vm_compute. split; reflexivity. Qed.
(** a model that fails every check that can fail *)
Definition bad1 : st := net [nd_sc "A"; nd "B"; nd "B"]
  [if_res 20 (itf "ab" 1 10 0 1 1); itf "ba" 1 50 1 0 1; itf "ab2" 1 10 0 1 2; itf "ba2" 1 10 1 0 2] [] [] [].
Example C22_example_bad : snd (validate_model E0 Perf bad1) =
  Err (ValidationException [VResTooHigh; VResSum; VShortcuts; VCapacity; VParallel; VDupNodes]).
Proof. vm_compute. reflexivity. Qed.
(** one interface without a partner *)
Definition lone1 : st := net [nd "A"; nd "B"] [itf "ab" 1 10 0 1 1] [] [] [].
Example C22_example_lone : exists m, snd (validate_model E0 Flex lone1) = Err (ModelException m).
Proof. vm_compute. eauto. Qed.

(** ** C23 Duplicate interface names on a node are not rejected *)
Theorem C23_duplicates_rejected_refuted :
  ~ (forall E k s, env_ok E -> snd (validate_model E k s) = Ok tt -> NoDup (map (if_key s) (m_ifs s))).
Proof.
  intros H. specialize (H E0 Flex (net [nd "A"; nd "B"]
    [itf "x" 1 10 0 1 1; itf "y" 1 10 1 0 1; itf "x" 1 10 0 1 2; itf "z" 1 10 1 0 2] [] [] []) E0_ok).
  vm_compute in H. specialize (H eq_refl). inversion H as [|? ? N _]. apply N. simpl. auto.
Qed.
Print Assumptions C23_duplicates_rejected_refuted.

(** Renaming the interfaces in any way never changes the verdict. *)
Theorem C23_names_irrelevant E k s f : env_ok E -> NoDup (m_ifs s) -> cids_set k s ->
  (forall l, In l (m_lsps s) -> l_path (h_ls s l) = PUnrouted \/ l_path (h_ls s l) = PInit) ->
  (snd (validate_model E k (rename_ifs f s)) = Ok tt <-> snd (validate_model E k s) = Ok tt).
Proof. exact (rename_accepts E k s f). Qed.
Print Assumptions C23_names_irrelevant.
Example C23_example : NoDup (m_ifs flex1) /\ cids_set Flex flex1 /\
  (forall l, In l (m_lsps flex1) -> l_path (h_ls flex1 l) = PUnrouted \/ l_path (h_ls flex1 l) = PInit) /\
  snd (validate_model E0 Flex (rename_ifs (fun _ => "x") flex1)) = Ok tt.
Proof.
  split; [vm_compute; nodup_tac|]. split; [intros _ i H; vm_compute in H; in_tac; vm_compute; discriminate|].
  split; [intros l H; vm_compute in H; in_tac; vm_compute; auto|]. vm_compute. reflexivity.
Qed.

(** ** C24 Circuits pair every interface with its reverse *)
Theorem C24_circuits E s s' : env_ok E -> NoDup (m_ifs s) -> cids_set Flex s -> validate_model E Flex s = (s', Ok tt) ->
  NoDup (m_ckts s') /\
  (forall a b, In (a, b) (m_ckts s') -> In a (m_ifs s') /\ In b (m_ifs s') /\ loc s' a = rem s' b /\ rem s' a = loc s' b /\
     i_cid (h_if s' a) = i_cid (h_if s' b)) /\
  (forall c c' x, In c (m_ckts s') -> In c' (m_ckts s') -> end_of c x -> end_of c' x -> c = c') /\
  (forall i, In i (m_ifs s') -> ((exists c, In c (m_ckts s') /\ end_of c i) <->
     available s i \/ exists j, In j (m_ifs s) /\ available s j /\ is_reverse Flex s i j)) /\
  (forall i, i_cid (h_if s' i) = i_cid (h_if s i)) /\
  (forall i, In i (m_ifs s') -> (i_inckt (h_if s' i) = true <-> exists c, In c (m_ckts s') /\ end_of c i)).
Proof. exact (circuits_flex E s s'). Qed.
Print Assumptions C24_circuits.
Example C24_example : exists s', validate_model E0 Flex flex2 = (s', Ok tt) /\
  m_ckts s' = [(0, 1); (2, 3); (4, 5); (6, 7)]%nat.
Proof. exists (fst (validate_model E0 Flex flex2)). split; [apply run_split|]; vm_compute; reflexivity. Qed.

(** an interface with rsvp_enabled=False can be in a circuit *)
Definition half_rsvp : st := net [nd "A"; nd "B"]
  [itf "ab1" 1 10 0 1 1; mkIface "ba1" 1 10 1 0 (CInt 1) (TNum 0) false 0 [] false 100 false; itf "ab2" 1 10 0 1 2; itf "ba2" 1 10 1 0 2] [] [] [].
Theorem C24_rsvp_disabled_refuted :
  ~ (forall E s s', env_ok E -> NoDup (m_ifs s) -> cids_set Flex s -> validate_model E Flex s = (s', Ok tt) ->
       forall c i, In c (m_ckts s') -> end_of c i -> i_rsvp (h_if s' i) = true).
Proof.
  intros H. specialize (H E0 half_rsvp (fst (validate_model E0 Flex half_rsvp)) E0_ok).
  assert (X : i_rsvp (h_if (fst (validate_model E0 Flex half_rsvp)) 1) = true).
  { apply (H) with (c := (0, 1)%nat).
    - vm_compute. nodup_tac.
    - intros _ i Hi. vm_compute in Hi. in_tac; vm_compute; discriminate.
    - apply run_split. vm_compute. reflexivity.
    - vm_compute. auto.
    - right. reflexivity. }
  vm_compute in X. discriminate.
Qed.
Print Assumptions C24_rsvp_disabled_refuted.

(** without circuit ids a link can be left out of the circuits *)
Definition no_ids : st := net [nd "A"; nd "B"]
  (map (if_cid CNone) [itf "ab1" 1 10 0 1 1; itf "ba1" 1 10 1 0 1; itf "ab2" 1 10 0 1 2; itf "ba2" 1 10 1 0 2]) [] [] [].
Theorem C24_no_circuit_ids_refuted :
  ~ (forall E s s', env_ok E -> NoDup (m_ifs s) -> validate_model E Flex s = (s', Ok tt) ->
       (forall i, In i (m_ifs s) -> available s i) ->
       forall i, In i (m_ifs s') -> exists c, In c (m_ckts s') /\ end_of c i).
Proof.
  intros H. specialize (H E0 no_ids (fst (validate_model E0 Flex no_ids)) E0_ok).
  assert (X : exists c, In c (m_ckts (fst (validate_model E0 Flex no_ids))) /\ end_of c 2%nat).
  { apply H.
    - vm_compute. nodup_tac.
    - apply run_split. vm_compute. reflexivity.
    - intros i Hi. exists 10%Q. split; [|vm_compute; congruence]. unfold reservable.
      vm_compute in Hi. in_tac; (exists 0%Q; split; [exists 0%Z|exists 100%Z]; vm_compute; repeat split; congruence).
    - vm_compute. auto. }
  destruct X as (c & Hc & He). vm_compute in Hc. in_tac. destruct He as [He|He]; discriminate.
Qed.
Print Assumptions C24_no_circuit_ids_refuted.

(** ** C25 PerformanceModel circuit numbering *)
Theorem C25_circuits E s s' : env_ok E -> NoDup (m_ifs s) -> validate_model E Perf s = (s', Ok tt) ->
  NoDup (m_ckts s') /\
  (forall a b, In (a, b) (m_ckts s') -> In a (m_ifs s') /\ In b (m_ifs s') /\ loc s' a = rem s' b /\ rem s' a = loc s' b) /\
  (forall c c' x, In c (m_ckts s') -> In c' (m_ckts s') -> end_of c x -> end_of c' x -> c = c') /\
  (forall i, In i (m_ifs s') -> ((exists c, In c (m_ckts s') /\ end_of c i) <-> available s i)) /\
  (forall n c x, nth_error (m_ckts s') n = Some c -> end_of c x -> i_cid (h_if s' x) = CInt (Z.of_nat n + 1)) /\
  (forall i, In i (m_ifs s') -> (i_inckt (h_if s' i) = true <-> exists c, In c (m_ckts s') /\ end_of c i)).
Proof. exact (circuits_perf E s s'). Qed.
Print Assumptions C25_circuits.
Example C25_example : exists s', validate_model E0 Perf perf2 = (s', Ok tt) /\
  m_ckts s' = [(0, 1); (2, 3); (4, 5)]%nat /\ map (fun i => i_cid (h_if perf1 i)) [0; 2; 4]%nat = [CInt 1; CInt 3; CInt 4] /\
  map (fun i => i_cid (h_if s' i)) [0; 2; 4]%nat = [CInt 1; CInt 2; CInt 3].
Proof. exists (fst (validate_model E0 Perf perf2)). split; [apply run_split|]; vm_compute; auto. Qed.

(** ** C26 Names containing '-' break grouping and the parallel-link check *)
Theorem C26_groups E s : env_ok E -> m_groups s = [] -> (forall l, In l (m_lsps s) -> dash_free (lsp_from s l)) ->
  exists g, parallel_lsp_groups E s = (set_groups g s, Ok g) /\ NoDup (map fst g) /\
    forall key ls, In (key, ls) g <-> exists a b, key = ends_text a b /\ ls <> [] /\
      ls = filter (fun l => String.eqb (lsp_from s l) a && String.eqb (lsp_to s l) b) (m_lsps s).
Proof. exact (lsp_groups_exact E s). Qed.
Print Assumptions C26_groups.

Theorem C26_parallel_check E s s' r : env_ok E -> NoDup (m_ifs s) -> lsps_sane s -> pairs_up Perf s ->
  (forall i, In i (m_ifs s) -> dash_free (loc s i)) -> validate_model E Perf s = (s', r) ->
  ((exists errs, r = Err (ValidationException errs) /\ In VParallel errs) <->
   exists i j, In i (m_ifs s) /\ In j (m_ifs s) /\ i <> j /\ loc s i = loc s j /\ rem s i = rem s j).
Proof. exact (parallel_exactly E s s' r). Qed.
Print Assumptions C26_parallel_check.
Example C26_example : m_groups flex1 = [] /\ (forall l, In l (m_lsps flex1) -> dash_free (lsp_from flex1 l)) /\
  snd (parallel_lsp_groups E0 flex1) = Ok [("B-A", [0; 1]%nat)] /\
  NoDup (m_ifs perf2) /\ lsps_sane perf2 /\ pairs_up Perf perf2 /\ (forall i, In i (m_ifs perf2) -> dash_free (loc perf2 i)).
Proof.
  split; [reflexivity|]. split; [intros l H; vm_compute in H; in_tac; vm_compute; intuition discriminate|]. split; [vm_compute; reflexivity|].
  split; [exact perf2_nodup|]. split; [exact perf2_sane|].
  split; [|intros i H; vm_compute in H; in_tac; vm_compute; intuition discriminate].
  eapply (validate_ok E0 Perf perf2 (fst (validate_model E0 Perf perf2)) E0_ok perf2_nodup).
  apply run_split. vm_compute. reflexivity.
Qed.

(** Two LSPs a-b -> c and a -> b-c share the group name "a-b-c". *)
Definition dashes : st := net [nd "a-b"; nd "c"; nd "a"; nd "b-c"]
  [itf "x" 1 10 0 1 1; itf "y" 1 10 1 0 1; itf "x" 1 10 2 3 2; itf "y" 1 10 3 2 2]
  [] [lsp_ 0 1 "l0"; lsp_ 2 3 "l1"] [].
Theorem C26_groups_collide_refuted :
  ~ (forall E s l, env_ok E -> keys_unique s -> m_groups s = [] -> In l (m_lsps s) ->
       exists s' g, parallel_lsp_groups E s = (s', Ok g) /\ exists key ls, In (key, ls) g /\ In l ls).
Proof.
  intros H. destruct (H E0 dashes 0%nat E0_ok) as (s' & g & Hg & key & ls & H1 & H2).
  - unfold keys_unique. repeat split; vm_compute; nodup_tac.
  - reflexivity.
  - vm_compute. auto.
  - assert (Hg' : snd (parallel_lsp_groups E0 dashes) = Ok g) by (rewrite Hg; reflexivity).
    vm_compute in Hg'. injection Hg' as <-. simpl in H1. destruct H1 as [H1|[]]. injection H1 as <- <-. simpl in H2. intuition discriminate.
Qed.
Print Assumptions C26_groups_collide_refuted.
(** ... so that the first one is never signalled, although its link is free. *)
Example C26_never_signalled : snd (update_simulation E0 Flex dashes) = Ok tt /\
  l_path (h_ls (fst (update_simulation E0 Flex dashes)) 0) = PUnrouted /\
  l_path (h_ls (fst (update_simulation E0 Flex dashes)) 1) <> PUnrouted.
Proof. vm_compute. repeat split. discriminate. Qed.
Theorem C26_parallel_check_refuted :
  ~ (forall E s, env_ok E -> NoDup (m_ifs s) -> lsps_sane s -> pairs_up Perf s ->
       (exists errs, snd (validate_model E Perf s) = Err (ValidationException errs) /\ In VParallel errs) ->
       exists i j, In i (m_ifs s) /\ In j (m_ifs s) /\ i <> j /\ loc s i = loc s j /\ rem s i = rem s j).
Proof.
  intros H. destruct (H E0 dashes E0_ok) as (i & j & Hi & Hj & N & L & R).
  - vm_compute. nodup_tac.
  - intros l Hl. vm_compute in Hl. in_tac; exact I.
  - apply (made_circuits E0); [exact E0_ok|vm_compute; nodup_tac|]. vm_compute. discriminate.
  - exists [VParallel]. vm_compute. auto.
  - vm_compute in Hi, Hj. in_tac; vm_compute in L, R; congruence.
Qed.
Print Assumptions C26_parallel_check_refuted.

(** ** C56 validate_model takes down both ends of half-failed circuits *)
Theorem C56_half_failed E k s s' : env_ok E -> NoDup (m_ifs s) -> validate_model E k s = (s', Ok tt) ->
  forall x,
    ((exists a b, In (a, b) (m_ckts s') /\ (x = a \/ x = b) /\ i_failed (h_if s a) <> i_failed (h_if s b)) ->
       i_failed (h_if s' x) = true /\ i_res (h_if s' x) = 0%Q) /\
    (~ (exists a b, In (a, b) (m_ckts s') /\ (x = a \/ x = b) /\ i_failed (h_if s a) <> i_failed (h_if s b)) ->
       i_failed (h_if s' x) = i_failed (h_if s x) /\ i_res (h_if s' x) = i_res (h_if s x)).
Proof. exact (validate_effect E k s s'). Qed.
Print Assumptions C56_half_failed.

Theorem C56_afterwards_agree E k s s' : env_ok E -> NoDup (m_ifs s) -> validate_model E k s = (s', Ok tt) ->
  forall a b, In (a, b) (m_ckts s') -> i_failed (h_if s' a) = i_failed (h_if s' b).
Proof. exact (validate_circuits_agree E k s s'). Qed.
Print Assumptions C56_afterwards_agree.
Example C56_example : let s := upd_if 4 (if_failed true) flex2 in
  NoDup (m_ifs s) /\ i_failed (h_if s 5) = false /\ snd (validate_model E0 Flex s) = Ok tt /\
  In (4, 5)%nat (m_ckts (fst (validate_model E0 Flex s))) /\ i_failed (h_if (fst (validate_model E0 Flex s)) 5) = true.
Proof. vm_compute. repeat split; auto. nodup_tac. Qed.
