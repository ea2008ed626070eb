(** PropertiesRoute.v - theorems about where update_simulation routes demands. *)
From Verif Require Import Base Graph Objects Sim Api Build Spec SpecHist SpecCkt SpecSim Nets
  GraphProofs ResProofs RouteProofs IgpProofs.

Ltac texts_tac := intros a a' b b' Ha Ha' Hb Hb'; vm_compute in Ha, Ha', Hb, Hb'; in_tac; vm_compute; intros X; try discriminate X; auto.
Lemma flex1_posed : well_posed flex1.
Proof. split; [vm_compute; nodup_tac|]. split; [intros i H; apply (flex1_costs i H)|]. texts_tac. Qed.
Lemma perf1_posed : well_posed perf1.
Proof. split; [vm_compute; nodup_tac|]. split; [intros i H; apply (perf1_costs i H)|]. texts_tac. Qed.
Lemma flex12_same : same_failures flex1 flex2.
Proof. intros i H. vm_compute in H. in_tac; vm_compute; reflexivity. Qed.
Lemma perf12_same : same_failures perf1 perf2.
Proof. intros i H. vm_compute in H. in_tac; vm_compute; reflexivity. Qed.
Lemma flex12_run : update_simulation E0 Flex flex1 = (flex2, Ok tt).
Proof. unfold flex2. apply run_split. vm_compute. reflexivity. Qed.
Lemma perf12_run : update_simulation E0 Perf perf1 = (perf2, Ok tt).
Proof. unfold perf2. apply run_split. vm_compute. reflexivity. Qed.
Lemma flex2_off k d : no_shortcuts_for k flex2 d.
Proof. intros _ p a n b m l _ H SC. vm_compute in H. exfalso. in_tac; vm_compute in SC; discriminate SC. Qed.
Lemma perf2_off d : no_shortcuts_for Perf perf2 d.
Proof. intros H. discriminate H. Qed.

(** ** C01 IGP demands take exactly the least-cost paths *)
Theorem C01_igp_paths E k s s' d : env_ok E -> well_posed s -> update_simulation E k s = (s', Ok tt) -> same_failures s s' ->
  In d (m_dms s) -> no_lsp_for s' d -> no_shortcuts_for k s' d ->
  match d_path (h_dm s' d) with
  | DUnrouted => forall p, ~ least_cost s' (usable s') (dmd_from s' d) p (dmd_to s' d)
  | DPaths ps => exists L, ps = map if_path L /\ L <> [] /\ NoDup L /\
                   forall p, In p L <-> least_cost s' (usable s') (dmd_from s' d) p (dmd_to s' d)
  end.
Proof. intros HE (N & C & T). exact (igp_paths E k HE s s' d N C T). Qed.
Print Assumptions C01_igp_paths.

(** the side condition holds when no link is half failed *)
Theorem C01_same_failures E k s s' : env_ok E -> NoDup (m_ifs s) -> cids_set k s -> ends_agree k s ->
  update_simulation E k s = (s', Ok tt) -> same_failures s s'.
Proof. exact (update_stable E k s s'). Qed.
Print Assumptions C01_same_failures.

Lemma no_lsp_tac_flex d : d <> 1%nat -> d = 0%nat \/ d = 2%nat -> no_lsp_for flex2 d.
Proof. intros _ [-> | ->] l (H & A & B); vm_compute in H; in_tac; vm_compute in A, B; discriminate. Qed.
Lemma no_lsp_tac_perf d : d <> 1%nat -> d = 0%nat \/ d = 2%nat -> no_lsp_for perf2 d.
Proof. intros _ [-> | ->] l (H & A & B); vm_compute in H; in_tac; vm_compute in A, B; discriminate. Qed.

Example C01_example_flex : well_posed flex1 /\ update_simulation E0 Flex flex1 = (flex2, Ok tt) /\ same_failures flex1 flex2 /\
  In 0%nat (m_dms flex1) /\ no_lsp_for flex2 0 /\ no_shortcuts_for Flex flex2 0 /\
  d_path (h_dm flex2 0) = DPaths (map if_path [[0%nat; 4%nat]; [2%nat; 4%nat]; [6%nat]]).
Proof.
  split; [exact flex1_posed|]. split; [exact flex12_run|]. split; [exact flex12_same|]. split; [vm_compute; auto|].
  split; [apply no_lsp_tac_flex; auto|]. split; [apply flex2_off|]. vm_compute. reflexivity.
Qed.
Example C01_example_perf : well_posed perf1 /\ update_simulation E0 Perf perf1 = (perf2, Ok tt) /\ same_failures perf1 perf2 /\
  In 0%nat (m_dms perf1) /\ no_lsp_for perf2 0 /\ no_shortcuts_for Perf perf2 0 /\
  d_path (h_dm perf2 0) = DPaths (map if_path [[0%nat; 2%nat]; [4%nat]]).
Proof.
  split; [exact perf1_posed|]. split; [exact perf12_run|]. split; [exact perf12_same|]. split; [vm_compute; auto|].
  split; [apply no_lsp_tac_perf; auto|]. split; [apply perf2_off|]. vm_compute. reflexivity.
Qed.
Example C01_example_agree : cids_set Flex flex1 /\ ends_agree Flex flex1.
Proof.
  split; [intros _ i H; vm_compute in H; in_tac; vm_compute; discriminate|].
  intros i j Hi Hj _. vm_compute in Hi, Hj. in_tac; vm_compute; reflexivity.
Qed.

(** A half-failed link is repaired only after the demands are routed: without
    the side condition the claim is false. *)
Definition half1 : st := net [nd "A"; nd "B"]
  [itf "ab" 1 10 0 1 1; if_failed true (itf "ba" 1 10 1 0 1)] [dmd 0 1 5 "d"] [] [].
Theorem C01_half_failed_refuted :
  ~ (forall E k s s' d, env_ok E -> well_posed s -> update_simulation E k s = (s', Ok tt) -> In d (m_dms s) ->
     no_lsp_for s' d -> no_shortcuts_for k s' d ->
     forall ps p, d_path (h_dm s' d) = DPaths ps -> In (if_path p) ps -> least_cost s' (usable s') (dmd_from s' d) p (dmd_to s' d)).
Proof.
  intros H. specialize (H E0 Flex half1 (fst (update_simulation E0 Flex half1)) 0%nat E0_ok).
  assert (P : well_posed half1).
  { split; [vm_compute; nodup_tac|]. split; [intros i Hi; vm_compute in Hi; in_tac; vm_compute; discriminate|]. texts_tac. }
  assert (R : update_simulation E0 Flex half1 = (fst (update_simulation E0 Flex half1), Ok tt)) by (apply run_split; vm_compute; reflexivity).
  specialize (H P R). 
  assert (A : no_lsp_for (fst (update_simulation E0 Flex half1)) 0) by (intros l (X & _); vm_compute in X; destruct X).
  assert (B : no_shortcuts_for Flex (fst (update_simulation E0 Flex half1)) 0).
  { intros _ p a n b m l _ X SC. vm_compute in X. exfalso. in_tac; vm_compute in SC; discriminate SC. }
  specialize (H (or_introl eq_refl) A B [if_path [0%nat]] [0%nat]).
  assert (D : d_path (h_dm (fst (update_simulation E0 Flex half1)) 0) = DPaths [if_path [0%nat]]) by (vm_compute; reflexivity).
  specialize (H D (or_introl eq_refl)). destruct H as [H _]. destruct (route_all _ _ _ _ _ 0%nat H (or_introl eq_refl)) as [_ [U _]].
  vm_compute in U. discriminate.
Qed.
Print Assumptions C01_half_failed_refuted.

(** ** C02 RSVP-disabled or over-reserved links are invisible to IGP routing *)
Theorem C02_only_usable E k s s' d : env_ok E -> well_posed s -> update_simulation E k s = (s', Ok tt) -> same_failures s s' ->
  In d (m_dms s) -> no_lsp_for s' d -> no_shortcuts_for k s' d ->
  forall ps p x, d_path (h_dm s' d) = DPaths ps -> In p ps -> In x p ->
    exists i, x = IIf i /\ In i (m_ifs s') /\ i_failed (h_if s' i) = false /\ i_rsvp (h_if s' i) = true /\
              exists r, reservable s' i r /\ (0 <= r)%Q.
Proof. intros HE (N & C & T). exact (igp_only_usable E k HE s s' d N C T). Qed.
Print Assumptions C02_only_usable.

(** ... and every usable interface is used, if it is needed: *)
Theorem C02_usable_used E k s s' d i : env_ok E -> well_posed s -> update_simulation E k s = (s', Ok tt) -> same_failures s s' ->
  In d (m_dms s) -> no_lsp_for s' d -> no_shortcuts_for k s' d ->
  In i (m_ifs s') -> usable s' i -> loc s' i = dmd_from s' d -> rem s' i = dmd_to s' d ->
  (forall p, route s' (usable s') (dmd_from s' d) p (dmd_to s' d) -> i_cost (h_if s' i) <= route_cost s' p) ->
  exists ps, d_path (h_dm s' d) = DPaths ps /\ In [IIf i] ps.
Proof. intros HE (N & C & T). exact (igp_usable_used E k HE s s' d i N C T). Qed.
Print Assumptions C02_usable_used.

(** an interface with rsvp_enabled=False *)
Definition itf_off (name : string) (cost : Z) (cap : Q) (a b : nat) (c : Z) : iface :=
  mkIface name cost cap a b (CInt c) (TNum 0) false 0 [] false 100 false.
Definition off1 : st := net [nd "A"; nd "B"]
  [itf_off "ab" 1 10 0 1 1; itf_off "ba" 1 10 1 0 1] [dmd 0 1 5 "d"] [] [].
(** "rsvp_enabled=False only keeps LSPs off": a demand with an unfailed path is routed *)
Theorem C02_rsvp_flag_refuted :
  ~ (forall E k s s' d p, env_ok E -> well_posed s -> update_simulation E k s = (s', Ok tt) -> same_failures s s' ->
     In d (m_dms s) -> route s' (fun i => i_failed (h_if s' i) = false) (dmd_from s' d) p (dmd_to s' d) ->
     d_path (h_dm s' d) <> DUnrouted).
Proof.
  intros H. specialize (H E0 Flex off1 (fst (update_simulation E0 Flex off1)) 0%nat [0%nat] E0_ok).
  assert (P : well_posed off1).
  { split; [vm_compute; nodup_tac|]. split; [intros i Hi; vm_compute in Hi; in_tac; vm_compute; discriminate|]. texts_tac. }
  assert (R : update_simulation E0 Flex off1 = (fst (update_simulation E0 Flex off1), Ok tt)) by (apply run_split; vm_compute; reflexivity).
  assert (S : same_failures off1 (fst (update_simulation E0 Flex off1))) by (intros i Hi; vm_compute in Hi; in_tac; vm_compute; reflexivity).
  specialize (H P R S (or_introl eq_refl)). apply H; [|vm_compute; reflexivity].
  assert (X : dmd_from (fst (update_simulation E0 Flex off1)) 0 = loc (fst (update_simulation E0 Flex off1)) 0) by (vm_compute; reflexivity).
  assert (Y : dmd_to (fst (update_simulation E0 Flex off1)) 0 = rem (fst (update_simulation E0 Flex off1)) 0) by (vm_compute; reflexivity).
  rewrite X, Y. apply route_cons; [vm_compute; auto|vm_compute; reflexivity|constructor].
Qed.
Print Assumptions C02_rsvp_flag_refuted.

Example C02_example : In [IIf 6] (match d_path (h_dm flex2 0) with DPaths ps => ps | DUnrouted => [] end) /\
  In 6%nat (m_ifs flex2) /\ usable flex2 6 /\ loc flex2 6 = dmd_from flex2 0 /\ rem flex2 6 = dmd_to flex2 0.
Proof.
  split; [vm_compute; auto|]. split; [vm_compute; auto 10|]. split; [|split; vm_compute; reflexivity].
  apply considered_usable. vm_compute. reflexivity.
Qed.

(** ** C03 A demand is Unrouted exactly when its endpoints are disconnected *)
Theorem C03_unrouted E k s s' d : env_ok E -> well_posed s -> update_simulation E k s = (s', Ok tt) -> same_failures s s' ->
  In d (m_dms s) -> no_lsp_for s' d ->
  (d_path (h_dm s' d) = DUnrouted <-> forall p, ~ route s' (usable s') (dmd_from s' d) p (dmd_to s' d)).
Proof. intros HE (N & C & T). exact (igp_unrouted E k HE s s' d N C T). Qed.
Print Assumptions C03_unrouted.
Example C03_example : no_lsp_for flex2 0 /\ d_path (h_dm flex2 0) <> DUnrouted /\ no_lsp_for flex2 2 /\ d_path (h_dm flex2 2) = DUnrouted /\
  no_lsp_for perf2 2 /\ d_path (h_dm perf2 2) = DUnrouted.
Proof.
  split; [apply no_lsp_tac_flex; auto|]. split; [vm_compute; discriminate|]. split; [apply no_lsp_tac_flex; auto|].
  split; [vm_compute; reflexivity|]. split; [apply no_lsp_tac_perf; auto|]. vm_compute; reflexivity.
Qed.
