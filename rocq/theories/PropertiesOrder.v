(** PropertiesOrder.v - models without LSPs: when update_simulation succeeds, and
    that the order of the objects does not matter. *)
From Verif Require Import Base Graph Objects Sim Api Build Spec SpecHist SpecCkt SpecSim SpecMetric SpecFlow SpecOrder Nets GraphProofs PropertiesRoute PropertiesValidate OrderProofs.
From Coq Require Import Permutation.

(** ** C67 When update_simulation succeeds without LSPs *)
Theorem C67_succeeds_exactly E k s : env_ok E -> m_lsps s = [] -> well_posed s -> ends_known s -> cids_set k s ->
  ((exists s', update_simulation E k s = (s', Ok tt)) <-> demands_fine s /\ fit k (unreserved s)).
Proof. intros HE. exact (succeeds E k HE s). Qed.
Print Assumptions C67_succeeds_exactly.

(** ** C21 The order of the objects *)
Theorem C21_same_success E E' k s t : env_ok E -> env_ok E' -> reordered s t -> m_lsps s = [] -> well_posed s -> ends_known s -> cids_set k s ->
  ((exists s', update_simulation E k s = (s', Ok tt)) <-> (exists t', update_simulation E' k t = (t', Ok tt))).
Proof. exact (order_succeeds E E' k s t). Qed.
Print Assumptions C21_same_success.

Theorem C21_same_paths E E' k s t s' t' d : env_ok E -> env_ok E' -> reordered s t -> m_lsps s = [] -> well_posed s -> ends_known s -> cids_set k s ->
  update_simulation E k s = (s', Ok tt) -> update_simulation E' k t = (t', Ok tt) -> In d (m_dms s) ->
  same_paths (d_path (h_dm s' d)) (d_path (h_dm t' d)).
Proof. exact (order_paths E E' k s t s' t' d). Qed.
Print Assumptions C21_same_paths.

Theorem C21_same_traffic E E' k s t s' t' i : env_ok E -> env_ok E' -> reordered s t -> m_lsps s = [] -> well_posed s -> ends_known s -> cids_set k s ->
  ends_agree k s -> if_keys_unique s ->
  update_simulation E k s = (s', Ok tt) -> update_simulation E' k t = (t', Ok tt) -> In i (m_ifs s) ->
  same_traffic (i_traffic (h_if s' i)) (i_traffic (h_if t' i)).
Proof. intros HE HE' R NL WP EK CS EA KU U U' Hi. exact (order_traffic E E' k s t s' t' HE HE' R NL WP CS EA KU U U' i EK Hi). Qed.
Print Assumptions C21_same_traffic.

(** [flex1] and [perf1] without their LSPs, forwards and backwards *)
Definition bare (s : st) : st :=
  mkSt (h_if s) (h_nd s) (h_sr s) (h_dm s) (h_ls s) (m_ifs s) (m_nds s) (m_dms s) [] (m_srs s) (m_ckts s) (m_groups s) (s_next s) (s_rng s).
Definition backwards (s : st) : st :=
  mkSt (h_if s) (h_nd s) (h_sr s) (h_dm s) (h_ls s) (rev (m_ifs s)) (rev (m_nds s)) (rev (m_dms s)) (rev (m_lsps s)) (m_srs s) (m_ckts s) (m_groups s) (s_next s) (s_rng s).
Lemma backwards_reordered s : reordered s (backwards s).
Proof. constructor; try reflexivity; apply Permutation_rev. Qed.
Lemma bare_posed s : well_posed s -> texts_distinct (bare s) -> well_posed (bare s).
Proof. intros (A & B & _) C. split; [exact A|]. split; [exact B|exact C]. Qed.
Ltac known_tac := intros i H; vm_compute in H; in_tac; vm_compute; auto 10.
Ltac agree_tac := intros i j Hi Hj _; vm_compute in Hi, Hj; in_tac; vm_compute; reflexivity.
Example C21_example_flex : reordered (bare flex1) (backwards (bare flex1)) /\ m_lsps (bare flex1) = [] /\ well_posed (bare flex1) /\ ends_known (bare flex1) /\
  cids_set Flex (bare flex1) /\ ends_agree Flex (bare flex1) /\ if_keys_unique (bare flex1) /\
  snd (update_simulation E0 Flex (bare flex1)) = Ok tt /\ snd (update_simulation E0 Flex (backwards (bare flex1))) = Ok tt /\
  d_path (h_dm (fst (update_simulation E0 Flex (bare flex1))) 0) <> d_path (h_dm (fst (update_simulation E0 Flex (backwards (bare flex1)))) 0).
Proof.
  split; [apply backwards_reordered|]. split; [reflexivity|]. split; [apply bare_posed; [exact flex1_posed|texts_tac]|]. split; [known_tac|].
  split; [intros _ i H; vm_compute in H; in_tac; vm_compute; discriminate|]. split; [agree_tac|]. split; [vm_compute; nodup_tac|].
  split; [vm_compute; reflexivity|]. split; [vm_compute; reflexivity|]. vm_compute. discriminate.
Qed.
Example C21_example_perf : reordered (bare perf1) (backwards (bare perf1)) /\ m_lsps (bare perf1) = [] /\ well_posed (bare perf1) /\ ends_known (bare perf1) /\
  cids_set Perf (bare perf1) /\ ends_agree Perf (bare perf1) /\ if_keys_unique (bare perf1) /\
  snd (update_simulation E0 Perf (bare perf1)) = Ok tt /\ snd (update_simulation E0 Perf (backwards (bare perf1))) = Ok tt.
Proof.
  split; [apply backwards_reordered|]. split; [reflexivity|]. split; [apply bare_posed; [exact perf1_posed|texts_tac]|]. split; [known_tac|].
  split; [intros H; discriminate H|]. split; [agree_tac|]. split; [vm_compute; nodup_tac|].
  split; [vm_compute; reflexivity|]. vm_compute; reflexivity.
Qed.

(** C67 both ways: [flex1] succeeds; a link in one direction only, a demand to its
    own source and a demand from a node outside the model make it fail *)
Definition self1 : st := net [nd "A"; nd "B"] [itf "ab" 1 10 0 1 1; itf "ba" 1 10 1 0 1] [dmd 0 0 5 "d"] [] [].
Definition stray1 : st := set_nds [0%nat; 1%nat] (net [nd "A"; nd "B"; nd "C"] [itf "ab" 1 10 0 1 1; itf "ba" 1 10 1 0 1] [dmd 2 0 5 "d"] [] []).
Ltac posed0_tac := split; [vm_compute; nodup_tac|]; split; [intros i X; vm_compute in X; in_tac; vm_compute; discriminate|]; texts_tac.
Example C67_example_flex : m_lsps (bare flex1) = [] /\ well_posed (bare flex1) /\ ends_known (bare flex1) /\ cids_set Flex (bare flex1) /\
  snd (update_simulation E0 Flex (bare flex1)) = Ok tt.
Proof. destruct C21_example_flex as (_ & A & B & C & D & _ & _ & F & _). auto. Qed.
Example C67_example_lone : m_lsps lone1 = [] /\ well_posed lone1 /\ ends_known lone1 /\ cids_set Flex lone1 /\ demands_fine lone1 /\
  ~ fit Flex (unreserved lone1) /\ snd (update_simulation E0 Flex lone1) <> Ok tt.
Proof.
  split; [reflexivity|]. split; [posed0_tac|]. split; [known_tac|]. split; [intros _ i H; vm_compute in H; in_tac; vm_compute; discriminate|].
  split; [intros d H; vm_compute in H; destruct H|]. split; [|vm_compute; discriminate].
  intros (P & _). destruct (P 0%nat) as [(j & J & _ & L & _) _].
  - vm_compute; auto.
  - exists 10%Q. split; [|discriminate]. unfold reservable. simpl. exists 0%Q. split; [exists 0%Z; split; [reflexivity|]|exists 100%Z; split; [reflexivity|]]; split; discriminate || (intros H; discriminate H).
  - vm_compute in J. in_tac. vm_compute in L. discriminate L.
Qed.
Example C67_example_demands : 
  (m_lsps self1 = [] /\ well_posed self1 /\ ends_known self1 /\ cids_set Flex self1 /\ ~ demands_fine self1 /\ snd (update_simulation E0 Flex self1) <> Ok tt) /\
  (m_lsps stray1 = [] /\ well_posed stray1 /\ ends_known stray1 /\ cids_set Flex stray1 /\ ~ demands_fine stray1 /\ snd (update_simulation E0 Flex stray1) <> Ok tt).
Proof.
  split; (split; [reflexivity|]); (split; [posed0_tac|]); (split; [known_tac|]); (split; [intros _ i H; vm_compute in H; in_tac; vm_compute; discriminate|]);
    (split; [|vm_compute; discriminate]); intros D; destruct (D 0%nat) as [A B]; try (vm_compute; tauto).
  vm_compute in A. in_tac; discriminate.
Qed.

(** With LSPs the order does matter: the first of two LSPs that do not fit
    together gets the bandwidth. *)
Definition rivals : st := net [nd "A"; nd "B"] [itf "ab" 1 10 0 1 1; itf "ba" 1 10 1 0 1] [dmd 0 1 5 "d"]
  [mkLsp 0 1 "l0" PInit RInit RInit (Some 10%Q) None None; mkLsp 0 1 "l1" PInit RInit RInit (Some 10%Q) None None] [].
Theorem C21_lsps_refuted :
  ~ (forall E k s t s' t' d, env_ok E -> reordered s t -> well_posed s -> ends_known s -> cids_set k s ->
       update_simulation E k s = (s', Ok tt) -> update_simulation E k t = (t', Ok tt) -> In d (m_dms s) ->
       same_paths (d_path (h_dm s' d)) (d_path (h_dm t' d))).
Proof.
  intros C. assert (X : snd (update_simulation E0 Flex rivals) = Ok tt) by (vm_compute; reflexivity).
  assert (Y : snd (update_simulation E0 Flex (backwards rivals)) = Ok tt) by (vm_compute; reflexivity).
  assert (W : well_posed rivals) by (clear; posed0_tac). assert (K : ends_known rivals) by (clear; known_tac).
  assert (CI : cids_set Flex rivals) by (clear; intros _ i H; vm_compute in H; in_tac; vm_compute; discriminate).
  assert (Z := C E0 Flex _ _ _ _ 0%nat E0_ok (backwards_reordered rivals) W K CI (run_split _ _ X) (run_split _ _ Y) ltac:(vm_compute; auto)).
  clear - Z. vm_compute in Z. specialize (Z [ILsp 0%nat]). destruct Z as [Z Z']. 
  first [destruct (Z (or_introl eq_refl)) as [H|[]]; discriminate H | destruct (Z' (or_introl eq_refl)) as [H|[]]; discriminate H].
Qed.
Print Assumptions C21_lsps_refuted.
