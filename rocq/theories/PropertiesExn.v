(** PropertiesExn.v - what a call that raises leaves behind. *)
From Verif Require Import Base Graph Objects Sim Api Build Spec SpecCkt SpecFail SpecRepair SpecExn Nets MonadProofs GraphProofs PropertiesRoute PropertiesApi PropertiesOrder PropertiesFail PropertiesRepair PropertiesMap ExnProofs.

(** ** C111 A call that raises leaves the model as it was *)
(** Calls that look before they change anything, in every state *)
Theorem C111_calls E k o s s' e : looks_first o -> run_op E k o s = (s', Err e) -> untouched s s'.
Proof. exact (looks_first_kept E k o s s' e). Qed.
Print Assumptions C111_calls.
Example C111_calls_example : looks_first (OpFailIf "x" "A") /\ looks_first (OpRenameIf "A" "x" "y") /\ looks_first (OpSetCost 0 0) /\
  (exists m s', run_op E0 Flex (OpFailIf "x" "A") flex1 = (s', Err (ModelException m))) /\ (exists m s', run_op E0 Flex (OpRenameIf "A" "x" "y") flex1 = (s', Err (ModelException m))) /\
  (exists m s', run_op E0 Flex (OpSetCost 0 0) flex1 = (s', Err (ModelException m))) /\ (exists m s', run_op E0 Flex (OpSetMetric 0 (-2)) flex1 = (s', Err (ModelException m))).
Proof.
  split; [exact I|]. split; [exact I|]. split; [exact I|]. split; [do 2 eexists; vm_compute; reflexivity|]. split; [do 2 eexists; vm_compute; reflexivity|].
  split; do 2 eexists; vm_compute; reflexivity.
Qed.

(** Additions to a model that validate_model accepts *)
Theorem C111_add_demand E k src dst t name s s' e : env_ok E -> sound k s -> snd (validate_model E k s) = Ok tt ->
  add_demand E k src dst t name s = (s', Err e) -> untouched s s'.
Proof. intros HE So V. exact (add_demand_kept E k s HE So V src dst t name s' e). Qed.
Print Assumptions C111_add_demand.
Theorem C111_add_rsvp_lsp E k src dst name s s' e : env_ok E -> sound k s -> snd (validate_model E k s) = Ok tt ->
  add_rsvp_lsp E k src dst name s = (s', Err e) -> untouched s s'.
Proof. intros HE So V. exact (add_lsp_kept E k s HE So V src dst name s' e). Qed.
Print Assumptions C111_add_rsvp_lsp.
Theorem C111_add_node E k n s s' e : env_ok E -> sound k s -> snd (validate_model E k s) = Ok tt ->
  (k = Perf -> n_shortcuts (h_nd s n) = false) -> add_node E k n s = (s', Err e) -> untouched s s'.
Proof. intros HE So V. exact (add_node_kept E k s HE So V n s' e). Qed.
Print Assumptions C111_add_node.
Theorem C111_add_circuit E k a b na nb ca cb cap c s s' e : env_ok E -> sound k s -> snd (validate_model E k s) = Ok tt ->
  fits k s (nd_name s a) (nd_name s b) -> add_circuit E k a b na nb ca cb cap c s = (s', Err e) -> untouched s s'.
Proof. intros HE So V. exact (add_circuit_kept E k s HE So V a b na nb ca cb cap c s' e). Qed.
Print Assumptions C111_add_circuit.
(** after a simulation, with two routed LSPs: unknown nodes, existing demands, LSPs, nodes and
    interfaces, a negative amount, and a used circuit_id *)
Lemma flex2_sound : sound Flex flex2.
Proof.
  constructor.
  - vm_compute. nodup_tac.
  - intros x H. vm_compute in H. vm_compute. in_tac; lia.
  - intros _ i H. vm_compute in H. in_tac; vm_compute; discriminate.
  - intros l H. vm_compute in H. in_tac; vm_compute; (split; [|eexists; reflexivity]); intros j Hj; in_tac; auto 20.
Qed.
Example C111_additions_example : env_ok E0 /\ sound Flex flex2 /\ snd (validate_model E0 Flex flex2) = Ok tt /\ fits Flex flex2 (nd_name flex2 0) (nd_name flex2 2) /\
  snd (add_demand E0 Flex "A" "X" 1 "d" flex2) <> Ok tt /\ snd (add_demand E0 Flex "A" "C" 1 "d0" flex2) <> Ok tt /\ snd (add_demand E0 Flex "A" "C" (-1) "d" flex2) = Err ValueError /\
  snd (add_rsvp_lsp E0 Flex "B" "A" "l0" flex2) <> Ok tt /\ snd (add_node E0 Flex 1 flex2) <> Ok tt /\
  snd (add_circuit E0 Flex 0 2 "x" "y" 1 1 10 (CInt 4) flex2) <> Ok tt /\ snd (add_circuit E0 Flex 0 2 "ac" "y" 1 1 10 (CInt 9) flex2) <> Ok tt /\
  snd (add_circuit E0 Flex 0 2 "x" "y" 1 1 10 (CInt 9) flex2) = Ok tt.
Proof.
  split; [exact E0_ok|]. split; [exact flex2_sound|]. split; [vm_compute; reflexivity|]. split; [split; [vm_compute; discriminate|discriminate]|].
  split; [vm_compute; discriminate|]. split; [vm_compute; discriminate|]. split; [vm_compute; reflexivity|]. split; [vm_compute; discriminate|]. split; [vm_compute; discriminate|].
  split; [vm_compute; discriminate|]. split; [vm_compute; discriminate|]. vm_compute. reflexivity.
Qed.

(** fail_node, fail_srlg and unfail_srlg *)
Theorem C111_fail_node s nname s' e : keys_unique s -> refs_ok s -> (forall i, In i (m_ifs s) -> has_other_end s i) ->
  fail_node nname s = (s', Err e) -> untouched s s'.
Proof. exact (fail_node_kept s nname s' e). Qed.
Print Assumptions C111_fail_node.
Theorem C111_fail_srlg s name s' e : keys_unique s -> refs_ok s -> (forall i, In i (m_ifs s) -> has_other_end s i) ->
  fail_srlg name s = (s', Err e) -> untouched s s'.
Proof. exact (fail_srlg_kept s name s' e). Qed.
Print Assumptions C111_fail_srlg.
Theorem C111_unfail_srlg E k s name s' e : env_ok E -> wf_net k s -> srlg_sound k s -> consistent k s -> all_paired k s -> lsps_sane s ->
  unfail_srlg E k name s = (s', Err e) -> untouched s s'.
Proof. exact (unfail_srlg_kept E k s name s' e). Qed.
Print Assumptions C111_unfail_srlg.
Example C111_fail_example : keys_unique up0 /\ refs_ok up0 /\ (forall i, In i (m_ifs up0) -> has_other_end up0 i) /\
  (exists m, snd (fail_node "X" up0) = Err (ModelException m)) /\ (exists m, snd (fail_srlg "X" up0) = Err (ModelException m)) /\
  wf_net Flex v4 /\ srlg_sound Flex v4 /\ consistent Flex v4 /\ all_paired Flex v4 /\ lsps_sane v4 /\ snd (unfail_srlg E0 Flex "X" v4) <> Ok tt.
Proof.
  destruct C29_example as (A & B & C & _). destruct C64_example as (F & G & H & I & J & _).
  split; [exact A|]. split; [exact B|]. split; [exact C|]. split; [eexists; vm_compute; reflexivity|]. split; [eexists; vm_compute; reflexivity|].
  split; [exact F|]. split; [exact G|]. split; [exact H|]. split; [exact I|]. split; [exact J|]. vm_compute. discriminate.
Qed.

(** *** Calls that raise and yet have changed the model *)
(** PerformanceModel.add_circuit next to an existing link *)
Lemma perf2_sound : sound Perf perf2.
Proof.
  constructor.
  - vm_compute. nodup_tac.
  - intros x H. vm_compute in H. vm_compute. in_tac; lia.
  - intros X. discriminate X.
  - intros l H. vm_compute in H. in_tac; vm_compute; (split; [|eexists; reflexivity]); intros j Hj; in_tac; auto 20.
Qed.
Lemma perf2_valid : snd (validate_model E0 Perf perf2) = Ok tt.
Proof. vm_compute. reflexivity. Qed.
Definition twice : st := fst (add_circuit E0 Perf 0 1 "x" "y" 1 1 10 (CInt 9) perf2).
Theorem C111_circuit_refuted :
  ~ (forall E s a b na nb ca cb cap c s' m, env_ok E -> sound Perf s -> snd (validate_model E Perf s) = Ok tt ->
       nd_name s a <> nd_name s b -> add_circuit E Perf a b na nb ca cb cap c s = (s', Err (ValidationException m)) -> List.length (m_ifs s') = List.length (m_ifs s)).
Proof.
  intros H. assert (X : exists m, snd (add_circuit E0 Perf 0 1 "x" "y" 1 1 10 (CInt 9) perf2) = Err (ValidationException m)) by (clear; eexists; vm_compute; reflexivity).
  destruct X as (m & X). assert (N : nd_name perf2 0 <> nd_name perf2 1) by (clear; vm_compute; discriminate).
  specialize (H E0 perf2 0%nat 1%nat "x" "y" 1 1 10%Q (CInt 9) _ m E0_ok perf2_sound perf2_valid N (run_split _ _ X)).
  vm_compute in H. discriminate H.
Qed.
Print Assumptions C111_circuit_refuted.
(** the interfaces stay, and from then on the model cannot be simulated *)
Example C111_circuit_stuck : snd (add_circuit E0 Perf 0 1 "x" "y" 1 1 10 (CInt 9) perf2) <> Ok tt /\ List.length (m_ifs perf2) = 6%nat /\ List.length (m_ifs twice) = 8%nat /\
  snd (update_simulation E0 Perf perf2) = Ok tt /\ snd (update_simulation E0 Perf twice) = Err (ValidationException [VParallel]).
Proof. split; [vm_compute; discriminate|]. split; [vm_compute; reflexivity|]. split; [vm_compute; reflexivity|]. split; [vm_compute; reflexivity|]. vm_compute; reflexivity. Qed.

(** PerformanceModel.add_node with a node whose igp_shortcuts_enabled is set *)
Definition short_new : st := upd_nd 50 (fun _ => nd_sc "Z") perf2.
Lemma short_new_sound : sound Perf short_new.
Proof.
  constructor.
  - vm_compute. nodup_tac.
  - intros x H. vm_compute in H. vm_compute. in_tac; lia.
  - intros X. discriminate X.
  - intros l H. vm_compute in H. in_tac; vm_compute; (split; [|eexists; reflexivity]); intros j Hj; in_tac; auto 20.
Qed.
Theorem C111_node_refuted :
  ~ (forall E s n s' m, env_ok E -> sound Perf s -> snd (validate_model E Perf s) = Ok tt ->
       add_node E Perf n s = (s', Err (ValidationException m)) -> m_nds s' = m_nds s).
Proof.
  intros H. assert (X : exists m, snd (add_node E0 Perf 50 short_new) = Err (ValidationException m)) by (clear; eexists; vm_compute; reflexivity).
  destruct X as (m & X). assert (V : snd (validate_model E0 Perf short_new) = Ok tt) by (clear; vm_compute; reflexivity).
  specialize (H E0 short_new 50%nat _ m E0_ok short_new_sound V (run_split _ _ X)). vm_compute in H. discriminate H.
Qed.
Print Assumptions C111_node_refuted.

(** add_network_interfaces_from_list with an interface whose other end is missing *)
Theorem C111_interfaces_refuted :
  ~ (forall E k l s s' m, env_ok E -> sound k s -> snd (validate_model E k s) = Ok tt ->
       add_network_interfaces E k l s = (s', Err (ModelException m)) -> List.length (m_ifs s') = List.length (m_ifs s)).
Proof.
  intros H. assert (X : exists m, snd (add_network_interfaces E0 Flex [mkInfo "ad" 1 10 "A" "D" (CInt 9)] flex2) = Err (ModelException m)) by (clear; eexists; vm_compute; reflexivity).
  destruct X as (m & X). assert (V : snd (validate_model E0 Flex flex2) = Ok tt) by (clear; vm_compute; reflexivity).
  specialize (H E0 Flex _ flex2 _ m E0_ok flex2_sound V (run_split _ _ X)). vm_compute in H. discriminate H.
Qed.
Print Assumptions C111_interfaces_refuted.

(** Node.remove_from_srlg of a node that is in another failed SRLG: the node has left the SRLG
    though the call raised *)
Definition two_down : st := fst (fail_srlg "h" (fst (fail_srlg "g" (fst (node_add_to_srlg 3 "h" true (fst (node_add_to_srlg 3 "g" false flex1))))))).
Lemma two_down_sound : sound Flex two_down.
Proof.
  constructor.
  - vm_compute. nodup_tac.
  - intros x H. vm_compute in H. vm_compute. in_tac; lia.
  - intros _ i H. vm_compute in H. in_tac; vm_compute; discriminate.
  - intros l H. vm_compute in H. in_tac; vm_compute; exact I.
Qed.
Theorem C111_member_refuted :
  ~ (forall E k s n name s' m, env_ok E -> sound k s -> snd (validate_model E k s) = Ok tt ->
       node_remove_from_srlg n name s = (s', Err (ModelException m)) -> n_srlgs (h_nd s' n) = n_srlgs (h_nd s n)).
Proof.
  intros H. assert (X : exists m, snd (node_remove_from_srlg 3 "g" two_down) = Err (ModelException m)) by (clear; eexists; vm_compute; reflexivity).
  destruct X as (m & X). assert (V : snd (validate_model E0 Flex two_down) = Ok tt) by (clear; vm_compute; reflexivity).
  specialize (H E0 Flex two_down 3%nat "g" _ m E0_ok two_down_sound V (run_split _ _ X)). vm_compute in H. discriminate H.
Qed.
Print Assumptions C111_member_refuted.
