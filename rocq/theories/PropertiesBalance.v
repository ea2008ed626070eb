(** PropertiesBalance.v - traffic balance at every node, with LSPs (C90). *)
From Verif Require Import Base Graph Objects Sim Api Build Spec SpecCkt SpecHist SpecSim SpecMetric SpecFlow SpecSig SpecOrder SpecShort SpecTotal SpecWhatIf SpecSame SpecBalance Nets RouteProofs
  PropertiesRoute PropertiesSignal PropertiesOrder PropertiesTotal PropertiesShort PropertiesSame LspExact OrderLsps Balance.
From Coq Require Import Permutation.

(** ** C90 Traffic balance with LSPs *)
(** Every demand leaves and enters each node alike, but for its ends. *)
Theorem C90_demand E s s' d n : env_ok E -> well_posed s -> if_keys_unique s -> NoDup (m_lsps s) ->
  update_simulation E Flex s = (s', Ok tt) -> same_failures s s' -> lsps_whole s' -> In d (m_dms s) -> no_shortcuts_for Flex s' d ->
  (leaves_node s' (demand_on s' d) n + at_node (dmd_to s' d) n (routed_traffic s' d) ==
   enters_node s' (demand_on s' d) n + at_node (dmd_from s' d) n (routed_traffic s' d))%Q.
Proof. intros HE WP KU NL Up St LW Hd NS. exact (flex_demand E Flex s s' HE WP KU NL Up St LW eq_refl d n Hd NS). Qed.
Print Assumptions C90_demand.

(** So does the traffic of the interfaces. *)
Theorem C90_balance E s s' n : env_ok E -> well_posed s -> if_keys_unique s -> NoDup (m_lsps s) ->
  update_simulation E Flex s = (s', Ok tt) -> same_failures s s' -> lsps_whole s' -> (forall d, In d (m_dms s) -> no_shortcuts_for Flex s' d) ->
  (outgoing s' n + sunk s' n == incoming s' n + sourced s' n)%Q.
Proof. intros HE WP KU NL Up St LW NS. exact (flex_balance E s s' HE WP KU NL LW n Up St NS). Qed.
Print Assumptions C90_balance.

(** In a PerformanceModel, if every routed demand rides LSPs *)
Theorem C90_balance_perf E s s' n : env_ok E -> well_posed s -> if_keys_unique s -> NoDup (m_lsps s) ->
  update_simulation E Perf s = (s', Ok tt) -> same_failures s s' -> lsps_whole s' ->
  (forall d, In d (m_dms s) -> d_path (h_dm s' d) <> DUnrouted -> rides_lsps s' d) ->
  (outgoing s' n + sunk s' n == incoming s' n + sourced s' n)%Q.
Proof. intros HE WP KU NL Up St LW Ri. exact (perf_balance E s s' HE WP KU NL LW n Up St Ri). Qed.
Print Assumptions C90_balance_perf.

(** The LSPs' paths are whole unless some but not all LSPs between two nodes are
    routed, in particular with room for all LSPs. *)
Theorem C90_whole E k s s' : env_ok E -> well_posed s -> NoDup (m_lsps s) -> (forall d, In d (m_dms s) -> (0 <= d_traffic (h_dm s d))%Q) ->
  update_simulation E k s = (s', Ok tt) -> all_or_none s' -> same_failures s s' -> lsps_whole s'.
Proof. exact (whole_all E k s s'). Qed.
Print Assumptions C90_whole.
Theorem C90_room E s s' n : env_ok E -> well_posed s -> ends_known s -> cids_set Flex s -> lsps_usual Flex s -> ample s -> ends_agree Flex s -> shortcuts_off s ->
  update_simulation E Flex s = (s', Ok tt) ->
  (outgoing s' n + sunk s' n == incoming s' n + sourced s' n)%Q.
Proof.
  intros HE WP EK CS LU Am EA Off Up. assert (St := fin_fail E Flex HE s s' WP CS EA Up). assert (NL := lu_once _ _ LU). assert (KU : if_keys_unique s) by exact (lu_ifs _ _ LU).
  apply (C90_balance E s s' n HE WP KU NL Up St).
  - exact (C90_whole E Flex s s' HE WP NL (lu_traffic _ _ LU) Up (fin_all E Flex HE s s' WP EK LU Am Up) St).
  - intros d _. exact (off_s E Flex s s' Up Off d).
Qed.
Print Assumptions C90_room.

(** [ring] of C89: at C a demand ends, two pass on LSPs or not, one on its way from
    D to A; it meets the hypotheses of [C90_room] ([C89_example]), hence those of
    [C90_balance] and [C90_demand] *)
Example C90_example : let s := ring false in let s' := fst (update_simulation E0 Flex s) in
  snd (update_simulation E0 Flex s) = Ok tt /\ (outgoing s' "C" == 12)%Q /\ (incoming s' "C" == 22)%Q /\ (sunk s' "C" == 10)%Q /\ (sourced s' "C" == 0)%Q.
Proof. vm_compute. repeat split; reflexivity. Qed.
(** all its demands that have LSPs, in a PerformanceModel *)
Definition ringp : st := set_dms [0%nat; 2%nat] (ring false).
Definition ringp2 : st := fst (update_simulation E0 Perf ringp).
Example C90_example_perf : well_posed ringp /\ if_keys_unique ringp /\ NoDup (m_lsps ringp) /\ update_simulation E0 Perf ringp = (ringp2, Ok tt) /\ same_failures ringp ringp2 /\
  all_or_none ringp2 /\ (forall d, In d (m_dms ringp) -> (0 <= d_traffic (h_dm ringp d))%Q) /\
  (forall d, In d (m_dms ringp) -> d_path (h_dm ringp2 d) <> DUnrouted -> rides_lsps ringp2 d) /\ (outgoing ringp2 "C" == 3)%Q /\ (incoming ringp2 "C" == 13)%Q.
Proof.
  split; [posed0_tac|]. split; [vm_compute; nodup_tac|]. split; [vm_compute; nodup_tac|]. split; [unfold ringp2; apply run_split; vm_compute; reflexivity|].
  split; [intros i H; vm_compute in H; in_tac; vm_compute; reflexivity|].
  split; [intros l m Hl Hm F T P; vm_compute in Hl; in_tac; vm_compute in P; discriminate P|].
  split; [intros d H; vm_compute in H; in_tac; vm_compute; discriminate|].
  split; [|split; vm_compute; reflexivity]. intros d H _; vm_compute in H; in_tac.
  - exists 0%nat. split; [unfold lsp_of, lsp_from, lsp_to; vm_compute; auto|]. unfold routed_lsp. vm_compute. do 3 eexists. reflexivity.
  - exists 2%nat. split; [unfold lsp_of, lsp_from, lsp_to; vm_compute; auto|]. unfold routed_lsp. vm_compute. do 3 eexists. reflexivity.
Qed.

(** Re-signalling over parallel links puts both on an LSP's path; its traffic leaves
    the node twice. *)
Definition twice : st := net [nd "A"; nd "B"]
  [itf "ab1" 1 20 0 1 1; itf "ba1" 1 20 1 0 1; itf "ab2" 5 40 0 1 2; itf "ba2" 5 40 1 0 2] [dmd 0 1 20 "d"] [lsp_ 0 1 "l0"; lspc 0 1 "l1" 50] [].
Definition twice2 : st := fst (update_simulation E0 Flex twice).
Lemma twice_run : update_simulation E0 Flex twice = (twice2, Ok tt). Proof. unfold twice2. apply run_split. vm_compute. reflexivity. Qed.
Theorem C90_parallel_refuted :
  ~ (forall E s s' n, env_ok E -> well_posed s -> if_keys_unique s -> NoDup (m_lsps s) ->
       update_simulation E Flex s = (s', Ok tt) -> same_failures s s' -> shortcuts_off s ->
       (outgoing s' n + sunk s' n == incoming s' n + sourced s' n)%Q).
Proof.
  intros H. specialize (H E0 twice twice2 "A"%string E0_ok).
  assert (P : well_posed twice) by (clear; posed0_tac). assert (K : if_keys_unique twice) by (clear; vm_compute; nodup_tac). assert (N : NoDup (m_lsps twice)) by (clear; vm_compute; nodup_tac).
  assert (S : same_failures twice twice2) by (clear; intros i H; vm_compute in H; in_tac; vm_compute; reflexivity).
  assert (O : shortcuts_off twice) by (clear; intros n H; vm_compute in H; in_tac; reflexivity).
  specialize (H P K N twice_run S O). clear - H. vm_compute in H. discriminate H.
Qed.
Print Assumptions C90_parallel_refuted.

(** With IGP shortcuts what a demand puts on an LSP is rounded. *)
Definition thin : st := net [nd_sc "A"; nd "B"; nd "C"] [itf "ab" 1 20 0 1 1; itf "ba" 1 20 1 0 1; itf "bc" 1 20 1 2 2; itf "cb" 1 20 2 1 2]
  [dmd 0 2 (1 # 10) "d"] [lsp_ 0 1 "l0"; lsp_ 0 1 "l1"] [].
Definition thin2 : st := fst (update_simulation E0 Flex thin).
Lemma thin_run : update_simulation E0 Flex thin = (thin2, Ok tt). Proof. unfold thin2. apply run_split. vm_compute. reflexivity. Qed.
Theorem C90_shortcuts_refuted :
  ~ (forall E s s' n, env_ok E -> well_posed s -> ends_known s -> cids_set Flex s -> lsps_usual Flex s -> ample s -> ends_agree Flex s ->
       update_simulation E Flex s = (s', Ok tt) -> (outgoing s' n + sunk s' n == incoming s' n + sourced s' n)%Q).
Proof.
  intros H. specialize (H E0 thin thin2 "B"%string E0_ok).
  assert (P : well_posed thin) by (clear; posed0_tac). assert (K : ends_known thin) by (clear; known_tac). assert (C : cids_set Flex thin) by (clear; cids_tac).
  assert (U : lsps_usual Flex thin) by (clear; usual_tac; clear; ntexts_tac). assert (Am : ample thin) by (clear; intros i H F R; vm_compute in H; in_tac; vm_compute; discriminate).
  assert (EA : ends_agree Flex thin) by (clear; agree_tac). specialize (H P K C U Am EA thin_run). clear - H. vm_compute in H. discriminate H.
Qed.
Print Assumptions C90_shortcuts_refuted.
