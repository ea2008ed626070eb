(** PropertiesOwn.v - which objects calls can change, and that outages leave no
    traces (C84, C85). *)
From Verif Require Import Base Graph Objects Sim Api Spec SpecMetric SpecFresh SpecWhatIf SpecOwn GraphProofs QuietProofs IndepProofs WhatIf OwnProofs OwnApi Build Nets PropertiesIndep.

(** ** C84 *)
(** Any history of calls *)
Theorem C84_frame E k s ops : own_groups s ->
  touched (flat_map given_ifs ops) (flat_map given_nodes ops) (flat_map given_lsps ops) s (run_ops E k ops s).
Proof.
  intros G. apply history_touched; auto. intros o Ho. split; [|split]; intros x Hx; apply in_flat_map; eauto.
Qed.
Print Assumptions C84_frame.

(** The condition on the cached groups holds at the start and stays *)
Theorem C84_groups E k ops : own_groups init_st /\ forall s, own_groups s -> own_groups (run_ops E k ops s).
Proof.
  split; [intros key ls l []|]. intros s G. eapply history_touched; auto. intros o Ho.
  split; [|split]; intros x Hx; [apply (in_flat_map given_ifs ops)|apply (in_flat_map given_nodes ops)|apply (in_flat_map given_lsps ops)]; eauto.
Qed.
Print Assumptions C84_groups.

(** Histories of simulations, validations, failures and repairs *)
Theorem C84_outages E k s ops : (forall o, In o ops -> outage_op s o) ->
  within s (run_ops E k ops s) /\ node_flags_only s (run_ops E k ops s) /\
  forall l, snd (mstep (mstate_of (h_ls (run_ops E k ops s) l)) MRead) = snd (mstep (mstate_of (h_ls s l)) MRead).
Proof.
  intros H. destruct (steady_history E k s ops s H (steady_refl s)) as [A B C]. split; [exact A|]. split; [|intros l; now apply read_omm].
  intros n. rewrite (B n). repeat split.
Qed.
Print Assumptions C84_outages.

(** A node that is not in the model, and an LSP of another model *)
Definition flex1_more : st := bump_next (upd_nd (s_next flex1) (fun _ => nd "Z") flex1).
Definition some_calls : list op :=
  [OpUpdate; OpFailNode "A"; OpUpdate; OpUnfailNode "A"; OpAddDemand "C" "B" 4 "new"; OpAddNode 0; OpIfToSrlg 4 "g" false; OpFailSrlg "g"; OpUpdate].
Example C84_example : own_groups flex1_more /\ ~ In (s_next flex1) (m_nds flex1_more) /\ ~ In (s_next flex1) (flat_map given_nodes some_calls) /\
  List.length (m_dms (run_ops E0 Flex some_calls flex1_more)) = 4%nat /\ i_failed (h_if (run_ops E0 Flex some_calls flex1_more) 4) = true /\
  (forall o, In o [OpUpdate; OpFailNode "A"; OpUpdate; OpUnfailNode "A"; OpIfFail 2] -> outage_op flex1 o).
Proof.
  split; [intros key ls l []|]. split; [vm_compute; intuition discriminate|]. split; [vm_compute; intuition discriminate|].
  split; [vm_compute; reflexivity|]. split; [vm_compute; reflexivity|]. intros o H. simpl in H. in_tac; vm_compute; auto.
Qed.

(** ** C85 *)
(** Two histories of outages of one model that end with the same interfaces and
    nodes failed lead to the same simulation. *)
Theorem C85_no_traces E k s l1 l2 : (forall o, In o l1 -> outage_op s o) -> (forall o, In o l2 -> outage_op s o) ->
  same_outage s (run_ops E k l1 s) (run_ops E k l2 s) ->
  (k = Perf -> forall i, In i (m_ifs s) -> i_cid (h_if (run_ops E k l2 s) i) = i_cid (h_if (run_ops E k l1 s) i)) ->
  same_draws E (run_ops E k l1 s) (run_ops E k l2 s) ->
  exists a b r, update_simulation E k (run_ops E k l1 s) = (a, r) /\ update_simulation E k (run_ops E k l2 s) = (b, r) /\
    SpecFresh.same_results a b /\ (r = Ok tt -> same_details a b).
Proof.
  intros H1 H2 [FI FN] CI D. apply C17_independent; [|exact D]. now apply outages_same_input.
Qed.
Print Assumptions C85_no_traces.

(** In particular the model simulates as if nothing had happened once everything
    that was taken down is up again *)
Theorem C85_restored E k s ops : (forall o, In o ops -> outage_op s o) ->
  same_outage s s (run_ops E k ops s) ->
  (k = Perf -> forall i, In i (m_ifs s) -> i_cid (h_if (run_ops E k ops s) i) = i_cid (h_if s i)) ->
  same_draws E s (run_ops E k ops s) ->
  exists a b r, update_simulation E k s = (a, r) /\ update_simulation E k (run_ops E k ops s) = (b, r) /\
    SpecFresh.same_results a b /\ (r = Ok tt -> same_details a b).
Proof. intros H FI CI D. apply (C85_no_traces E k s [] ops); auto. intros o []. Qed.
Print Assumptions C85_restored.

Definition round_trip : list op :=
  [OpUpdate; OpFailIf "ab1" "A"; OpUpdate; OpFailNode "B"; OpUpdate; OpUnfailNode "B"; OpUpdate; OpFailSrlg "g"; OpUnfailSrlg "g"].
Ltac outage_tac := let o := fresh in let H := fresh in intros o H; simpl in H; in_tac; vm_compute; auto.
Ltac flags_tac := split; let x := fresh in let H := fresh in intros x H; vm_compute in H; in_tac; vm_compute; reflexivity.
Example C85_example : (forall o, In o round_trip -> outage_op flex1 o) /\ same_outage flex1 flex1 (run_ops E0 Flex round_trip flex1) /\
  same_draws E0 flex1 (run_ops E0 Flex round_trip flex1) /\
  i_traffic (h_if (run_ops E0 Flex (firstn 3 round_trip) flex1) 2) <> i_traffic (h_if (fst (update_simulation E0 Flex flex1)) 2) /\
  l_path (h_ls (run_ops E0 Flex [OpFailIf "ab1" "A"; OpFailIf "ab2" "A"; OpUpdate] flex1) 0) <> l_path (h_ls (fst (update_simulation E0 Flex flex1)) 0).
Proof.
  split; [outage_tac|]. split; [flags_tac|]. split; [intros n; vm_compute; reflexivity|]. split; vm_compute; discriminate.
Qed.
Definition perf1_done : st := fst (update_simulation E0 Perf perf1).
Example C85_example_perf : (forall o, In o round_trip -> outage_op perf1_done o) /\ same_outage perf1_done perf1_done (run_ops E0 Perf round_trip perf1_done) /\
  (forall i, In i (m_ifs perf1_done) -> i_cid (h_if (run_ops E0 Perf round_trip perf1_done) i) = i_cid (h_if perf1_done i)) /\
  same_draws E0 perf1_done (run_ops E0 Perf round_trip perf1_done).
Proof.
  split; [outage_tac|]. split; [flags_tac|]. split; [|intros n; vm_compute; reflexivity]. intros i H; vm_compute in H; in_tac; vm_compute; reflexivity.
Qed.
