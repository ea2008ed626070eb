(** PropertiesTotal.v - models with LSPs: when update_simulation succeeds (C88). *)
From Verif Require Import Base Graph Objects Sim Api Build Spec SpecHist SpecCkt SpecSim SpecMetric SpecSig SpecFlow SpecOrder SpecShort SpecTotal Nets GraphProofs PropertiesRoute PropertiesOrder LspExact.

(** ** C88 When update_simulation succeeds with LSPs *)
Theorem C88_succeeds_exactly E k s : env_ok E -> well_posed s -> ends_known s -> cids_set k s -> lsps_usual k s -> never_split s ->
  ((exists s', update_simulation E k s = (s', Ok tt)) <-> demands_fine s /\ lsps_fine s /\ fit k (unreserved s)).
Proof. exact (succeeds_never E k s). Qed.
Print Assumptions C88_succeeds_exactly.

(** in particular with at most one LSP from a node to another *)
Theorem C88_one_per_pair E k s : env_ok E -> well_posed s -> ends_known s -> cids_set k s -> lsps_usual k s -> lone s ->
  ((exists s', update_simulation E k s = (s', Ok tt)) <-> demands_fine s /\ lsps_fine s /\ fit k (unreserved s)).
Proof. exact (succeeds_lone E k s). Qed.
Print Assumptions C88_one_per_pair.

(** and with room for all LSPs on every interface they may use *)
Theorem C88_room_for_all E k s : env_ok E -> well_posed s -> ends_known s -> cids_set k s -> lsps_usual k s -> ample s ->
  ((exists s', update_simulation E k s = (s', Ok tt)) <-> demands_fine s /\ lsps_fine s /\ fit k (unreserved s)).
Proof. exact (succeeds_ample E k s). Qed.
Print Assumptions C88_room_for_all.

(** In that case every LSP takes a way of its own choice, whatever the others do,
    and an LSP is Unrouted only when there is no way at all. *)
Theorem C88_own_way E k s s' l : env_ok E -> well_posed s -> ends_known s -> lsps_usual k s -> ample s ->
  update_simulation E k s = (s', Ok tt) -> In l (m_lsps s) ->
  (exists p b q, l_path (h_ls s' l) = PRouted p (route_cost s p) b /\ best_road s l p /\ l_res (h_ls s' l) = RNum q /\ (q == wanted s l (equal_share s l))%Q) \/
  (l_path (h_ls s' l) = PUnrouted /\ l_res (h_ls s' l) = RUnrouted /\ forall p, ~ road s l p).
Proof. intros HE WP EK LU Am Up Hl. exact (placed E k HE s s' WP LU EK Up l Am Hl). Qed.
Print Assumptions C88_own_way.

(** *** Concrete models *)
Ltac tenths_tac := first [exists 30%Z; reflexivity|exists 60%Z; reflexivity|exists 100%Z; reflexivity|exists 200%Z; reflexivity|exists 500%Z; reflexivity|exists 1000%Z; reflexivity|exists 50%Z; reflexivity|exists 0%Z; reflexivity].
Ltac once_tac := vm_compute; repeat first [apply NoDup_nil | apply NoDup_cons; [simpl; intuition discriminate|]].
Ltac usual_tac := apply Build_lsps_usual;
  [once_tac|once_tac|intros d H; vm_compute in H; in_tac; vm_compute; discriminate
  |intros l c H Hc; vm_compute in H; in_tac; vm_compute in Hc; first [discriminate Hc|injection Hc as <-; discriminate]
  |intros l H; vm_compute in H; in_tac; tenths_tac
  |intros i H; vm_compute in H; in_tac; (split; [tenths_tac|split; [discriminate|split; discriminate]])
  |intros l c H Hc; vm_compute in H; in_tac; vm_compute in Hc; first [discriminate Hc|injection Hc as <-; reflexivity]
  |intros Hk; try discriminate Hk; intros Hn; try (exfalso; clear - Hn; destruct Hn as (n & Hn & Hs); vm_compute in Hn; in_tac; vm_compute in Hs; discriminate Hs)].
Ltac cids_tac := first [intros _ i H; vm_compute in H; in_tac; vm_compute; discriminate|intros H; discriminate H].

Lemma bare_fit E k s s' : env_ok E -> well_posed (bare s) -> ends_known (bare s) -> cids_set k (bare s) -> update_simulation E k (bare s) = (s', Ok tt) -> fit k (unreserved s).
Proof. intros HE WP EK CS H. exact (proj2 (proj1 (C67_succeeds_exactly E k (bare s) HE eq_refl WP EK CS) (ex_intro _ s' H))). Qed.

(** two LSPs between the same nodes, room for both *)
Example C88_example_room : well_posed flex1 /\ ends_known flex1 /\ cids_set Flex flex1 /\ lsps_usual Flex flex1 /\ ample flex1 /\ ~ lone flex1 /\
  snd (update_simulation E0 Flex flex1) = Ok tt.
Proof.
  split; [exact flex1_posed|]. split; [known_tac|]. split; [cids_tac|]. split; [usual_tac|]. split; [|split; [|exact flex1_runs]].
  - intros i H F R. vm_compute in H; in_tac; vm_compute; discriminate.
  - intros L. discriminate (L 0%nat 1%nat ltac:(vm_compute; auto) ltac:(vm_compute; auto) eq_refl eq_refl).
Qed.

(** one LSP per pair of nodes, too little room on the short way, an IGP shortcut,
    a configured metric and an LSP that cannot be routed *)
Definition tight : st := net [nd_sc "A"; nd "B"; nd "C"; nd "D"]
  [itf "ab" 1 5 0 1 1; itf "ba" 1 5 1 0 1; itf "bc" 1 50 1 2 2; itf "cb" 1 50 2 1 2; itf "ac" 3 50 0 2 3; itf "ca" 3 50 2 0 3]
  [dmd 0 2 10 "d0"; dmd 0 1 5 "d1"; dmd 1 0 3 "d2"]
  [mkLsp 0 2 "l0" PInit RInit RInit None None (Some 7); mkLsp 0 1 "l1" PInit RInit RInit (Some 10%Q) None None; mkLsp 0 3 "l2" PInit RInit RInit None None None] [].
Example C88_example_lone : well_posed tight /\ ends_known tight /\ cids_set Flex tight /\ lsps_usual Flex tight /\ lone tight /\
  demands_fine tight /\ lsps_fine tight /\ fit Flex (unreserved tight) /\
  snd (update_simulation E0 Flex tight) = Ok tt /\ l_path (h_ls (fst (update_simulation E0 Flex tight)) 0) = PRouted [4%nat] 3 (500 # 10) /\
  l_path (h_ls (fst (update_simulation E0 Flex tight)) 2) = PUnrouted.
Proof.
  split; [posed0_tac|]. split; [known_tac|]. split; [cids_tac|]. split.
  { usual_tac. clear Hn. intros a b a' b' Ha Hb Ha' Hb'; vm_compute in Ha, Ha', Hb, Hb'; in_tac; vm_compute; intros X; try discriminate X; auto. }
  split; [intros l m Hl Hm; vm_compute in Hl, Hm; in_tac; vm_compute; intros A B; reflexivity || discriminate|].
  split; [intros d H; vm_compute in H; in_tac; vm_compute; (split; [auto 10|discriminate])|].
  split; [intros d H; vm_compute in H; in_tac; vm_compute; (split; [auto 10|discriminate])|].
  split.
  { assert (X : snd (update_simulation E0 Flex (bare tight)) = Ok tt) by (vm_compute; reflexivity).
    apply (bare_fit E0 Flex tight _ E0_ok) with (4 := run_split _ _ X); [clear; posed0_tac|clear; known_tac|clear; cids_tac]. }
  split; [vm_compute; reflexivity|]. split; vm_compute; reflexivity.
Qed.

(** each condition is needed: an LSP to its own source, and an LSP from a node
    outside the model *)
Definition selfl : st := net [nd "A"; nd "B"] [itf "ab" 1 10 0 1 1; itf "ba" 1 10 1 0 1] [] [lsp_ 0 0 "l"] [].
Definition strayl : st := set_nds [0%nat; 1%nat] (net [nd "A"; nd "B"; nd "C"] [itf "ab" 1 10 0 1 1; itf "ba" 1 10 1 0 1] [] [lsp_ 2 0 "l"] []).
Example C88_example_lsps :
  (well_posed selfl /\ ends_known selfl /\ cids_set Perf selfl /\ lsps_usual Perf selfl /\ lone selfl /\ ~ lsps_fine selfl /\ snd (update_simulation E0 Perf selfl) <> Ok tt) /\
  (well_posed strayl /\ ends_known strayl /\ cids_set Perf strayl /\ lsps_usual Perf strayl /\ lone strayl /\ ~ lsps_fine strayl /\ snd (update_simulation E0 Perf strayl) <> Ok tt).
Proof.
  split; (split; [posed0_tac|]); (split; [known_tac|]); (split; [cids_tac|]); (split; [usual_tac|]);
    (split; [intros l m Hl Hm; vm_compute in Hl, Hm; in_tac; reflexivity|]); (split; [|vm_compute; discriminate]); intros D; destruct (D 0%nat) as [A B]; try (vm_compute; tauto).
  vm_compute in A. in_tac; discriminate.
Qed.

(** With several LSPs between two nodes of which only some fit, update_simulation
    may reject its own reservations. *)
Theorem C88_any_model_refuted :
  ~ (forall E k s, env_ok E -> well_posed s -> ends_known s -> cids_set k s -> lsps_usual k s -> demands_fine s -> lsps_fine s -> fit k (unreserved s) ->
       exists s', update_simulation E k s = (s', Ok tt)).
Proof.
  set (lc := fun name c => mkLsp 0 1 name PInit RInit RInit (Some c) None None).
  set (n := net [nd "A"; nd "B"; nd "C"]
    [itf "ab" 2 20 0 1 1; itf "ba" 2 20 1 0 1; itf "ac" 1 20 0 2 2; itf "ca" 1 20 2 0 2; itf "cb" 1 20 2 1 3; itf "bc" 1 20 1 2 3]
    [dmd 0 1 10 "d"] [lc "l0" 10%Q; lc "l1" 50%Q] []).
  set (E1 := env_impl (fun _ => 1%nat)). intros H.
  assert (P : well_posed n) by (clear; posed0_tac). assert (K : ends_known n) by (clear; known_tac). assert (CI : cids_set Perf n) by (clear; cids_tac).
  assert (LU : lsps_usual Perf n) by (clear; usual_tac).
  assert (D : demands_fine n) by (clear; intros d H; vm_compute in H; in_tac; vm_compute; split; [auto|discriminate]).
  assert (L : lsps_fine n) by (clear; intros d H; vm_compute in H; in_tac; vm_compute; (split; [auto|discriminate])).
  assert (F : fit Perf (unreserved n)).
  { clear H. assert (X : snd (update_simulation E0 Perf (bare n)) = Ok tt) by (vm_compute; reflexivity).
    apply (bare_fit E0 Perf n _ E0_ok) with (4 := run_split _ _ X); [clear; posed0_tac|clear; known_tac|clear; cids_tac]. }
  destruct (H E1 Perf n (env_impl_ok _) P K CI LU D L F) as (s' & U). apply (f_equal snd) in U. clear - U. vm_compute in U. discriminate U.
Qed.
Print Assumptions C88_any_model_refuted.
