(** PropertiesFloat.v - the simulation in floating point arithmetic. *)
From Verif Require Import Base Graph Objects Sim Api Build Spec SpecHist SpecCkt SpecSim SpecOrder SpecFloat Float Nets GraphProofs MonadProofs PropertiesRoute PropertiesOrder PropertiesMore FloatNearest FloatMain FloatErr FloatQuery.
From Verif Require FloatSim.
From Coq Require Floats.SpecFloat.
From Coq Require Import Lqa.

(** ** The arithmetic *)
Theorem C104_nearest x : nearest_float x (fl x).
Proof. exact (fl_nearest x). Qed.
Print Assumptions C104_nearest.
(** against the description of binary64 in the standard library: 1/10, 7/3, 1/49*49, 0.1+0.2, 0.1*3 *)
Definition sf_value (x : Floats.SpecFloat.spec_float) : Q :=
  match x with
  | Floats.SpecFloat.S754_finite sg m e => ((if sg then -1 else 1) * inject_Z (Zpos m) * pow2 e)%Q
  | _ => 0%Q
  end.
Definition sf_int (n : Z) : Floats.SpecFloat.spec_float := Floats.SpecFloat.binary_normalize 53 1024 n 0 false.
Definition sf_div := Floats.SpecFloat.SFdiv 53 1024.
Definition sf_add := Floats.SpecFloat.SFadd 53 1024.
Definition sf_mul := Floats.SpecFloat.SFmul 53 1024.
Example C104_example_arithmetic :
  (sf_value (sf_div (sf_int 1) (sf_int 10)) == fl (1 # 10))%Q /\
  (sf_value (sf_div (sf_int 7) (sf_int 3)) == fl (7 # 3))%Q /\
  (sf_value (sf_mul (sf_div (sf_int 1) (sf_int 49)) (sf_int 49)) == fl (fl (1 # 49) * 49))%Q /\
  (sf_value (sf_add (sf_div (sf_int 1) (sf_int 10)) (sf_div (sf_int 2) (sf_int 10))) == fl (fl (1 # 10) + fl (2 # 10)))%Q /\
  (sf_value (sf_mul (sf_div (sf_int 1) (sf_int 10)) (sf_int 3)) == fl (fl (1 # 10) * 3))%Q /\
  ~ (fl (fl (1 # 49) * 49) == 1)%Q /\ ~ (fl (fl (1 # 10) + fl (2 # 10)) == fl (3 # 10))%Q.
Proof. repeat split; vm_compute; first [reflexivity|discriminate]. Qed.

(** ** C104 Without LSPs *)
(** If the simulation with exact arithmetic succeeds, so does the one with floats, and all
    paths, failures, circuits and reservations are the same. *)
Theorem C104_routes E k s s' : env_ok E -> m_lsps s = [] -> well_posed s -> ends_known s -> cids_set k s ->
  (forall i, In i (m_ifs s) -> (0 <= i_cap (h_if s i))%Q /\ (0 <= i_pct (h_if s i))%Q) ->
  update_simulation E k s = (s', Ok tt) ->
  exists t', FloatSim.update_simulation fl E k s = (t', Ok tt) /\ same_routes s' t'.
Proof. exact (free_routes E k s s'). Qed.
Print Assumptions C104_routes.

(** In a FlexModel the traffic of interfaces and paths differs by rounding errors only. *)
Theorem C104_traffic E s s' : env_ok E -> m_lsps s = [] -> well_posed s -> ends_known s -> cids_set Flex s ->
  (forall i, In i (m_ifs s) -> (0 <= i_cap (h_if s i))%Q /\ (0 <= i_pct (h_if s i))%Q) ->
  (forall d, In d (m_dms s) -> (0 <= d_traffic (h_dm s d))%Q) ->
  update_simulation E Flex s = (s', Ok tt) -> (Z.of_nat (3 + all_paths s' (m_dms s')) <= 2 ^ 52)%Z ->
  exists t', FloatSim.update_simulation fl E Flex s = (t', Ok tt) /\ same_routes s' t' /\
    close_traffic (3 + all_paths s' (m_dms s')) s' t' /\ close_details 3 s' t'.
Proof. intros HE NL WP EK CS Pos P U B. exact (free_traffic E Flex s s' HE NL WP EK CS Pos U eq_refl P B). Qed.
Print Assumptions C104_traffic.

(** Errors are the same: the float simulation raises an exception when the exact one does, and
    the same one. *)
Theorem C104_errors E k s e : env_ok E -> m_lsps s = [] -> well_posed s -> ends_known s -> cids_set k s ->
  (forall i, In i (m_ifs s) -> (0 <= i_cap (h_if s i))%Q /\ (0 <= i_pct (h_if s i))%Q) ->
  ((exists s', update_simulation E k s = (s', Err e)) <-> (exists t', FloatSim.update_simulation fl E k s = (t', Err e))).
Proof. exact (free_errors E k s e). Qed.
Print Assumptions C104_errors.
(** a demand from a node to itself, a demand from a node outside the model, a link in one direction,
    and a circuit with different capacities *)
Definition oneway1 : st := net [nd "A"; nd "B"] [itf "ab" 1 10 0 1 1] [] [] [].
Definition uneven1 : st := net [nd "A"; nd "B"] [itf "ab" 1 (3 # 10) 0 1 1; itf "ba" 1 10 1 0 1] [dmd 0 1 (1 # 10) "d"] [] [].
Definition err_ready (s : st) : Prop := m_lsps s = [] /\ well_posed s /\ ends_known s /\ cids_set Flex s /\
  (forall i, In i (m_ifs s) -> (0 <= i_cap (h_if s i))%Q /\ (0 <= i_pct (h_if s i))%Q).
Ltac err_tac := split; [reflexivity|]; split; [posed0_tac|]; split; [known_tac|]; split; [intros _ i H; vm_compute in H; in_tac; vm_compute; discriminate|];
  intros i H; vm_compute in H; in_tac; split; vm_compute; discriminate.
Example C104_errors_example : err_ready self1 /\ err_ready stray1 /\ err_ready oneway1 /\ err_ready uneven1 /\
  snd (update_simulation E0 Flex self1) = Err ValueError /\ snd (update_simulation E0 Flex stray1) = Err NodeNotFound /\
  (exists m, snd (update_simulation E0 Flex oneway1) = Err (ModelException m)) /\ snd (update_simulation E0 Flex uneven1) = Err (ValidationException [VCapacity]).
Proof.
  split; [err_tac|]. split; [err_tac|]. split; [err_tac|]. split; [err_tac|]. split; [vm_compute; reflexivity|]. split; [vm_compute; reflexivity|].
  split; [eexists; vm_compute; reflexivity|]. vm_compute. reflexivity.
Qed.

(** Ten links from A to B, one from B to C, traffic of 1 from A to C *)
Definition link_ab (n : Z) (x : string) : list iface := [itf (String.append "ab" x) 1 10 0 1 n; itf (String.append "ba" x) 1 10 1 0 n].
Definition ten1 : st := net [nd "A"; nd "B"; nd "C"]
  (link_ab 1 "1" ++ link_ab 2 "2" ++ link_ab 3 "3" ++ link_ab 4 "4" ++ link_ab 5 "5" ++ link_ab 6 "6" ++ link_ab 7 "7" ++ link_ab 8 "8" ++ link_ab 9 "9" ++ link_ab 10 "x" ++
   [itf "bc" 1 10 1 2 11; itf "cb" 1 10 2 1 11])%list
  [dmd 0 2 1 "d"; dmd 0 1 3 "e"] [] [].
Definition ten2 : st := fst (update_simulation E0 Flex ten1).
Lemma ten_run : update_simulation E0 Flex ten1 = (ten2, Ok tt). Proof. unfold ten2. apply run_split. vm_compute. reflexivity. Qed.
Definition ten3 : st := fst (FloatSim.update_simulation fl E0 Flex ten1).
Lemma ten_float : FloatSim.update_simulation fl E0 Flex ten1 = (ten3, Ok tt). Proof. unfold ten3. apply run_split. vm_compute. reflexivity. Qed.
Lemma ten_posed : well_posed ten1. Proof. posed_vm. Qed.
Lemma ten_known : ends_known ten1. Proof. known_tac. Qed.
Lemma ten_cids : cids_set Flex ten1. Proof. intros _ i H. vm_compute in H. in_tac; vm_compute; discriminate. Qed.
Lemma ten_caps i : In i (m_ifs ten1) -> (0 <= i_cap (h_if ten1 i))%Q /\ (0 <= i_pct (h_if ten1 i))%Q.
Proof. intros H. vm_compute in H. in_tac; vm_compute; split; discriminate. Qed.
Lemma ten_demands d : In d (m_dms ten1) -> (0 <= d_traffic (h_dm ten1 d))%Q.
Proof. intros H. vm_compute in H. in_tac; vm_compute; discriminate. Qed.
Lemma ten_floats : (forall i, In i (m_ifs ten1) -> is_float (i_cap (h_if ten1 i)) /\ is_float (i_pct (h_if ten1 i))) /\ (forall d, In d (m_dms ten1) -> is_float (d_traffic (h_dm ten1 d))).
Proof.
  split; [intros i H; vm_compute in H; in_tac; (split; [exists 10%Z, 0%Z|exists 100%Z, 0%Z]); (split; [lia|vm_compute; reflexivity])|].
  intros d H; vm_compute in H; in_tac; [exists 1%Z, 0%Z|exists 3%Z, 0%Z]; (split; [lia|vm_compute; reflexivity]).
Qed.
Example C104_example : m_lsps ten1 = [] /\ well_posed ten1 /\ ends_known ten1 /\ cids_set Flex ten1 /\
  (forall i, In i (m_ifs ten1) -> (0 <= i_cap (h_if ten1 i))%Q /\ (0 <= i_pct (h_if ten1 i))%Q) /\ (forall d, In d (m_dms ten1) -> (0 <= d_traffic (h_dm ten1 d))%Q) /\
  update_simulation E0 Flex ten1 = (ten2, Ok tt) /\ all_paths ten2 (m_dms ten2) = 20%nat /\ (Z.of_nat (3 + 20) <= 2 ^ 52)%Z /\
  (exists q, i_traffic (h_if ten3 0) = TNum q /\ (q == fl (fl (1 # 10) + fl (3 # 10)))%Q) /\ (exists q, i_traffic (h_if ten2 0) = TNum q /\ (q == 4 # 10)%Q).
Proof.
  split; [reflexivity|]. split; [exact ten_posed|]. split; [exact ten_known|]. split; [exact ten_cids|]. split; [exact ten_caps|]. split; [exact ten_demands|]. split; [exact ten_run|].
  split; [vm_compute; reflexivity|]. split; [vm_compute; discriminate|]. split; eexists; (split; [vm_compute; reflexivity|vm_compute; reflexivity]).
Qed.

(** Paths asked for afterwards are the same. *)
Theorem C104_queries E k s s' : env_ok E -> m_lsps s = [] -> well_posed s -> ends_known s -> cids_set k s ->
  (forall i, In i (m_ifs s) -> (0 <= i_cap (h_if s i))%Q /\ (0 <= i_pct (h_if s i))%Q) ->
  update_simulation E k s = (s', Ok tt) -> same_failures s s' ->
  exists t', FloatSim.update_simulation fl E k s = (t', Ok tt) /\
    forall F u v, FloatSim.get_shortest_path fl F k t' u v 0 = get_shortest_path F k s' u v 0.
Proof. intros HE NL WP EK CS P U St. destruct (free_query E k s s' HE NL WP EK CS P U St) as (t' & R & _ & Q). eauto. Qed.
Print Assumptions C104_queries.
Lemma ten_failures : same_failures ten1 ten2.
Proof. intros i H. vm_compute in H. in_tac; vm_compute; reflexivity. Qed.
Example C104_queries_example : same_failures ten1 ten2 /\ exists c ps, get_shortest_path E0 Flex ten2 "A" "C" 0 = (c, ps) /\ List.length ps = 10%nat.
Proof. split; [exact ten_failures|]. do 2 eexists. split; vm_compute; reflexivity. Qed.

(** The amounts are not the exact ones: the link all traffic of a demand takes carries
    0.9999999999999999 instead of 1. *)
Theorem C104_exact_refuted :
  ~ (forall E s s' t' i q f, env_ok E -> m_lsps s = [] -> well_posed s -> ends_known s -> cids_set Flex s ->
       (forall i, In i (m_ifs s) -> (0 <= i_cap (h_if s i))%Q /\ (0 <= i_pct (h_if s i))%Q) -> (forall d, In d (m_dms s) -> (0 <= d_traffic (h_dm s d))%Q) ->
       (forall i, In i (m_ifs s) -> is_float (i_cap (h_if s i)) /\ is_float (i_pct (h_if s i))) -> (forall d, In d (m_dms s) -> is_float (d_traffic (h_dm s d))) ->
       update_simulation E Flex s = (s', Ok tt) -> FloatSim.update_simulation fl E Flex s = (t', Ok tt) ->
       In i (m_ifs s) -> i_traffic (h_if s' i) = TNum q -> i_traffic (h_if t' i) = TNum f -> is_float q -> (f == q)%Q).
Proof.
  intros H. assert (X : exists q, i_traffic (h_if ten2 20) = TNum q /\ (q == 1)%Q) by (clear; eexists; split; [vm_compute; reflexivity|vm_compute; reflexivity]).
  assert (Y : exists f, i_traffic (h_if ten3 20) = TNum f /\ ~ (f == 1)%Q) by (clear; eexists; split; [vm_compute; reflexivity|vm_compute; discriminate]).
  destruct X as (q & X & Q1). destruct Y as (f & Y & F1). apply F1. rewrite <- Q1. clear F1.
  apply (H E0 ten1 ten2 ten3 20%nat q f E0_ok eq_refl ten_posed ten_known ten_cids ten_caps ten_demands (proj1 ten_floats) (proj2 ten_floats) ten_run ten_float); [|exact X|exact Y|].
  - clear. vm_compute. auto 30.
  - exists 1%Z, 0%Z. split; [lia|]. rewrite Q1. reflexivity.
Qed.
Print Assumptions C104_exact_refuted.

(** The amounts of a PerformanceModel are rounded to a decimal, which may go the other way:
    0.3 over two ways is 0.2 on each with exact arithmetic, and 0.1 with floats. *)
Definition split1 : st := net [nd "A"; nd "B"; nd "C"; nd "D"]
  [itf "ab" 1 100 0 1 1; itf "ba" 1 100 1 0 1; itf "bd" 1 100 1 3 2; itf "db" 1 100 3 1 2; itf "ac" 1 100 0 2 3; itf "ca" 1 100 2 0 3; itf "cd" 1 100 2 3 4; itf "dc" 1 100 3 2 4]
  [dmd 0 3 (fl (3 # 10)) "d"] [] [].
Definition split2 : st := fst (update_simulation E0 Perf split1).
Lemma split_run : update_simulation E0 Perf split1 = (split2, Ok tt). Proof. unfold split2. apply run_split. vm_compute. reflexivity. Qed.
Definition split3 : st := fst (FloatSim.update_simulation fl E0 Perf split1).
Lemma split_float : FloatSim.update_simulation fl E0 Perf split1 = (split3, Ok tt). Proof. unfold split3. apply run_split. vm_compute. reflexivity. Qed.
Lemma split_posed : well_posed split1. Proof. posed_vm. Qed.
Lemma split_known : ends_known split1. Proof. known_tac. Qed.
Lemma split_caps i : In i (m_ifs split1) -> (0 <= i_cap (h_if split1 i))%Q /\ (0 <= i_pct (h_if split1 i))%Q.
Proof. intros H. vm_compute in H. in_tac; vm_compute; split; discriminate. Qed.
Lemma split_demands d : In d (m_dms split1) -> (0 <= d_traffic (h_dm split1 d))%Q.
Proof. intros H. vm_compute in H. in_tac; vm_compute; discriminate. Qed.
Theorem C104_perf_traffic_refuted :
  ~ (forall E s s' t' n, env_ok E -> m_lsps s = [] -> well_posed s -> ends_known s -> cids_set Perf s ->
       (forall i, In i (m_ifs s) -> (0 <= i_cap (h_if s i))%Q /\ (0 <= i_pct (h_if s i))%Q) -> (forall d, In d (m_dms s) -> (0 <= d_traffic (h_dm s d))%Q) ->
       update_simulation E Perf s = (s', Ok tt) -> FloatSim.update_simulation fl E Perf s = (t', Ok tt) ->
       (Z.of_nat n <= 2 ^ 50)%Z -> (all_paths s' (m_dms s') + 3 <= n)%nat -> close_traffic n s' t').
Proof.
  intros H. assert (X : exists q, i_traffic (h_if split2 0) = TNum q /\ (q == 2 # 10)%Q) by (clear; eexists; split; [vm_compute; reflexivity|vm_compute; reflexivity]).
  assert (Y : exists f, i_traffic (h_if split3 0) = TNum f /\ (f == fl (1 # 10))%Q) by (clear; eexists; split; [vm_compute; reflexivity|vm_compute; reflexivity]).
  destruct X as (q & X & Q1). destruct Y as (f & Y & F1).
  assert (C : cids_set Perf split1) by (intros Z; discriminate Z).
  assert (N : (all_paths split2 (m_dms split2) + 3 <= 5)%nat) by (clear; vm_compute; lia).
  assert (I0 : In 0%nat (m_ifs split2)) by (clear; vm_compute; auto).
  specialize (H E0 split1 split2 split3 5%nat E0_ok eq_refl split_posed split_known C split_caps split_demands split_run split_float ltac:(clear; vm_compute; discriminate) N 0%nat I0).
  rewrite X, Y in H. unfold within in H. rewrite Q1, F1 in H. vm_compute in H. apply H. reflexivity.
Qed.
Print Assumptions C104_perf_traffic_refuted.
Example C104_example_perf : m_lsps split1 = [] /\ well_posed split1 /\ ends_known split1 /\ cids_set Perf split1 /\
  (forall i, In i (m_ifs split1) -> (0 <= i_cap (h_if split1 i))%Q /\ (0 <= i_pct (h_if split1 i))%Q) /\ update_simulation E0 Perf split1 = (split2, Ok tt) /\
  d_path (h_dm split2 0) = DPaths [[IIf 0; IIf 2]; [IIf 4; IIf 6]]%nat.
Proof.
  split; [reflexivity|]. split; [exact split_posed|]. split; [exact split_known|]. split; [intros Z; discriminate Z|]. split; [exact split_caps|]. split; [exact split_run|].
  vm_compute. reflexivity.
Qed.
(** Amounts of a PerformanceModel: 10 over three ways is 3.3333 for each way in path_detail and 3.3 on
    the interfaces, as floats; 0.1 and 0.2 on one link are 0.30000000000000004. *)
Definition three1 : st := net [nd "A"; nd "B"; nd "C"; nd "D"]
  [itf "ab" 1 100 0 1 1; itf "ba" 1 100 1 0 1; itf "bd" 1 100 1 3 2; itf "db" 1 100 3 1 2; itf "ac" 1 100 0 2 3; itf "ca" 1 100 2 0 3; itf "cd" 1 100 2 3 4; itf "dc" 1 100 3 2 4;
   itf "ad" 2 100 0 3 5; itf "da" 2 100 3 0 5] [dmd 0 3 10 "d"] [] [].
Definition three3 : st := fst (FloatSim.update_simulation fl E0 Perf three1).
Definition sum1 : st := net [nd "A"; nd "B"] [itf "ab" 1 100 0 1 1; itf "ba" 1 100 1 0 1] [dmd 0 1 (1 # 10) "d1"; dmd 0 1 (2 # 10) "d2"] [] [].
Definition sum3 : st := fst (FloatSim.update_simulation fl E0 Perf sum1).
Example C104_example_perf_amounts : (exists xs, d_detail (h_dm three3 0) = PDInfo xs /\ List.length xs = 3%nat /\ Forall (fun x => pi_traffic x == fl (33333 # 10000))%Q xs) /\
  (exists f, i_traffic (h_if three3 0) = TNum f /\ (f == fl (33 # 10))%Q) /\ (exists f, i_traffic (h_if sum3 0) = TNum f /\ (f == fl (fl (1 # 10) + fl (2 # 10)))%Q /\ ~ (f == fl (3 # 10))%Q).
Proof.
  split; [eexists; split; [vm_compute; reflexivity|split; [reflexivity|]]; repeat constructor|].
  split; [eexists; split; [vm_compute; reflexivity|vm_compute; reflexivity]|]. eexists. split; [vm_compute; reflexivity|]. split; [vm_compute; reflexivity|vm_compute; discriminate].
Qed.
