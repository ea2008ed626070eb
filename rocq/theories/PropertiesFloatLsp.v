(** PropertiesFloatLsp.v - LSPs in a simulation in floating point arithmetic. *)
From Verif Require Import Base Graph Objects Sim Api Build Spec SpecHist SpecCkt SpecSim SpecOrder SpecFloat SpecSig Float Nets GraphProofs MonadProofs PropertiesRoute PropertiesOrder PropertiesSignal PropertiesMore FloatNearest FloatLsps FloatQuery.
From Verif Require FloatSim.
From Coq Require Import Lqa.

(** ** C105 With LSPs and amounts in steps of a half *)
(** If the simulation with exact arithmetic succeeds, so does the one with floats, and all
    paths of LSPs and demands, reservations, failures and circuits are the same. *)
Theorem C105_routes E k s s' B : env_ok E -> well_posed s -> NoDup (m_lsps s) -> in_halves B s ->
  update_simulation E k s = (s', Ok tt) ->
  exists t', FloatSim.update_simulation fl E k s = (t', Ok tt) /\ same_routes s' t'.
Proof. exact (halves_routes E k s s' B). Qed.
Print Assumptions C105_routes.

(** In a FlexModel without IGP shortcuts the traffic differs by rounding errors only. *)
Theorem C105_traffic E s s' B : env_ok E -> well_posed s -> NoDup (m_lsps s) -> in_halves B s ->
  update_simulation E Flex s = (s', Ok tt) -> same_failures s s' -> (forall d, In d (m_dms s) -> no_shortcuts_for Flex s' d) ->
  (Z.of_nat (3 + all_paths s' (m_dms s')) <= 2 ^ 52)%Z ->
  exists t', FloatSim.update_simulation fl E Flex s = (t', Ok tt) /\ same_routes s' t' /\
    close_traffic (3 + all_paths s' (m_dms s')) s' t' /\ close_details 3 s' t'.
Proof. intros HE WP NL HB U St NS Bd. exact (halves_traffic E Flex s s' B HE WP NL HB U eq_refl St NS Bd). Qed.
Print Assumptions C105_traffic.

(** Two LSPs for the same traffic of 20, one of them configured with 25, and a link of 24:
    the other is routed for 10 and then asks for all 20.  A third LSP shares the link of 24
    with a percentage of 12.5 elsewhere; traffic of 7 takes three equal ways. *)
Definition res1 : st := net [nd "A"; nd "B"; nd "C"; nd "D"; nd "E"]
  [itf "ab" 1 24 0 1 1; itf "ba" 1 24 1 0 1; mkIface "bc" 1 20 1 2 (CInt 2) (TNum 0) false 0 [] true (25 # 2) false; itf "cb" 1 20 2 1 2;
   itf "ac" 3 100 0 2 3; itf "ca" 3 100 2 0 3; itf "cd1" 1 9 2 3 4; itf "dc1" 1 9 3 2 4; itf "cd2" 1 9 2 3 5; itf "dc2" 1 9 3 2 5; itf "cd3" 1 9 2 3 6; itf "dc3" 1 9 3 2 6;
   itf "de" 1 90 3 4 7; itf "ed" 1 90 4 3 7]
  [dmd 0 1 (25 # 2) "d1"; dmd 0 1 (15 # 2) "d2"; dmd 1 2 (3 # 2) "d3"; dmd 2 4 7 "d4"]
  [lspc 0 1 "big" 25; lsp_ 0 1 "free"; lsp_ 1 2 "half"] [].
Definition res2 : st := fst (update_simulation E0 Flex res1).
Lemma res_run : update_simulation E0 Flex res1 = (res2, Ok tt). Proof. unfold res2. apply run_split. vm_compute. reflexivity. Qed.
Definition res3 : st := fst (FloatSim.update_simulation fl E0 Flex res1).
Lemma res_float : FloatSim.update_simulation fl E0 Flex res1 = (res3, Ok tt). Proof. unfold res3. apply run_split. vm_compute. reflexivity. Qed.
Lemma res_posed : well_posed res1. Proof. posed_vm. Qed.
Lemma res_once : NoDup (m_lsps res1). Proof. vm_compute. nodup_tac. Qed.
Ltac half_tac z := exists z; vm_compute; reflexivity.
Lemma res_halves : in_halves 25 res1.
Proof.
  constructor.
  - intros i H. vm_compute in H. in_tac; (split; [vm_compute; discriminate|]); (split; [vm_compute; discriminate|]); (split; [|vm_compute; discriminate]);
      first [half_tac 48%Z|half_tac 5%Z|half_tac 40%Z|half_tac 200%Z|half_tac 18%Z|half_tac 180%Z].
  - intros d H. vm_compute in H. in_tac; (split; [|vm_compute; discriminate]); first [half_tac 25%Z|half_tac 15%Z|half_tac 3%Z|half_tac 14%Z].
  - intros l n H N. vm_compute in H. in_tac; vm_compute in N; (assert (X : n = 1%nat \/ n = 2%nat) by lia); destruct X as [->| ->]; try lia; first [half_tac 40%Z|half_tac 20%Z|half_tac 3%Z].
  - intros l H. vm_compute in H. in_tac; vm_compute; discriminate.
  - intros l x H C. vm_compute in H. in_tac; vm_compute in C; try discriminate. injection C as <-. split; [half_tac 50%Z|]. split; vm_compute; discriminate.
  - split; vm_compute; discriminate.
Qed.
Lemma res_failures : same_failures res1 res2.
Proof. intros i H. vm_compute in H. in_tac; vm_compute; reflexivity. Qed.
Lemma res_shortcuts d : no_shortcuts_for Flex res2 d.
Proof. intros _ p a n b m l _ Hn Hs. exfalso. vm_compute in Hn. in_tac; vm_compute in Hs; discriminate. Qed.
Example C105_example : env_ok E0 /\ well_posed res1 /\ NoDup (m_lsps res1) /\ in_halves 25 res1 /\ update_simulation E0 Flex res1 = (res2, Ok tt) /\ same_failures res1 res2 /\
  (forall d, In d (m_dms res1) -> no_shortcuts_for Flex res2 d) /\ (Z.of_nat (3 + all_paths res2 (m_dms res2)) <= 2 ^ 52)%Z /\
  l_path (h_ls res2 0) = PUnrouted /\ (exists c b q, l_path (h_ls res2 1) = PRouted [0%nat] c b /\ l_res (h_ls res2 1) = RNum q /\ (q == 20)%Q) /\
  (exists c b q, l_path (h_ls res2 2) = PRouted [2%nat] c b /\ l_res (h_ls res2 2) = RNum q /\ (q == 3 # 2)%Q) /\
  (exists f, i_traffic (h_if res3 6) = TNum f /\ (f == fl (7 # 3))%Q).
Proof.
  split; [exact E0_ok|]. split; [exact res_posed|]. split; [exact res_once|]. split; [exact res_halves|]. split; [exact res_run|]. split; [exact res_failures|].
  split; [intros d _; apply res_shortcuts|]. split; [vm_compute; discriminate|]. split; [vm_compute; reflexivity|].
  split; [do 3 eexists; (split; [vm_compute; reflexivity|]); (split; [vm_compute; reflexivity|]); vm_compute; reflexivity|].
  split; [do 3 eexists; (split; [vm_compute; reflexivity|]); (split; [vm_compute; reflexivity|]); vm_compute; reflexivity|].
  eexists; (split; [vm_compute; reflexivity|]); vm_compute; reflexivity.
Qed.

(** The room left on each interface is the same, and so are paths asked for afterwards with
    any bandwidth. *)
Theorem C105_queries E k s s' B : env_ok E -> well_posed s -> NoDup (m_lsps s) -> in_halves B s ->
  update_simulation E k s = (s', Ok tt) -> same_failures s s' ->
  exists t', FloatSim.update_simulation fl E k s = (t', Ok tt) /\
    (forall i, In i (m_ifs s) -> (FloatSim.reservable_bw fl t' i == reservable_bw s' i)%Q) /\
    forall F u v bw, FloatSim.get_shortest_path fl F k t' u v bw = get_shortest_path F k s' u v bw.
Proof. intros HE WP NL HB U St. destruct (halves_query E k s s' B HE WP NL HB U St) as (t' & R & _ & Q). eauto. Qed.
Print Assumptions C105_queries.
(** 4 are left on the link of 24, and 1 on the one with a percentage of 12.5 *)
Example C105_queries_example : same_failures res1 res2 /\ (reservable_bw res2 0 == 4)%Q /\ (reservable_bw res2 2 == 1)%Q /\
  (exists c, get_shortest_path E0 Flex res2 "A" "B" 4 = (c, [[0%nat]])) /\ (exists c, get_shortest_path E0 Flex res2 "A" "B" 5 = (c, [[4%nat; 3%nat]])).
Proof.
  split; [exact res_failures|]. split; [vm_compute; reflexivity|]. split; [vm_compute; reflexivity|]. split; eexists; vm_compute; reflexivity.
Qed.

(** Steps of a half are needed: two LSPs of 0.25 are routed for 0.25 each on a link of 1, and
    the sum the interface keeps is rounded to one decimal.  With exact numbers the rounding goes
    to 0.4, with floats to 0.5, and the simulation stops with an error. *)
Definition quarter_steps (x : Q) : Prop := exists z, (x == z # 4)%Q.
Definition qua1 : st := net [nd "A"; nd "B"] [itf "ab" 1 1 0 1 1; itf "ba" 1 1 1 0 1] [] [lspc 0 1 "l1" (1 # 4); lspc 0 1 "l2" (1 # 4)] [].
Definition qua2 : st := fst (update_simulation E0 Flex qua1).
Lemma qua_run : update_simulation E0 Flex qua1 = (qua2, Ok tt). Proof. unfold qua2. apply run_split. vm_compute. reflexivity. Qed.
Lemma qua_float : snd (FloatSim.update_simulation fl E0 Flex qua1) = Err (ValidationException [VResSum]). Proof. vm_compute. reflexivity. Qed.
Theorem C105_quarters_refuted : ~ (forall E s s', env_ok E -> well_posed s -> NoDup (m_lsps s) ->
  (forall i, In i (m_ifs s) -> quarter_steps (i_cap (h_if s i)) /\ (0 <= i_cap (h_if s i) <= 1000)%Q /\ (i_pct (h_if s i) == 100)%Q) ->
  (forall d, In d (m_dms s) -> quarter_steps (d_traffic (h_dm s d)) /\ (0 <= d_traffic (h_dm s d) <= 1000)%Q) ->
  (forall l x, In l (m_lsps s) -> l_cfg (h_ls s l) = Some x -> quarter_steps x /\ (0 <= x <= 1000)%Q) ->
  update_simulation E Flex s = (s', Ok tt) -> snd (FloatSim.update_simulation fl E Flex s) = Ok tt).
Proof.
  intro H. specialize (H E0 qua1 qua2 E0_ok).
  assert (X : snd (FloatSim.update_simulation fl E0 Flex qua1) = Ok tt).
  { apply H; clear.
    - posed_vm.
    - vm_compute. nodup_tac.
    - intros i H. vm_compute in H. in_tac; (split; [exists 4%Z; vm_compute; reflexivity|]); (split; [split; vm_compute; discriminate|vm_compute; reflexivity]).
    - intros d H. vm_compute in H. in_tac.
    - intros l x H C. vm_compute in H. in_tac; vm_compute in C; injection C as <-; (split; [exists 1%Z; vm_compute; reflexivity|split; vm_compute; discriminate]).
    - exact qua_run. }
  rewrite qua_float in X. discriminate.
Qed.
Print Assumptions C105_quarters_refuted.

(** IGP shortcuts: what a LSP carries for a demand is rounded to one decimal, which may go the
    other way.  A demand of 1.5 with ten ways, one of them through a LSP: the link of the LSP
    carries 0.2 with exact numbers and 0.1 with floats, as 0.15 is a little less as a float. *)
Definition link_ac (n : Z) (x : string) : list iface := [itf (String.append "ac" x) 2 100 0 2 n; itf (String.append "ca" x) 2 100 2 0 n].
Definition cut1 : st := net [nd_sc "A"; nd_sc "B"; nd "C"]
  (link_ac 1 "1" ++ link_ac 2 "2" ++ link_ac 3 "3" ++ link_ac 4 "4" ++ link_ac 5 "5" ++ link_ac 6 "6" ++ link_ac 7 "7" ++ link_ac 8 "8" ++ link_ac 9 "9" ++
   [itf "ab" 1 100 0 1 10; itf "ba" 1 100 1 0 10; itf "bc" 1 100 1 2 11; itf "cb" 1 100 2 1 11])%list
  [dmd 0 2 (3 # 2) "d"] [lsp_ 1 2 "l"] [].
Definition cut2 : st := fst (update_simulation E0 Flex cut1).
Lemma cut_run : update_simulation E0 Flex cut1 = (cut2, Ok tt). Proof. unfold cut2. apply run_split. vm_compute. reflexivity. Qed.
Definition cut3 : st := fst (FloatSim.update_simulation fl E0 Flex cut1).
Lemma cut_float : FloatSim.update_simulation fl E0 Flex cut1 = (cut3, Ok tt). Proof. unfold cut3. apply run_split. vm_compute. reflexivity. Qed.
Lemma cut_halves : in_halves 1 cut1.
Proof.
  constructor.
  - intros i H. vm_compute in H. in_tac; (split; [vm_compute; discriminate|]); (split; [vm_compute; discriminate|]); (split; [|vm_compute; discriminate]); half_tac 200%Z.
  - intros d H. vm_compute in H. in_tac; (split; [|vm_compute; discriminate]); half_tac 3%Z.
  - intros l n H N. vm_compute in H. in_tac; vm_compute in N; (assert (X : n = 1%nat) by lia); subst n; half_tac 0%Z.
  - intros l H. vm_compute in H. in_tac; vm_compute; discriminate.
  - intros l x H C. vm_compute in H. in_tac; vm_compute in C; discriminate.
  - split; vm_compute; discriminate.
Qed.
Example C105_example_shortcuts : (exists q, i_traffic (h_if cut2 20) = TNum q /\ (q == 2 # 10)%Q) /\ (exists f, i_traffic (h_if cut3 20) = TNum f /\ (f == fl (1 # 10))%Q) /\
  (exists ps, d_path (h_dm cut2 0) = DPaths ps /\ In [IIf 18; ILsp 0] ps /\ List.length ps = 10%nat).
Proof.
  split; [eexists; (split; [vm_compute; reflexivity|]); vm_compute; reflexivity|]. split; [eexists; (split; [vm_compute; reflexivity|]); vm_compute; reflexivity|].
  eexists. split; [vm_compute; reflexivity|]. split; [|reflexivity]. do 9 right. left. reflexivity.
Qed.
Lemma cut_in : In 20%nat (m_ifs cut2). Proof. vm_compute. auto 40. Qed.
Lemma cut_traffic2 : exists q, i_traffic (h_if cut2 20) = TNum q /\ (q == 2 # 10)%Q. Proof. apply C105_example_shortcuts. Qed.
Lemma cut_traffic3 : exists f, i_traffic (h_if cut3 20) = TNum f /\ (f == fl (1 # 10))%Q. Proof. apply C105_example_shortcuts. Qed.
Lemma cut_few : (all_paths cut2 (m_dms cut2) = 10)%nat. Proof. vm_compute. reflexivity. Qed.
Lemma cut_far : ~ close_traffic (3 + all_paths cut2 (m_dms cut2)) cut2 cut3.
Proof.
  rewrite cut_few. intros X. specialize (X 20%nat cut_in). destruct cut_traffic2 as (q & A & B). destruct cut_traffic3 as (f & C & D).
  rewrite A, C in X. unfold within in X. rewrite B, D in X. revert X. clear. vm_compute. intros X. apply X. reflexivity.
Qed.
Lemma cut_same : same_failures cut1 cut2.
Proof. intros i H. vm_compute in H. in_tac; vm_compute; reflexivity. Qed.
Theorem C105_shortcuts_refuted : ~ (forall E s s' t' B, env_ok E -> well_posed s -> NoDup (m_lsps s) -> in_halves B s ->
  update_simulation E Flex s = (s', Ok tt) -> same_failures s s' -> FloatSim.update_simulation fl E Flex s = (t', Ok tt) ->
  (Z.of_nat (3 + all_paths s' (m_dms s')) <= 2 ^ 52)%Z -> close_traffic (3 + all_paths s' (m_dms s')) s' t').
Proof.
  intro H. specialize (H E0 cut1 cut2 cut3 1%Q E0_ok).
  assert (X : close_traffic (3 + all_paths cut2 (m_dms cut2)) cut2 cut3).
  { apply H; clear.
    - posed_vm.
    - vm_compute. nodup_tac.
    - exact cut_halves.
    - exact cut_run.
    - exact cut_same.
    - exact cut_float.
    - rewrite cut_few. vm_compute. discriminate. }
  exact (cut_far X).
Qed.
Print Assumptions C105_shortcuts_refuted.

(** With decimal amounts the paths may differ: demands of 0.1 and 0.2 ask an LSP for 0.3 on a
    link of 0.3, but 0.1 + 0.2 is a little more than 0.3 in floats. *)
Definition dec1 : st := net [nd "A"; nd "B"] [itf "ab" 1 (3 # 10) 0 1 1; itf "ba" 1 (3 # 10) 1 0 1] [dmd 0 1 (1 # 10) "d1"; dmd 0 1 (2 # 10) "d2"] [lsp_ 0 1 "l1"] [].
Definition dec1f : st := net [nd "A"; nd "B"] [itf "ab" 1 (fl (3 # 10)) 0 1 1; itf "ba" 1 (fl (3 # 10)) 1 0 1] [dmd 0 1 (fl (1 # 10)) "d1"; dmd 0 1 (fl (2 # 10)) "d2"] [lsp_ 0 1 "l1"] [].
Definition dec2 : st := fst (update_simulation E0 Flex dec1).
Lemma dec_run : update_simulation E0 Flex dec1 = (dec2, Ok tt). Proof. unfold dec2. apply run_split. vm_compute. reflexivity. Qed.
Definition dec3 : st := fst (FloatSim.update_simulation fl E0 Flex dec1f).
Lemma dec_float : FloatSim.update_simulation fl E0 Flex dec1f = (dec3, Ok tt). Proof. unfold dec3. apply run_split. vm_compute. reflexivity. Qed.
Lemma dec_read : read_as_floats dec1 dec1f.
Proof.
  constructor.
  - repeat (split; [vm_compute; reflexivity|]). vm_compute. reflexivity.
  - split; reflexivity.
  - intros i H. vm_compute in H.
    in_tac; exists (fl (3 # 10)), (fl 100); (split; [apply fl_nearest|]); (split; [apply fl_nearest|]); (split; [|vm_compute; reflexivity]);
      match goal with |- nearest_float _ ?f => replace f with (fl 0) by (vm_compute; reflexivity) end; apply fl_nearest.
  - intros d H. vm_compute in H. in_tac; eexists; (split; [apply fl_nearest|vm_compute; reflexivity]).
  - intros l H. vm_compute in H. in_tac. exists None. split; [exact I|vm_compute; reflexivity].
Qed.
Theorem C105_decimals_refuted : ~ (forall E s t s' t', env_ok E -> well_posed s -> NoDup (m_lsps s) -> read_as_floats s t ->
  (forall d, In d (m_dms s) -> exists z, (d_traffic (h_dm s d) == z # 10)%Q) ->
  update_simulation E Flex s = (s', Ok tt) -> FloatSim.update_simulation fl E Flex t = (t', Ok tt) ->
  forall l, In l (m_lsps s) -> l_path (h_ls s' l) = PUnrouted <-> l_path (h_ls t' l) = PUnrouted).
Proof.
  intro H. specialize (H E0 dec1 dec1f dec2 dec3 E0_ok).
  assert (X : l_path (h_ls dec2 0) = PUnrouted <-> l_path (h_ls dec3 0) = PUnrouted).
  { apply H; clear.
    - posed_vm.
    - vm_compute. nodup_tac.
    - exact dec_read.
    - intros d H. vm_compute in H. in_tac; [exists 1%Z|exists 2%Z]; vm_compute; reflexivity.
    - exact dec_run.
    - exact dec_float.
    - vm_compute. left. reflexivity. }
  assert (Y : l_path (h_ls dec3 0) = PUnrouted) by (vm_compute; reflexivity).
  apply X in Y. vm_compute in Y. discriminate.
Qed.
Print Assumptions C105_decimals_refuted.
(** 0.1 and 0.2 of two demands with IGP shortcuts through one LSP are 0.30000000000000004; in a
    PerformanceModel 10 over three LSPs is 3.3333 for each in path_detail. *)
Definition both1 : st := net [nd_sc "A"; nd_sc "B"; nd "C"] [itf "ab" 1 100 0 1 1; itf "ba" 1 100 1 0 1; itf "bc" 1 100 1 2 2; itf "cb" 1 100 2 1 2]
  [dmd 0 2 (1 # 10) "d1"; dmd 0 2 (2 # 10) "d2"] [lsp_ 1 2 "l"] [].
Definition both3 : st := fst (FloatSim.update_simulation fl E0 Flex both1).
Definition lsps1 : st := net [nd "A"; nd "B"] [itf "ab" 1 100 0 1 1; itf "ba" 1 100 1 0 1] [dmd 0 1 10 "d"] [lspc 0 1 "l1" 1; lspc 0 1 "l2" 1; lspc 0 1 "l3" 1] [].
Definition lsps3 : st := fst (FloatSim.update_simulation fl E0 Perf lsps1).
Example C105_example_amounts : d_path (h_dm both3 0) = DPaths [[IIf 0; ILsp 0]]%nat /\ (exists f, i_traffic (h_if both3 2) = TNum f /\ (f == fl (fl (1 # 10) + fl (2 # 10)))%Q /\ ~ (f == fl (3 # 10))%Q) /\
  (exists xs, d_detail (h_dm lsps3 0) = PDInfo xs /\ List.length xs = 3%nat /\ Forall (fun x => pi_traffic x == fl (33333 # 10000))%Q xs).
Proof.
  split; [vm_compute; reflexivity|]. split; [eexists; split; [vm_compute; reflexivity|]; split; [vm_compute; reflexivity|vm_compute; discriminate]|].
  eexists; split; [vm_compute; reflexivity|split; [reflexivity|]]; repeat constructor.
Qed.
