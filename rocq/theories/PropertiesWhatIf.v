(** PropertiesWhatIf.v - comparing the simulations of two models without LSPs:
    failures, added demands, scaled traffic and costs, repairs; balance of
    interface traffic. *)
From Verif Require Import Base Graph Objects Sim Api Build Spec SpecHist SpecCkt SpecSim SpecMetric SpecFlow SpecOrder SpecFail SpecWhatIf Nets GraphProofs RoundProofs
  PropertiesValidate PropertiesRoute PropertiesFail PropertiesOrder OrderProofs RepairProofs WhatIf WhatIfMore WhatIfApi.
From Coq Require Import Lqa.

(** ** C76 Failures *)
(** A demand whose paths avoid everything that fails keeps its paths and what it
    puts on every interface. *)
Theorem C76_spared E E' k s t s' t' d : env_ok E -> env_ok E' -> plain k s -> plain k t -> degraded s t ->
  update_simulation E k s = (s', Ok tt) -> update_simulation E' k t = (t', Ok tt) -> In d (m_dms s) -> spared s' t d ->
  same_paths (d_path (h_dm s' d)) (d_path (h_dm t' d)) /\ forall i x y, adds k s' d i x -> adds k t' d i y -> (x == y)%Q.
Proof. intros HE HE' P P' D U U' Hd. exact (down_same s t D E E' k s' t' HE HE' P P' U U' d Hd). Qed.
Print Assumptions C76_spared.

(** Failures route no further demand, never make a path cheaper, and never
    increase the total traffic that is routed. *)
Theorem C76_unrouted E E' k s t s' t' d : env_ok E -> env_ok E' -> plain k s -> plain k t -> degraded s t ->
  update_simulation E k s = (s', Ok tt) -> update_simulation E' k t = (t', Ok tt) -> In d (m_dms s) ->
  d_path (h_dm s' d) = DUnrouted -> d_path (h_dm t' d) = DUnrouted.
Proof. intros HE HE' P P' D U U' Hd. exact (down_unrouted s t D E E' k s' t' HE HE' P P' U U' d Hd). Qed.
Print Assumptions C76_unrouted.
Theorem C76_costs E E' k s t s' t' d ps qs p q : env_ok E -> env_ok E' -> plain k s -> plain k t -> degraded s t ->
  update_simulation E k s = (s', Ok tt) -> update_simulation E' k t = (t', Ok tt) -> In d (m_dms s) ->
  d_path (h_dm s' d) = DPaths ps -> d_path (h_dm t' d) = DPaths qs -> In (if_path p) ps -> In (if_path q) qs -> route_cost s p <= route_cost t q.
Proof. intros HE HE' P P' D U U' Hd. exact (down_costs s t D E E' k s' t' HE HE' P P' U U' d Hd ps qs p q). Qed.
Print Assumptions C76_costs.
Theorem C76_delivered E E' k s t s' t' : env_ok E -> env_ok E' -> plain k s -> plain k t -> degraded s t -> m_dms t = m_dms s ->
  (forall d, In d (m_dms s) -> (0 <= d_traffic (h_dm s d))%Q) ->
  update_simulation E k s = (s', Ok tt) -> update_simulation E' k t = (t', Ok tt) -> (routed_total t' <= routed_total s')%Q.
Proof. intros HE HE' P P' D M Pos U U'. exact (delivered E E' k s t s' t' HE HE' D P P' U U' M Pos). Qed.
Print Assumptions C76_delivered.

(** Every history of failures, repairs, validations and simulations of a sound
    model leads to such models.  update_simulation succeeds on all of them or on
    none; after calls that only take things down the model is degraded. *)
Theorem C76_histories E k s l1 l2 : env_ok E -> sound_net k s -> (forall o, In o l1 -> outage_op s o) -> (forall o, In o l2 -> outage_op s o) ->
  plain k (run_ops E k l1 s) /\
  ((exists t', update_simulation E k (run_ops E k l1 s) = (t', Ok tt)) <-> (exists t', update_simulation E k (run_ops E k l2 s) = (t', Ok tt))) /\
  ((forall i, In i (m_ifs s) -> i_failed (h_if (run_ops E k l1 s) i) = true -> i_failed (h_if (run_ops E k l2 s) i) = true) ->
   degraded (run_ops E k l1 s) (run_ops E k l2 s)).
Proof.
  intros HE S H1 H2. split; [exact (proj1 (hist_plain E k s l1 l2 HE S H1 H2))|]. split; [exact (hist_succeeds E k s l1 l2 HE S H1 H2)|exact (hist_degraded E k s l1 l2 H1 H2)].
Qed.
Print Assumptions C76_histories.
Theorem C76_fail_calls E k s l : env_ok E -> sound_net k s -> (forall o, In o l -> failing_op s o) -> plain k (run_ops E k l s) /\ degraded s (run_ops E k l s).
Proof.
  intros HE S H. assert (H2 : forall o, In o l -> outage_op s o) by (intros o Ho; now apply failing_outage, H). assert (H1 : forall o, In o (@nil op) -> outage_op s o) by (intros o []).
  split; [exact (proj2 (hist_plain E k s [] l HE S H1 H2))|]. apply (hist_degraded E k s [] l H1 H2). intros i _. exact (down_history E k l s H i).
Qed.
Print Assumptions C76_fail_calls.

(** Failing a link that no path uses changes nothing but that link. *)
Theorem C76_unused_link E k s s' i j : env_ok E -> sound_net k s -> update_simulation E k s = (s', Ok tt) -> In i (m_ifs s) -> sole_other_end s' i j ->
  (forall d ps p, In d (m_dms s) -> d_path (h_dm s' d) = DPaths ps -> In p ps -> ~ In (IIf i) p /\ ~ In (IIf j) p) ->
  exists s1 t1, fail_interface (i_name (h_if s' i)) (loc s' i) s' = (s1, Ok tt) /\ update_simulation E k s1 = (t1, Ok tt) /\
    (forall d, In d (m_dms s) -> same_paths (d_path (h_dm s' d)) (d_path (h_dm t1 d))) /\
    (forall x, In x (m_ifs s) -> if (Nat.eqb x i || Nat.eqb x j)%bool then i_traffic (h_if t1 x) = TDown else same_traffic (i_traffic (h_if s' x)) (i_traffic (h_if t1 x))).
Proof. exact (unused_link E k s s' i j). Qed.
Print Assumptions C76_unused_link.

(** [wnet]: A=B twice, B=C, A=C (dearer), D isolated; the circuit A=C is on no
    shortest path *)
Definition wnet (cac : Z) (ds : list demand) : st := net
  [nd "A"; nd "B"; nd "C"; nd "D"]
  [itf "ab1" 1 100 0 1 1; itf "ba1" 1 100 1 0 1; itf "ab2" 1 100 0 1 2; itf "ba2" 1 100 1 0 2;
   itf "bc" 1 100 1 2 3; itf "cb" 1 100 2 1 3; itf "ac" cac 100 0 2 4; itf "ca" cac 100 2 0 4] ds [] [mkSrlg "g" false].
Definition w1 : st := wnet 5 [dmd 0 2 12 "d0"; dmd 1 0 6 "d1"; dmd 0 3 3 "d2"].
Ltac wpair_tac j := exists j; split; [vm_compute; auto 10|]; split; [vm_compute; auto|];
  let x := fresh "x" in let H := fresh "H" in let R := fresh "R" in
  intros x H R; vm_compute in H; in_tac; try reflexivity; exfalso; vm_compute in R; destruct R as (R1 & R2 & R3);
  first [discriminate R1 | discriminate R2 | destruct R3 as [R3|R3]; discriminate R3].
Ltac wlink_tac := intros i H; vm_compute in H; in_tac; [wpair_tac 1%nat|wpair_tac 0%nat|wpair_tac 3%nat|wpair_tac 2%nat|wpair_tac 5%nat|wpair_tac 4%nat|wpair_tac 7%nat|wpair_tac 6%nat].
Ltac wsound_tac := split; [reflexivity|]; split; [posed0_tac|]; split; [wf_tac; wlink_tac|]; split;
  [split; [|split]; [intros i H (g & G & _); vm_compute in H; in_tac; vm_compute in G; destruct G
    |intros n H (g & G & _); vm_compute in H; in_tac; vm_compute in G; destruct G
    |intros i j Hi Hj _ g; vm_compute in Hi, Hj; in_tac; vm_compute; tauto]
  |split; [intros i H _; vm_compute in H; in_tac; up_tac|agree_tac]].
Lemma w1_sound : sound_net Flex w1.
Proof. wsound_tac. Qed.
Definition w2 : st := fst (update_simulation E0 Flex w1).
Lemma w1_run : update_simulation E0 Flex w1 = (w2, Ok tt).
Proof. unfold w2. apply run_split. vm_compute. reflexivity. Qed.
Definition w_ops : list op := [OpUpdate; OpFailIf "ab1" "A"; OpUpdate; OpFailNode "D"].
Definition w3 : st := run_ops E0 Flex w_ops w1.
Definition w4 : st := fst (update_simulation E0 Flex w3).
Lemma w3_run : update_simulation E0 Flex w3 = (w4, Ok tt).
Proof. unfold w4. apply run_split. vm_compute. reflexivity. Qed.
Lemma w_failing : forall o, In o w_ops -> failing_op w1 o.
Proof. intros o [<-|[<-|[<-|[<-|[]]]]]; exact I. Qed.
Lemma w3_degraded : plain Flex w3 /\ degraded w1 w3.
Proof. exact (C76_fail_calls E0 Flex w1 w_ops E0_ok w1_sound w_failing). Qed.
(** after the failure of one A=B link: the demand from B to A is rerouted, all
    others are spared or stay unrouted *)
Example C76_example :
  map (fun d => d_path (h_dm w2 d)) [0; 1; 2]%nat = [DPaths [[IIf 0; IIf 4]; [IIf 2; IIf 4]]; DPaths [[IIf 1]; [IIf 3]]; DUnrouted]%nat /\
  map (fun d => d_path (h_dm w4 d)) [0; 1; 2]%nat = [DPaths [[IIf 2; IIf 4]]; DPaths [[IIf 3]]; DUnrouted]%nat /\
  i_traffic (h_if w2 6) = TNum 0 /\ spared w2 (fst (fail_interface "ac" "A" w2)) 0.
Proof.
  split; [vm_compute; reflexivity|]. split; [vm_compute; reflexivity|]. split; [vm_compute; reflexivity|].
  intros ps p i H Hp Hi. revert H. generalize (eq_refl (d_path (h_dm w2 0))). clear - Hp Hi. vm_compute (d_path (h_dm w2 0)). intros _ H. injection H as <-.
  simpl in Hp. destruct Hp as [<-|[<-|[]]]; simpl in Hi; destruct Hi as [X|[X|[]]]; injection X as <-; vm_compute; reflexivity.
Qed.
Example C76_unused_example : sole_other_end w2 6 7 /\
  (forall d ps p, In d (m_dms w1) -> d_path (h_dm w2 d) = DPaths ps -> In p ps -> ~ In (IIf 6%nat) p /\ ~ In (IIf 7%nat) p).
Proof.
  split; [sole_tac|]. intros d ps p Hd. vm_compute in Hd.
  destruct Hd as [<-|[<-|[<-|[]]]]; vm_compute (d_path _); intros H; try discriminate H; injection H as <-; simpl; intros [<-|[<-|[]]]; simpl; intuition discriminate.
Qed.

(** ** C77 FlexModel and PerformanceModel *)
Theorem C77_same_paths E E' s s' t' d : env_ok E -> env_ok E' -> plain Flex s -> plain Perf s ->
  update_simulation E Flex s = (s', Ok tt) -> update_simulation E' Perf s = (t', Ok tt) -> In d (m_dms s) ->
  same_paths (d_path (h_dm s' d)) (d_path (h_dm t' d)).
Proof. intros HE HE' P P' U U'. exact (kinds_paths E E' s s' t' HE HE' P P' U U' d). Qed.
Print Assumptions C77_same_paths.
Theorem C77_close_traffic E E' s s' t' i : env_ok E -> env_ok E' -> plain Flex s -> plain Perf s ->
  update_simulation E Flex s = (s', Ok tt) -> update_simulation E' Perf s = (t', Ok tt) -> In i (m_ifs s) ->
  if i_failed (h_if s i) then i_traffic (h_if s' i) = TDown /\ i_traffic (h_if t' i) = TDown
  else exists q r, i_traffic (h_if s' i) = TNum q /\ i_traffic (h_if t' i) = TNum r /\ (Qabs (q - r) <= Qsum (map (slack s') (m_dms s)))%Q.
Proof. intros HE HE' P P' U U'. exact (kinds_traffic E E' s s' t' HE HE' P P' U U' i). Qed.
Print Assumptions C77_close_traffic.
(** [tri]: A=B, B=C of cost 1, A=C of cost 2, and a tenth of a unit from A to C *)
Definition tri (ds : list demand) : st := net [nd "A"; nd "B"; nd "C"]
  [itf "ab" 1 100 0 1 1; itf "ba" 1 100 1 0 1; itf "bc" 1 100 1 2 2; itf "cb" 1 100 2 1 2; itf "ac" 2 100 0 2 3; itf "ca" 2 100 2 0 3] ds [] [].
Definition tri1 : st := tri [dmd 0 2 (1 # 10) "d"].
Definition tri2f : st := fst (update_simulation E0 Flex tri1).
Definition tri2p : st := fst (update_simulation E0 Perf tri1).
Lemma tri1_flex : update_simulation E0 Flex tri1 = (tri2f, Ok tt).
Proof. unfold tri2f. apply run_split. vm_compute. reflexivity. Qed.
Lemma tri1_perf : update_simulation E0 Perf tri1 = (tri2p, Ok tt).
Proof. unfold tri2p. apply run_split. vm_compute. reflexivity. Qed.
Lemma tri1_plain k : plain k tri1.
Proof.
  split; [reflexivity|]. split; [posed0_tac|]. split; [known_tac|]. split; [intros _ i H; vm_compute in H; in_tac; vm_compute; discriminate|].
  split; [agree_tac|]. vm_compute. nodup_tac.
Qed.
Example C77_example : plain Flex tri1 /\ plain Perf tri1 /\
  d_path (h_dm tri2f 0) = DPaths [[IIf 0; IIf 2]; [IIf 4]]%nat /\ d_path (h_dm tri2p 0) = DPaths [[IIf 0; IIf 2]; [IIf 4]]%nat /\
  i_traffic (h_if tri2f 4) = TNum (1 # 20).
Proof. split; [apply tri1_plain|]. split; [apply tri1_plain|]. vm_compute. auto. Qed.
(** The amounts differ: a PerformanceModel rounds what a demand puts on an
    interface to one decimal. *)
Theorem C77_exact_refuted :
  ~ (forall E s s' t' i, env_ok E -> plain Flex s -> plain Perf s ->
       update_simulation E Flex s = (s', Ok tt) -> update_simulation E Perf s = (t', Ok tt) -> In i (m_ifs s) ->
       same_traffic (i_traffic (h_if s' i)) (i_traffic (h_if t' i))).
Proof.
  intros C. assert (Z := C E0 tri1 tri2f tri2p 4%nat E0_ok (tri1_plain Flex) (tri1_plain Perf) tri1_flex tri1_perf ltac:(vm_compute; auto 10)).
  clear - Z. vm_compute in Z. discriminate Z.
Qed.
Print Assumptions C77_exact_refuted.

(** ** C78 Added demands *)
Theorem C78_added E E' k s t s' t' D : env_ok E -> env_ok E' -> plain k s -> plain k t -> extended s t D ->
  update_simulation E k s = (s', Ok tt) -> update_simulation E' k t = (t', Ok tt) ->
  (forall d, In d (m_dms s) -> same_paths (d_path (h_dm s' d)) (d_path (h_dm t' d))) /\
  (forall i, In i (m_ifs s) ->
    if i_failed (h_if s i) then i_traffic (h_if s' i) = TDown /\ i_traffic (h_if t' i) = TDown
    else exists q r f, i_traffic (h_if s' i) = TNum q /\ i_traffic (h_if t' i) = TNum r /\ (forall d, In d D -> adds k t' d i (f d)) /\ (r == q + Qsum (map f D))%Q).
Proof.
  intros HE HE' P P' X U U'. split; [exact (added_paths E E' k s t s' t' D HE HE' P P' X U U')|exact (added_traffic E E' k s t s' t' D HE HE' P P' X U U')].
Qed.
Print Assumptions C78_added.
Theorem C78_add_demand E k src dst x name s t s' t' : env_ok E -> allocated s -> plain k s -> add_demand E k src dst x name s = (t, Ok tt) -> well_posed t ->
  update_simulation E k s = (s', Ok tt) -> update_simulation E k t = (t', Ok tt) ->
  exists d, ~ In d (m_dms s) /\ m_dms t = (m_dms s ++ [d])%list /\
    (forall d', In d' (m_dms s) -> same_paths (d_path (h_dm s' d')) (d_path (h_dm t' d'))) /\
    (forall i, In i (m_ifs s) ->
      if i_failed (h_if s i) then i_traffic (h_if s' i) = TDown /\ i_traffic (h_if t' i) = TDown
      else exists q r y, i_traffic (h_if s' i) = TNum q /\ i_traffic (h_if t' i) = TNum r /\ adds k t' d i y /\ (r == q + y)%Q).
Proof.
  intros HE Al P H WP U U'. destruct (add_demand_extends E k src dst x name s t HE Al P H) as (d & Nd & X & _ & _ & _ & _ & P'). specialize (P' WP).
  exists d. split; [exact Nd|]. split; [apply (ex_dms _ _ _ X)|]. destruct (C78_added E E k s t s' t' [d] HE HE P P' X U U') as [A B]. split; [exact A|].
  intros i Hi. specialize (B i Hi). destruct (i_failed (h_if s i)); [exact B|]. destruct B as (q & r & f & B1 & B2 & B3 & B4). exists q, r, (f d).
  split; [exact B1|]. split; [exact B2|]. split; [apply B3; left; reflexivity|]. rewrite B4. simpl. ring.
Qed.
Print Assumptions C78_add_demand.
Definition w1p : st := fst (add_demand E0 Flex "A" "B" 7 "new" w1).
Definition w2p : st := fst (update_simulation E0 Flex w1p).
Lemma w1_plain : plain Flex w1.
Proof. exact (sound_plain _ _ w1_sound). Qed.
Example C78_example : allocated w1 /\ plain Flex w1 /\ add_demand E0 Flex "A" "B" 7 "new" w1 = (w1p, Ok tt) /\ well_posed w1p /\
  snd (update_simulation E0 Flex w1p) = Ok tt /\
  map (fun i => i_traffic (h_if w2 i)) [0; 4]%nat = [TNum (12 # 2); TNum (48 # 4)] /\ map (fun i => i_traffic (h_if w2p i)) [0; 4]%nat = [TNum (38 # 4); TNum (48 # 4)].
Proof.
  split; [unfold allocated; apply refs_below; vm_compute; reflexivity|]. split; [exact w1_plain|]. split; [unfold w1p; apply run_split; vm_compute; reflexivity|].
  split; [clear; posed0_tac|]. vm_compute. auto.
Qed.

(** ** C79 Only the present failures matter *)
Theorem C79_memoryless E k s l1 l2 t1' t2' : env_ok E -> sound_net k s -> (forall o, In o l1 -> outage_op s o) -> (forall o, In o l2 -> outage_op s o) ->
  (forall i, In i (m_ifs s) -> i_failed (h_if (run_ops E k l2 s) i) = i_failed (h_if (run_ops E k l1 s) i)) ->
  update_simulation E k (run_ops E k l1 s) = (t1', Ok tt) -> update_simulation E k (run_ops E k l2 s) = (t2', Ok tt) ->
  (forall d, In d (m_dms s) -> same_paths (d_path (h_dm t1' d)) (d_path (h_dm t2' d))) /\
  (forall i, In i (m_ifs s) -> same_traffic (i_traffic (h_if t1' i)) (i_traffic (h_if t2' i))).
Proof. intros HE S H1 H2. exact (hist_same E k s l1 l2 HE S H1 H2 t1' t2'). Qed.
Print Assumptions C79_memoryless.
Definition w_round : list op := [OpUpdate; OpFailNode "B"; OpUpdate; OpFailIf "ac" "A"; OpUnfailIf "ac" "A" true; OpUnfailNode "B"].
Example C79_example : sound_net Flex w1 /\ (forall o, In o w_round -> outage_op w1 o) /\
  (forall i, In i (m_ifs w1) -> i_failed (h_if (run_ops E0 Flex w_round w1) i) = i_failed (h_if w1 i)) /\
  i_failed (h_if (run_ops E0 Flex [OpUpdate; OpFailNode "B"; OpUpdate; OpFailIf "ac" "A"] w1) 6) = true /\
  snd (update_simulation E0 Flex (run_ops E0 Flex w_round w1)) = Ok tt.
Proof.
  split; [exact w1_sound|]. split; [intros o H; simpl in H; in_tac; exact I|]. split; [intros i H; vm_compute in H; in_tac; vm_compute; reflexivity|]. vm_compute. auto.
Qed.
(** fail a link, simulate, repair it, simulate: the first results return *)
Theorem C79_fail_and_repair E k s s' i j : env_ok E -> sound_net k s -> update_simulation E k s = (s', Ok tt) -> In i (m_ifs s) -> sole_other_end s' i j ->
  i_failed (h_if s i) = false ->
  exists s1 t1, fail_interface (i_name (h_if s' i)) (loc s' i) s' = (s1, Ok tt) /\ update_simulation E k s1 = (t1, Ok tt) /\
  (sole_other_end t1 i j -> forall b s2 r, unfail_interface E k (i_name (h_if t1 i)) (loc t1 i) b t1 = (s2, r) ->
   exists t2, update_simulation E k s2 = (t2, Ok tt) /\
     (forall d, In d (m_dms s) -> same_paths (d_path (h_dm s' d)) (d_path (h_dm t2 d))) /\
     (forall x, In x (m_ifs s) -> same_traffic (i_traffic (h_if s' x)) (i_traffic (h_if t2 x)))).
Proof. exact (repaired_link E k s s' i j). Qed.
Print Assumptions C79_fail_and_repair.
Example C79_repair_example : sole_other_end w2 0 1 /\ i_failed (h_if w1 0) = false /\
  sole_other_end (fst (update_simulation E0 Flex (fst (fail_interface "ab1" "A" w2)))) 0 1.
Proof. split; [sole_tac|]. split; [reflexivity|sole_tac]. Qed.

(** ** C80 Scaled traffic and scaled costs *)
Theorem C80_traffic E E' c s t s' t' i : env_ok E -> env_ok E' -> plain Flex s -> plain Flex t -> scaled c s t ->
  update_simulation E Flex s = (s', Ok tt) -> update_simulation E' Flex t = (t', Ok tt) -> In i (m_ifs s) ->
  if i_failed (h_if s i) then i_traffic (h_if t' i) = TDown
  else exists q r, i_traffic (h_if s' i) = TNum q /\ i_traffic (h_if t' i) = TNum r /\ (r == c * q)%Q.
Proof. exact (scaled_traffic E E' c s t s' t' i). Qed.
Print Assumptions C80_traffic.
Theorem C80_costs E E' c k s t s' t' : env_ok E -> env_ok E' -> 0 < c -> recosted c s t -> plain k s -> plain k t ->
  update_simulation E k s = (s', Ok tt) -> update_simulation E' k t = (t', Ok tt) ->
  (forall d, In d (m_dms s) -> same_paths (d_path (h_dm s' d)) (d_path (h_dm t' d))) /\
  (forall i, In i (m_ifs s) -> same_traffic (i_traffic (h_if s' i)) (i_traffic (h_if t' i))).
Proof. intros HE HE' Hc R. exact (recost_results c s t Hc R E E' k s' t' HE HE'). Qed.
Print Assumptions C80_costs.
(** scaling is exact only in a FlexModel *)
Definition tri10 : st := tri [dmd 0 2 1 "d"].
Lemma tri10_plain k : plain k tri10.
Proof.
  split; [reflexivity|]. split; [posed0_tac|]. split; [known_tac|]. split; [intros _ i H; vm_compute in H; in_tac; vm_compute; discriminate|].
  split; [agree_tac|]. vm_compute. nodup_tac.
Qed.
Ltac links_tac := constructor; [intros i; reflexivity| | | |]; intros i H; vm_compute in H; in_tac; try reflexivity; vm_compute; tauto.
Lemma tri_scaled : scaled 10 tri1 tri10.
Proof.
  constructor; [links_tac| |reflexivity|].
  - intros i H; vm_compute in H; in_tac; reflexivity.
  - intros d H; vm_compute in H; in_tac. split; [split; reflexivity|]. vm_compute. reflexivity.
Qed.
Definition tri10f : st := fst (update_simulation E0 Flex tri10).
Definition tri10p : st := fst (update_simulation E0 Perf tri10).
Lemma tri10_perf : update_simulation E0 Perf tri10 = (tri10p, Ok tt).
Proof. unfold tri10p. apply run_split. vm_compute. reflexivity. Qed.
Example C80_example : scaled 10 tri1 tri10 /\ plain Flex tri10 /\ snd (update_simulation E0 Flex tri10) = Ok tt /\ i_traffic (h_if tri2f 4) = TNum (1 # 20) /\ i_traffic (h_if tri10f 4) = TNum (1 # 2).
Proof. split; [exact tri_scaled|]. split; [apply tri10_plain|]. vm_compute. auto. Qed.
Theorem C80_perf_refuted :
  ~ (forall E c s t s' t' i q r, env_ok E -> plain Perf s -> plain Perf t -> scaled c s t ->
       update_simulation E Perf s = (s', Ok tt) -> update_simulation E Perf t = (t', Ok tt) -> In i (m_ifs s) ->
       i_traffic (h_if s' i) = TNum q -> i_traffic (h_if t' i) = TNum r -> (r == c * q)%Q).
Proof.
  intros C. assert (A : exists q, i_traffic (h_if tri2p 4) = TNum q /\ (q == 0)%Q) by (clear; eexists; split; vm_compute; reflexivity).
  assert (B : exists r, i_traffic (h_if tri10p 4) = TNum r /\ (r == 1 # 2)%Q) by (clear; eexists; split; vm_compute; reflexivity).
  destruct A as (q & A1 & A2), B as (r & B1 & B2).
  assert (Z := C E0 10%Q tri1 tri10 tri2p tri10p 4%nat q r E0_ok (tri1_plain Perf) (tri10_plain Perf) tri_scaled tri1_perf tri10_perf ltac:(vm_compute; auto 10) A1 B1).
  clear - Z A2 B2. rewrite A2, B2 in Z. discriminate Z.
Qed.
Print Assumptions C80_perf_refuted.
(** recosted: [tri1] with all costs trebled *)
Definition tri3 : st := upd_if 0 (if_cost 3) (upd_if 1 (if_cost 3) (upd_if 2 (if_cost 3) (upd_if 3 (if_cost 3) (upd_if 4 (if_cost 6) (upd_if 5 (if_cost 6) tri1))))).
Example C80_costs_example : recosted 3 tri1 tri3 /\ plain Flex tri3 /\ snd (update_simulation E0 Flex tri3) = Ok tt.
Proof.
  split; [|split].
  - constructor; try reflexivity; try (intros i H; vm_compute in H; in_tac; try reflexivity; vm_compute; tauto).
  - split; [reflexivity|]. split; [posed0_tac|]. split; [known_tac|]. split; [intros _ i H; vm_compute in H; in_tac; vm_compute; discriminate|].
    split; [agree_tac|]. vm_compute. nodup_tac.
  - vm_compute. reflexivity.
Qed.

(** ** C81 Balance at every node *)
Theorem C81_balance E s s' n : env_ok E -> plain Flex s -> update_simulation E Flex s = (s', Ok tt) ->
  (outgoing s' n + sunk s' n == incoming s' n + sourced s' n)%Q.
Proof. intros HE P U. exact (node_balance E s s' HE P U n). Qed.
Print Assumptions C81_balance.
Theorem C81_bounds E s s' i q : env_ok E -> plain Flex s -> update_simulation E Flex s = (s', Ok tt) ->
  (forall d, In d (m_dms s) -> (0 <= d_traffic (h_dm s d))%Q) -> In i (m_ifs s) -> i_traffic (h_if s' i) = TNum q -> (0 <= q <= routed_total s')%Q.
Proof. intros HE P U. exact (traffic_bounds E s s' HE P U i q). Qed.
Print Assumptions C81_bounds.
Example C81_example : plain Flex w1 /\ (forall d, In d (m_dms w1) -> (0 <= d_traffic (h_dm w1 d))%Q) /\
  (outgoing w2 "A" == 12)%Q /\ (sourced w2 "A" == 12)%Q /\ (incoming w2 "A" == 6)%Q /\ (sunk w2 "A" == 6)%Q /\ (routed_total w2 == 18)%Q.
Proof.
  split; [exact w1_plain|]. split; [intros d H; vm_compute in H; in_tac; vm_compute; discriminate|]. 
  split; [vm_compute; reflexivity|]. split; [vm_compute; reflexivity|]. split; [vm_compute; reflexivity|]. split; vm_compute; reflexivity.
Qed.
(** A PerformanceModel does not balance: both halves of a tenth round to nothing. *)
Theorem C81_perf_refuted :
  ~ (forall E s s' n, env_ok E -> plain Perf s -> update_simulation E Perf s = (s', Ok tt) -> (outgoing s' n + sunk s' n == incoming s' n + sourced s' n)%Q).
Proof.
  intros C. assert (Z := C E0 tri1 tri2p "A" E0_ok (tri1_plain Perf) tri1_perf). clear - Z. vm_compute in Z. discriminate Z.
Qed.
Print Assumptions C81_perf_refuted.

(** ** C82 Parallel links *)
Theorem C82_parallel E s s' i j : env_ok E -> plain Flex s -> update_simulation E Flex s = (s', Ok tt) -> parallel s' i j ->
  exists q r, i_traffic (h_if s' i) = TNum q /\ i_traffic (h_if s' j) = TNum r /\ (q == r)%Q.
Proof. intros HE P U. exact (parallel_same E s s' HE P U i j). Qed.
Print Assumptions C82_parallel.
Example C82_example : parallel w2 0 2 /\ i_traffic (h_if w2 0) = TNum (12 # 2).
Proof.
  split; [|vm_compute; reflexivity]. split; [vm_compute; auto 10|]. split; [vm_compute; auto 10|]. split; [vm_compute; reflexivity|]. split; [vm_compute; reflexivity|].
  split; [vm_compute; reflexivity|]. split; apply RouteProofs.considered_usable; vm_compute; reflexivity.
Qed.
(** With LSPs they may differ: the LSP takes one of the two links. *)
Definition onel : st := net [nd "A"; nd "B"] [itf "ab1" 1 100 0 1 1; itf "ba1" 1 100 1 0 1; itf "ab2" 1 100 0 1 2; itf "ba2" 1 100 1 0 2] [dmd 0 1 5 "d"] [lsp_ 0 1 "l"] [].
Definition onel2 : st := fst (update_simulation E0 Flex onel).
Lemma onel_run : update_simulation E0 Flex onel = (onel2, Ok tt).
Proof. unfold onel2. apply run_split. vm_compute. reflexivity. Qed.
Theorem C82_lsps_refuted :
  ~ (forall E s s' i j q r, env_ok E -> well_posed s -> ends_known s -> cids_set Flex s -> ends_agree Flex s -> if_keys_unique s ->
       update_simulation E Flex s = (s', Ok tt) -> parallel s' i j -> i_traffic (h_if s' i) = TNum q -> i_traffic (h_if s' j) = TNum r -> (q == r)%Q).
Proof.
  intros C. assert (A : exists q, i_traffic (h_if onel2 0) = TNum q /\ (q == 5)%Q) by (clear; eexists; split; vm_compute; reflexivity).
  assert (B : exists r, i_traffic (h_if onel2 2) = TNum r /\ (r == 0)%Q) by (clear; eexists; split; vm_compute; reflexivity).
  destruct A as (q & A1 & A2), B as (r & B1 & B2).
  assert (W : well_posed onel) by (clear; posed0_tac). assert (K : ends_known onel) by (clear; known_tac).
  assert (CI : cids_set Flex onel) by (clear; intros _ i H; vm_compute in H; in_tac; vm_compute; discriminate).
  assert (EA : ends_agree Flex onel) by (clear; agree_tac). assert (KU : if_keys_unique onel) by (clear; vm_compute; nodup_tac).
  assert (Pa : parallel onel2 0 2).
  { clear. split; [vm_compute; auto 10|]. split; [vm_compute; auto 10|]. split; [vm_compute; reflexivity|]. split; [vm_compute; reflexivity|].
    split; [vm_compute; reflexivity|]. split; apply RouteProofs.considered_usable; vm_compute; reflexivity. }
  assert (Z := C E0 onel onel2 0%nat 2%nat q r E0_ok W K CI EA KU onel_run Pa A1 B1). clear - Z A2 B2. rewrite A2, B2 in Z. discriminate Z.
Qed.
Print Assumptions C82_lsps_refuted.

(** ** C83 What the results depend on *)
(** The ends, costs and failures of the links and the ends and traffic of the
    demands; not capacities (as long as no link is closed to traffic), names,
    circuit_ids, reservations or earlier results. *)
Theorem C83_inputs E E' k s t s' t' : env_ok E -> env_ok E' -> plain k s -> plain k t -> same_links s t -> same_failures s t -> m_dms t = m_dms s ->
  (forall d, In d (m_dms s) -> same_demand s t d) ->
  update_simulation E k s = (s', Ok tt) -> update_simulation E' k t = (t', Ok tt) ->
  (forall d, In d (m_dms s) -> same_paths (d_path (h_dm s' d)) (d_path (h_dm t' d))) /\
  (forall i, In i (m_ifs s) -> same_traffic (i_traffic (h_if s' i)) (i_traffic (h_if t' i))).
Proof. exact (WhatIf.same_results E E' k s t s' t'). Qed.
Print Assumptions C83_inputs.
(** half the capacity, other names and circuit_ids, reservations left over *)
Definition tri1c : st := net [nd "A"; nd "B"; nd "C"]
  [mkIface "x" 1 50 0 1 (CInt 7) (TNum 9) false 40 [] true 100 false; mkIface "y" 1 50 1 0 (CInt 7) (TNum 0) false 0 [] true 100 false;
   itf "bc" 1 50 1 2 2; itf "cb" 1 50 2 1 2; itf "ac" 2 50 0 2 3; itf "ca" 2 50 2 0 3] [dmd 0 2 (1 # 10) "other"] [] [].
Example C83_example : plain Flex tri1c /\ same_links tri1 tri1c /\ same_failures tri1 tri1c /\ m_dms tri1c = m_dms tri1 /\
  (forall d, In d (m_dms tri1) -> same_demand tri1 tri1c d) /\ snd (update_simulation E0 Flex tri1c) = Ok tt.
Proof.
  split; [|split; [|split; [|split; [|split]]]].
  - split; [reflexivity|]. split; [posed0_tac|]. split; [known_tac|]. split; [intros _ i H; vm_compute in H; in_tac; vm_compute; discriminate|].
    split; [agree_tac|]. vm_compute. nodup_tac.
  - constructor; [intros i; reflexivity| | | |]; intros i H; vm_compute in H; in_tac; try reflexivity; rewrite !CircuitProofs.available_iff; vm_compute; tauto.
  - intros i H; vm_compute in H; in_tac; reflexivity.
  - reflexivity.
  - intros d H; vm_compute in H; in_tac. repeat split.
  - vm_compute. reflexivity.
Qed.

(** ** With LSPs *)
(** Failing a link that nothing uses can move an LSP: random.choice then picks from
    fewer paths. *)
Definition E1 : env := env_impl (fun _ => 1%nat).
Definition three : st := net [nd "A"; nd "B"] [itf "ab1" 1 100 0 1 1; itf "ba1" 1 100 1 0 1; itf "ab2" 1 100 0 1 2; itf "ba2" 1 100 1 0 2; itf "ab3" 1 100 0 1 3; itf "ba3" 1 100 1 0 3]
  [dmd 0 1 5 "d"] [lsp_ 0 1 "l"] [].
Definition three2 : st := fst (update_simulation E1 Flex three).
Definition three3 : st := fst (fail_interface "ab1" "A" three2).
Definition three4 : st := fst (update_simulation E1 Flex three3).
Lemma three_run : update_simulation E1 Flex three = (three2, Ok tt).
Proof. unfold three2. apply run_split. vm_compute. reflexivity. Qed.
Lemma three_fail : fail_interface "ab1" "A" three2 = (three3, Ok tt).
Proof. unfold three3. apply run_split. vm_compute. reflexivity. Qed.
Lemma three_run2 : update_simulation E1 Flex three3 = (three4, Ok tt).
Proof. unfold three4. apply run_split. vm_compute. reflexivity. Qed.
Theorem C76_lsps_refuted :
  ~ (forall E s s' i j s1 t1 l, env_ok E -> well_posed s -> ends_known s -> cids_set Flex s -> ends_agree Flex s -> if_keys_unique s ->
       update_simulation E Flex s = (s', Ok tt) -> In i (m_ifs s) -> sole_other_end s' i j ->
       (forall d ps p, In d (m_dms s) -> d_path (h_dm s' d) = DPaths ps -> In p ps -> ~ In (IIf i) p /\ ~ In (IIf j) p) ->
       (forall m q c b, In m (m_lsps s) -> l_path (h_ls s' m) = PRouted q c b -> ~ In i q /\ ~ In j q) ->
       fail_interface (i_name (h_if s' i)) (loc s' i) s' = (s1, Ok tt) -> update_simulation E Flex s1 = (t1, Ok tt) ->
       In l (m_lsps s) -> l_path (h_ls t1 l) = l_path (h_ls s' l)).
Proof.
  intros C.
  assert (W : well_posed three) by (clear; posed0_tac). assert (K : ends_known three) by (clear; known_tac).
  assert (CI : cids_set Flex three) by (clear; intros _ i H; vm_compute in H; in_tac; vm_compute; discriminate).
  assert (EA : ends_agree Flex three) by (clear; agree_tac). assert (KU : if_keys_unique three) by (clear; vm_compute; nodup_tac).
  assert (SO : sole_other_end three2 0 1) by (clear; sole_tac).
  assert (D : forall d ps p, In d (m_dms three) -> d_path (h_dm three2 d) = DPaths ps -> In p ps -> ~ In (IIf 0%nat) p /\ ~ In (IIf 1%nat) p).
  { clear. intros d ps p Hd. vm_compute in Hd. destruct Hd as [<-|[]]. vm_compute (d_path _). intros H. injection H as <-. simpl. intros [<-|[]]. simpl. intuition discriminate. }
  assert (L : forall m q c b, In m (m_lsps three) -> l_path (h_ls three2 m) = PRouted q c b -> ~ In 0%nat q /\ ~ In 1%nat q).
  { clear. intros m q c b Hm. vm_compute in Hm. destruct Hm as [<-|[]]. vm_compute (l_path _). intros H. injection H as <- _ _. simpl. intuition discriminate. }
  assert (Z := C E1 three three2 0%nat 1%nat three3 three4 0%nat (env_impl_ok _) W K CI EA KU three_run ltac:(vm_compute; auto) SO D L three_fail three_run2 ltac:(vm_compute; auto)).
  clear - Z. vm_compute in Z. discriminate Z.
Qed.
Print Assumptions C76_lsps_refuted.

(** Added traffic can keep an LSP from being signalled, and so move a demand that
    did not change. *)
Definition ten : st := net [nd "A"; nd "B"] [itf "ab" 1 10 0 1 1; itf "ba" 1 10 1 0 1] [dmd 0 1 5 "d"] [lsp_ 0 1 "l"] [].
Definition ten2 : st := fst (update_simulation E0 Flex ten).
Definition ten_more : st := fst (add_demand E0 Flex "A" "B" 10 "new" ten).
Definition ten_more2 : st := fst (update_simulation E0 Flex ten_more).
Lemma ten_run : update_simulation E0 Flex ten = (ten2, Ok tt).
Proof. unfold ten2. apply run_split. vm_compute. reflexivity. Qed.
Lemma ten_add : add_demand E0 Flex "A" "B" 10 "new" ten = (ten_more, Ok tt).
Proof. unfold ten_more. apply run_split. vm_compute. reflexivity. Qed.
Lemma ten_run2 : update_simulation E0 Flex ten_more = (ten_more2, Ok tt).
Proof. unfold ten_more2. apply run_split. vm_compute. reflexivity. Qed.
Theorem C78_lsps_refuted :
  ~ (forall E src dst x name s t s' t' d, env_ok E -> allocated s -> well_posed s -> ends_known s -> cids_set Flex s -> ends_agree Flex s -> if_keys_unique s ->
       add_demand E Flex src dst x name s = (t, Ok tt) -> well_posed t ->
       update_simulation E Flex s = (s', Ok tt) -> update_simulation E Flex t = (t', Ok tt) -> In d (m_dms s) ->
       same_paths (d_path (h_dm s' d)) (d_path (h_dm t' d))).
Proof.
  intros C. assert (AL : allocated ten) by (clear; unfold allocated; apply refs_below; vm_compute; reflexivity).
  assert (W : well_posed ten) by (clear; posed0_tac). assert (K : ends_known ten) by (clear; known_tac).
  assert (CI : cids_set Flex ten) by (clear; intros _ i H; vm_compute in H; in_tac; vm_compute; discriminate).
  assert (EA : ends_agree Flex ten) by (clear; agree_tac). assert (KU : if_keys_unique ten) by (clear; vm_compute; nodup_tac).
  assert (W2 : well_posed ten_more) by (clear; posed0_tac).
  assert (Z := C E0 "A" "B" 10%Q "new" ten ten_more ten2 ten_more2 0%nat E0_ok AL W K CI EA KU ten_add W2 ten_run ten_run2 ltac:(vm_compute; auto)).
  clear - Z. vm_compute in Z. specialize (Z [ILsp 0%nat]). destruct Z as [Z _]. destruct (Z (or_introl eq_refl)) as [X|[]]. discriminate X.
Qed.
Print Assumptions C78_lsps_refuted.
