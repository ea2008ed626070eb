(** PropertiesFail.v - theorems about failing and repairing interfaces, nodes
    and SRLGs. *)
From Verif Require Import Base Graph Objects Sim Api Build Spec SpecHist SpecCkt SpecFail Nets
  GraphProofs MonadProofs HistProofs ApiProofs FailProofs RepairProofs HeldProofs RepairCalls.

(** A = B = C, with nodes, links and SRLG membership as given. *)
Definition fnode (name : string) (f : bool) (gs : list nat) : node := mkNode name f 0 0 gs false.
Definition fitf (name : string) (a b : nat) (c : Z) (f : bool) (gs : list nat) : iface :=
  mkIface name 1 100 a b (CInt c) (TNum 0) f 0 gs true 100 false.
Definition chain (fa fb fc : bool) (gb : list nat) (f1 f2 f3 f4 : bool) (g1 g2 g3 : list nat) (gf hf : bool) : st := net
  [fnode "A" fa []; fnode "B" fb gb; fnode "C" fc []]
  [fitf "ab" 0 1 1 f1 g1; fitf "ba" 1 0 1 f2 g2; fitf "bc" 1 2 2 f3 g3; fitf "cb" 2 1 2 f4 g3]
  [] [] [mkSrlg "g" gf; mkSrlg "h" hf].

Ltac nd_tac := repeat first [apply NoDup_nil | apply NoDup_cons; [simpl; intuition discriminate|]].
Ltac wf_tac := split; [unfold keys_unique; split; [|split; [|split; [|split]]]; vm_compute; nd_tac|]; split;
  [unfold refs_ok; split; [|split]; intros x H; vm_compute in H; in_tac; vm_compute; auto 10|]; split;
  [intros _ x H; vm_compute in H; in_tac; vm_compute; intros Z0; discriminate Z0|].
Ltac pair_tac j := exists j; split; [vm_compute; auto 10|]; split; [vm_compute; auto|];
  let x := fresh "x" in let H := fresh "H" in let R := fresh "R" in
  intros x H R; vm_compute in H; in_tac; try reflexivity; exfalso; vm_compute in R; destruct R as (R1 & R2 & R3); discriminate.
Lemma chain_wf k fa fb fc gb f1 f2 f3 f4 g1 g2 g3 gf hf : wf_net k (chain fa fb fc gb f1 f2 f3 f4 g1 g2 g3 gf hf).
Proof.
  destruct k; wf_tac; intros i H; vm_compute in H; in_tac;
    [pair_tac 1%nat|pair_tac 0%nat|pair_tac 3%nat|pair_tac 2%nat|pair_tac 1%nat|pair_tac 0%nat|pair_tac 3%nat|pair_tac 2%nat].
Qed.
Ltac sole_tac := split; [vm_compute; auto 10|];
  let x := fresh "x" in let H := fresh "H" in let R1 := fresh "R1" in let R2 := fresh "R2" in 
  intros x H R1 R2; vm_compute in H; in_tac; try reflexivity; exfalso; vm_compute in R1, R2; discriminate.

Ltac up_tac := split; vm_compute; reflexivity.
Ltac notin_tac := let g := fresh in let H := fresh in let F := fresh in intros (g & H & F); vm_compute in H; in_tac; vm_compute in F; discriminate F.

(** ** C28 unfail_interface *)
Theorem C28_unfail_interface E k s b iname nname s' : env_ok E -> wf_net k s ->
  unfail_interface E k iname nname b s = (s', Ok tt) ->
  exists i j, In i (m_ifs s) /\ if_key s i = (iname, nname) /\ other_end s i j /\
   ((~ ends_up s i /\ b = false /\ s' = s) \/
    (ends_up s i /\ ends_up s j /\ ~ in_failed_srlg s (i_srlgs (h_if s i)) /\ ~ in_failed_srlg s (i_srlgs (h_if s j)) /\
     (forall x, x = i \/ x = j -> i_failed (h_if s' x) = false /\ i_res (h_if s' x) = 0%Q) /\
     h_nd s' = h_nd s /\ h_sr s' = h_sr s /\ same_sets s s' /\
     (forall x, In x (m_ifs s) -> x <> i -> x <> j ->
        i_failed (h_if s' x) = i_failed (h_if s x) \/
        i_failed (h_if s' x) = true /\ exists y, In y (m_ifs s) /\ is_reverse k s x y /\ i_failed (h_if s x) <> i_failed (h_if s y)))).
Proof. intros HE W H. exact (unfail_ok E k s HE W b iname nname s' H). Qed.
Print Assumptions C28_unfail_interface.
(** a failed link between working nodes comes up; one on a failed node does not *)
Definition u1 : st := chain false false true [] true true true true [0%nat] [0%nat] [] false true.
Example C28_example : wf_net Flex u1 /\
  snd (unfail_interface E0 Flex "ab" "A" false u1) = Ok tt /\
  i_failed (h_if (fst (unfail_interface E0 Flex "ab" "A" false u1)) 0) = false /\
  i_failed (h_if (fst (unfail_interface E0 Flex "ab" "A" false u1)) 1) = false /\
  snd (unfail_interface E0 Flex "bc" "B" false u1) = Ok tt /\
  i_failed (h_if (fst (unfail_interface E0 Flex "bc" "B" false u1)) 2) = true.
Proof. split; [apply chain_wf|]. vm_compute. auto. Qed.

(** Called for a link of the model, it behaves by the nodes and SRLGs alone. *)
Theorem C28_unfail_link E k s b i j s' r : env_ok E -> wf_net k s -> In i (m_ifs s) -> sole_other_end s i j ->
  unfail_interface E k (i_name (h_if s i)) (loc s i) b s = (s', r) ->
  (~ ends_up s i -> s' = s /\ (if b then exists m, r = Err (ModelException m) else r = Ok tt)) /\
  (ends_up s i -> in_failed_srlg s (i_srlgs (h_if s i)) \/ in_failed_srlg s (i_srlgs (h_if s j)) ->
     (exists m, r = Err (ModelException m)) /\
     (forall x, x = i \/ x = j -> in_failed_srlg s (i_srlgs (h_if s x)) -> i_failed (h_if s x) = true -> i_failed (h_if s' x) = true) /\
     only_ifs s s' /\ (forall x, x <> i -> x <> j -> h_if s' x = h_if s x)) /\
  (ends_up s i -> ~ in_failed_srlg s (i_srlgs (h_if s i)) -> ~ in_failed_srlg s (i_srlgs (h_if s j)) ->
     forall x, x = i \/ x = j -> i_failed (h_if s' x) = false /\ i_res (h_if s' x) = 0%Q).
Proof. intros HE W Hi SJ H. exact (unfail_link E k s HE W b i j s' r Hi SJ H). Qed.
Print Assumptions C28_unfail_link.
Definition u2 : st := chain false false false [] true true true true [0%nat] [0%nat] [] true true.
Example C28_link_example : wf_net Flex u2 /\ sole_other_end u2 0 1 /\ sole_other_end u2 2 3 /\
  ends_up u2 0 /\ in_failed_srlg u2 (i_srlgs (h_if u2 0)) /\
  (exists m, snd (unfail_interface E0 Flex "ab" "A" false u2) = Err (ModelException m)) /\
  ends_up u2 2 /\ ~ in_failed_srlg u2 (i_srlgs (h_if u2 2)) /\ ~ in_failed_srlg u2 (i_srlgs (h_if u2 3)).
Proof.
  split; [apply chain_wf|]. split; [sole_tac|]. split; [sole_tac|]. split; [up_tac|]. split; [exists 0%nat; split; vm_compute; auto|].
  split; [vm_compute; eexists; reflexivity|]. split; [up_tac|]. split; notin_tac.
Qed.

(** When it raises ModelException the remote end may have come up all the same:
    a link with one end up and the other down. *)
Theorem C28_raises_unchanged_refuted :
  ~ (forall E k s i j s' m, env_ok E -> wf_net k s -> consistent k s -> In i (m_ifs s) -> sole_other_end s i j ->
       unfail_interface E k (i_name (h_if s i)) (loc s i) false s = (s', Err (ModelException m)) ->
       i_failed (h_if s' j) = i_failed (h_if s j)).
Proof.
  intros H. pose (s := chain false false false [] true true true true [0%nat] [] [] true true).
  assert (C : consistent Flex s).
  { split; [intros i Hi Fi; vm_compute in Hi; in_tac; vm_compute in Fi; discriminate Fi|].
    intros i j Hi Hj _. vm_compute in Hi, Hj. in_tac; reflexivity. }
  assert (X : exists m, snd (unfail_interface E0 Flex "ab" "A" false s) = Err (ModelException m)) by (eexists; vm_compute; reflexivity).
  destruct X as (m & X).
  assert (SJ : sole_other_end s 0 1) by sole_tac.
  assert (I0 : In 0%nat (m_ifs s)) by (vm_compute; auto).
  specialize (H E0 Flex s 0%nat 1%nat _ m E0_ok (chain_wf _ _ _ _ _ _ _ _ _ _ _ _ _ _) C I0 SJ (run_split _ _ X)).
  vm_compute in H. discriminate H.
Qed.
Print Assumptions C28_raises_unchanged_refuted.

(** ** C29 fail_node *)
Theorem C29_fail_node s nname s' : keys_unique s -> fail_node nname s = (s', Ok tt) ->
  (exists n, In n (m_nds s) /\ nd_name s n = nname) /\
  brought_down s s' (fun i => loc s i = nname) (fun n => In n (m_nds s) /\ nd_name s n = nname) /\ h_sr s' = h_sr s.
Proof. intros (U1 & U2 & _) H. destruct (fail_node_bd s nname s' U1 U2 H) as (A & B & C). auto. Qed.
Print Assumptions C29_fail_node.
Theorem C29_fail_node_returns s n : keys_unique s -> refs_ok s -> In n (m_nds s) ->
  (forall i, In i (m_ifs s) -> loc s i = nd_name s n -> has_other_end s i) ->
  exists s', fail_node (nd_name s n) s = (s', Ok tt).
Proof. intros U R Hn Ho. exact (fail_node_total s U R n Hn Ho). Qed.
Print Assumptions C29_fail_node_returns.
Lemma chain_ends fa fb fc gb f1 f2 f3 f4 g1 g2 g3 gf hf i :
  In i (m_ifs (chain fa fb fc gb f1 f2 f3 f4 g1 g2 g3 gf hf)) -> has_other_end (chain fa fb fc gb f1 f2 f3 f4 g1 g2 g3 gf hf) i.
Proof. intros H. vm_compute in H. in_tac; [exists 1%nat|exists 0%nat|exists 3%nat|exists 2%nat]; sole_tac. Qed.
Definition up0 : st := chain false false false [0%nat] false false false false [] [] [1%nat] false false.
Example C29_example : keys_unique up0 /\ refs_ok up0 /\ (forall i, In i (m_ifs up0) -> has_other_end up0 i) /\
  snd (fail_node "B" up0) = Ok tt /\ map (fun i => i_failed (h_if (fst (fail_node "A" up0)) i)) [0; 1; 2; 3]%nat = [true; true; false; false].
Proof.
  destruct (chain_wf Flex false false false [0%nat] false false false false [] [] [1%nat] false false) as (U & R & _).
  split; [exact U|]. split; [exact R|]. split; [intros i; apply chain_ends|]. vm_compute. auto.
Qed.

(** ** C30 fail_interface then unfail_interface *)
Theorem C30_round_trip E k s i j : env_ok E -> wf_net k s -> ends_agree k s -> In i (m_ifs s) -> sole_other_end s i j ->
  i_failed (h_if s i) = false -> ends_up s i ->
  ~ in_failed_srlg s (i_srlgs (h_if s i)) -> ~ in_failed_srlg s (i_srlgs (h_if s j)) ->
  exists s1, fail_interface (i_name (h_if s i)) (loc s i) s = (s1, Ok tt) /\
    i_failed (h_if s1 i) = true /\ i_failed (h_if s1 j) = true /\
    forall b s2 r, unfail_interface E k (i_name (h_if s i)) (loc s i) b s1 = (s2, r) ->
      same_sets s s2 /\ same_failures_all s s2.
Proof. exact (round_trip E k s i j). Qed.
Print Assumptions C30_round_trip.
Lemma up0_agree k : ends_agree k up0.
Proof. intros i j Hi Hj _. vm_compute in Hi, Hj. in_tac; reflexivity. Qed.
Example C30_example : wf_net Flex up0 /\ ends_agree Flex up0 /\ sole_other_end up0 0 1 /\ ends_up up0 0 /\
  ~ in_failed_srlg up0 (i_srlgs (h_if up0 0)) /\ ~ in_failed_srlg up0 (i_srlgs (h_if up0 1)) /\
  snd (unfail_interface E0 Flex "ab" "A" false (fst (fail_interface "ab" "A" up0))) = Ok tt.
Proof.
  split; [apply chain_wf|]. split; [apply up0_agree|]. split; [sole_tac|]. split; [up_tac|]. split; [notin_tac|]. split; [notin_tac|].
  vm_compute. reflexivity.
Qed.
(** Without agreeing ends elsewhere the round trip takes another link down. *)
Theorem C30_any_state_refuted :
  ~ (forall E k s i j s1 s2, env_ok E -> wf_net k s -> In i (m_ifs s) -> sole_other_end s i j ->
       i_failed (h_if s i) = false -> i_failed (h_if s j) = false -> ends_up s i ->
       ~ in_failed_srlg s (i_srlgs (h_if s i)) -> ~ in_failed_srlg s (i_srlgs (h_if s j)) ->
       fail_interface (i_name (h_if s i)) (loc s i) s = (s1, Ok tt) ->
       unfail_interface E k (i_name (h_if s i)) (loc s i) false s1 = (s2, Ok tt) -> same_failures_all s s2).
Proof.
  intros H. pose (s := chain false false false [] false false true false [] [] [] false false).
  assert (SJ : sole_other_end s 0 1) by sole_tac. assert (I0 : In 0%nat (m_ifs s)) by (vm_compute; auto).
  assert (X1 : snd (fail_interface "ab" "A" s) = Ok tt) by (vm_compute; reflexivity).
  assert (X2 : snd (unfail_interface E0 Flex "ab" "A" false (fst (fail_interface "ab" "A" s))) = Ok tt) by (vm_compute; reflexivity).
  destruct (H E0 Flex s 0%nat 1%nat _ _ E0_ok (chain_wf _ _ _ _ _ _ _ _ _ _ _ _ _ _) I0 SJ eq_refl eq_refl ltac:(up_tac) ltac:(notin_tac) ltac:(notin_tac)
    (run_split _ _ X1) (run_split _ _ X2)) as (F & _).
  specialize (F 3%nat ltac:(vm_compute; auto)). vm_compute in F. discriminate F.
Qed.
Print Assumptions C30_any_state_refuted.

(** ** C31 fail_srlg *)
Theorem C31_fail_srlg s name s' : keys_unique s -> fail_srlg name s = (s', Ok tt) ->
  exists g, In g (m_srs s) /\ srlg_name s g = name /\
  brought_down s s' (fun i => In g (i_srlgs (h_if s i)) \/ on_failed s g i)
                    (fun n => In n (m_nds s) /\ In g (n_srlgs (h_nd s n))) /\
  srlg_name s' g = name /\ sr_failed (h_sr s' g) = true /\ forall g', g' <> g -> h_sr s' g' = h_sr s g'.
Proof.
  intros (U1 & U2 & _) H. destruct (fail_srlg_bd s name s' U1 U2 H) as (g & A & B & C & D & F). exists g.
  split; auto. split; auto. split; auto. unfold srlg_name. rewrite D. auto.
Qed.
Print Assumptions C31_fail_srlg.
Theorem C31_fail_srlg_returns s g : keys_unique s -> refs_ok s -> In g (m_srs s) ->
  (forall i, In i (m_ifs s) -> In g (i_srlgs (h_if s i)) \/ on_failed s g i -> has_other_end s i) ->
  exists s', fail_srlg (srlg_name s g) s = (s', Ok tt).
Proof. intros U R Hg Ho. exact (fail_srlg_total s U R g Hg Ho). Qed.
Print Assumptions C31_fail_srlg_returns.
(** SRLG g has node B as a member, SRLG h the link B=C *)
Example C31_example : keys_unique up0 /\ refs_ok up0 /\ (forall i, In i (m_ifs up0) -> has_other_end up0 i) /\
  snd (fail_srlg "g" up0) = Ok tt /\
  map (fun i => i_failed (h_if (fst (fail_srlg "g" up0)) i)) [0; 1; 2; 3]%nat = [true; true; true; true] /\
  map (fun n => n_failed (h_nd (fst (fail_srlg "g" up0)) n)) [0; 1; 2]%nat = [false; true; false] /\
  map (fun i => i_failed (h_if (fst (fail_srlg "h" up0)) i)) [0; 1; 2; 3]%nat = [false; false; true; true].
Proof.
  destruct (chain_wf Flex false false false [0%nat] false false false false [] [] [1%nat] false false) as (U & R & _).
  split; [exact U|]. split; [exact R|]. split; [intros i; apply chain_ends|]. vm_compute. auto.
Qed.

(** ** C32 members of a failed SRLG stay failed *)
Theorem C32_interface_stays_failed E k nm g i l s : (forall o, In o l -> ~ lifts nm o) ->
  (g < s_next s)%nat -> (i < s_next s)%nat -> srlg_name s g = nm -> sr_failed (h_sr s g) = true ->
  In g (i_srlgs (h_if s i)) -> i_failed (h_if s i) = true ->
  let s' := run_ops E k l s in
  i_failed (h_if s' i) = true /\ sr_failed (h_sr s' g) = true /\ In g (i_srlgs (h_if s' i)).
Proof.
  intros Hl Hg Hi Hn Hf Hm Hd. destruct (hd_history E k nm g (inl i) l Hl s) as (_ & _ & A & _ & B & C); [repeat split; auto|]. auto.
Qed.
Print Assumptions C32_interface_stays_failed.
Theorem C32_node_stays_failed E k nm g n l s : (forall o, In o l -> ~ lifts nm o) ->
  (g < s_next s)%nat -> (n < s_next s)%nat -> srlg_name s g = nm -> sr_failed (h_sr s g) = true ->
  In g (n_srlgs (h_nd s n)) -> n_failed (h_nd s n) = true ->
  let s' := run_ops E k l s in
  n_failed (h_nd s' n) = true /\ sr_failed (h_sr s' g) = true /\ In g (n_srlgs (h_nd s' n)).
Proof.
  intros Hl Hg Hi Hn Hf Hm Hd. destruct (hd_history E k nm g (inr n) l Hl s) as (_ & _ & A & _ & B & C); [repeat split; auto|]. auto.
Qed.
Print Assumptions C32_node_stays_failed.
Theorem C32_interface_setter_raises s i : in_failed_srlg s (i_srlgs (h_if s i)) ->
  exists m s', iface_set_failed i false s = (s', Err (ModelException m)) /\ i_failed (h_if s' i) = true.
Proof.
  intros F. rewrite set_failed_false_run. replace (infs s (i_srlgs (h_if s i))) with true by (symmetry; apply infs_iff; auto).
  eexists _, _. split; [reflexivity|]. simpl. now rewrite fupd_same.
Qed.
Print Assumptions C32_interface_setter_raises.
Theorem C32_node_setter_raises s n : in_failed_srlg s (n_srlgs (h_nd s n)) ->
  exists m s', node_set_failed n false s = (s', Err (ModelException m)) /\ n_failed (h_nd s' n) = true.
Proof.
  intros F. apply infs_iff in F. unfold node_set_failed. rewrite bind_gets.
  change (existsb (fun g => sr_failed (h_sr s g)) (n_srlgs (h_nd s n))) with (infs s (n_srlgs (h_nd s n))). rewrite F.
  eexists _, _. split; [reflexivity|]. simpl. now rewrite fupd_same.
Qed.
Print Assumptions C32_node_setter_raises.
Definition hf1 : st := chain false true false [0%nat] true true true true [] [] [0%nat] true false.
Definition hf1_calls : list op :=
  [OpUnfailIf "bc" "B" false; OpUnfailNode "B"; OpUnfailSrlg "h"; OpIfUnfail 2; OpIfSetFailed 2 false; OpNdSetFailed 1 false; OpUpdate].
Example C32_example : (forall o, In o hf1_calls -> ~ lifts "g" o) /\ srlg_name hf1 0 = "g" /\ in_failed_srlg hf1 (i_srlgs (h_if hf1 2)) /\
  in_failed_srlg hf1 (n_srlgs (h_nd hf1 1)) /\ i_failed (h_if hf1 2) = true /\ n_failed (h_nd hf1 1) = true /\
  n_failed (h_nd (run_ops E0 Flex (hf1_calls ++ [OpUnfailSrlg "g"]) hf1) 1) = false.
Proof.
  split. { intros o H. simpl in H. in_tac; simpl; auto. discriminate. }
  split; [reflexivity|]. split; [exists 0%nat; vm_compute; auto|]. split; [exists 0%nat; vm_compute; auto|].
  split; [reflexivity|]. split; [reflexivity|]. vm_compute. reflexivity.
Qed.

(** ** C33 consistency over histories *)
Theorem C33_consistent E k l s : env_ok E -> (forall o, In o l -> failure_op s o) ->
  wf_net k s -> srlg_sound k s -> consistent k s ->
  wf_net k (run_ops E k l s) /\ srlg_sound k (run_ops E k l s) /\ consistent k (run_ops E k l s).
Proof. intros HE Hl W G C. apply (history_inv E k HE l s Hl). split; auto. Qed.
Print Assumptions C33_consistent.
Definition h33 : list op := [OpFailNode "B"; OpUnfailIf "ab" "A" false; OpUpdate; OpFailSrlg "g"; OpUnfailNode "B"; OpUnfailSrlg "g"; OpIfFail 0; OpUpdate].
Lemma up0_sound k : srlg_sound k up0.
Proof.
  split; [|split].
  - intros i Hi (g & G1 & G2). vm_compute in Hi. in_tac; vm_compute in G1; in_tac; vm_compute in G2; discriminate G2.
  - intros i Hi (g & G1 & G2). vm_compute in Hi. in_tac; vm_compute in G1; in_tac; vm_compute in G2; discriminate G2.
  - intros i j Hi Hj (R1 & R2 & _) g. vm_compute in Hi, Hj. in_tac; try reflexivity; vm_compute in R1, R2; discriminate.
Qed.
Lemma up0_consistent k : consistent k up0.
Proof. split; [|apply up0_agree]. intros i Hi _. vm_compute in Hi. in_tac; up_tac. Qed.
Example C33_example : (forall o, In o h33 -> failure_op up0 o) /\ wf_net Flex up0 /\ srlg_sound Flex up0 /\ consistent Flex up0 /\
  map (fun i => i_failed (h_if (run_ops E0 Flex h33 up0) i)) [0; 1; 2; 3]%nat = [true; true; false; false].
Proof.
  split. { intros o H. simpl in H. in_tac; simpl; auto 10. }
  split; [apply chain_wf|]. split; [apply up0_sound|]. split; [apply up0_consistent|]. vm_compute. reflexivity.
Qed.

(** ** C34 failures that are not propagated *)
Theorem C34_add_to_failed_srlg_refuted :
  ~ (forall E k s i name s1 s2, env_ok E -> wf_net k s -> consistent k s -> srlg_sound k s -> In i (m_ifs s) ->
       run_op E k (OpFailSrlg name) s = (s1, Ok tt) -> run_op E k (OpIfToSrlg i name false) s1 = (s2, Ok tt) ->
       i_failed (h_if s2 i) = true).
Proof.
  intros H. set (s1 := fst (run_op E0 Flex (OpFailSrlg "h") up0)). set (s2 := fst (run_op E0 Flex (OpIfToSrlg 0 "h" false) s1)).
  assert (X := H E0 Flex up0 0%nat "h" s1 s2 E0_ok (chain_wf _ _ _ _ _ _ _ _ _ _ _ _ _ _) (up0_consistent _) (up0_sound _) ltac:(vm_compute; auto)
    (run_split _ _ ltac:(vm_compute; reflexivity)) (run_split _ _ ltac:(vm_compute; reflexivity))).
  vm_compute in X. discriminate X.
Qed.
Print Assumptions C34_add_to_failed_srlg_refuted.
(** the same for nodes *)
Theorem C34_add_node_to_failed_srlg_refuted :
  ~ (forall E k s n name s1 s2, env_ok E -> wf_net k s -> consistent k s -> srlg_sound k s -> In n (m_nds s) ->
       run_op E k (OpFailSrlg name) s = (s1, Ok tt) -> run_op E k (OpNdToSrlg n name false) s1 = (s2, Ok tt) ->
       n_failed (h_nd s2 n) = true).
Proof.
  intros H. set (s1 := fst (run_op E0 Flex (OpFailSrlg "h") up0)). set (s2 := fst (run_op E0 Flex (OpNdToSrlg 0 "h" false) s1)).
  assert (X := H E0 Flex up0 0%nat "h" s1 s2 E0_ok (chain_wf _ _ _ _ _ _ _ _ _ _ _ _ _ _) (up0_consistent _) (up0_sound _) ltac:(vm_compute; auto)
    (run_split _ _ ltac:(vm_compute; reflexivity)) (run_split _ _ ltac:(vm_compute; reflexivity))).
  vm_compute in X. discriminate X.
Qed.
Print Assumptions C34_add_node_to_failed_srlg_refuted.

(** Interface.remove_from_srlg of a member of a failed SRLG brings up the local
    end only. *)
Theorem C34_remove_from_srlg_refuted :
  ~ (forall E k s i name s', env_ok E -> wf_net k s -> consistent k s -> srlg_sound k s -> In i (m_ifs s) ->
       run_op E k (OpIfFromSrlg i name) s = (s', Ok tt) -> consistent k s').
Proof.
  intros H. pose (s := run_ops E0 Flex [OpFailSrlg "h"] up0).
  assert (I : wf_net Flex s /\ srlg_sound Flex s /\ consistent Flex s).
  { apply C33_consistent; [apply E0_ok|intros o [<-|[]]; exact I|apply chain_wf|apply up0_sound|apply up0_consistent]. }
  destruct I as (W & G & C).
  assert (X : snd (run_op E0 Flex (OpIfFromSrlg 2 "h") s) = Ok tt) by (vm_compute; reflexivity).
  destruct (H E0 Flex s 2%nat "h" _ E0_ok W C G ltac:(vm_compute; auto) (run_split _ _ X)) as (_ & A).
  specialize (A 2%nat 3%nat ltac:(vm_compute; auto) ltac:(vm_compute; auto) ltac:(split; [|split; [|right]]; vm_compute; reflexivity)).
  vm_compute in A. discriminate A.
Qed.
Print Assumptions C34_remove_from_srlg_refuted.

(** add_circuit on a failed node makes unfailed interfaces. *)
Theorem C34_add_circuit_refuted :
  ~ (forall E k s a b na nb ca cb cap c s', env_ok E -> wf_net k s -> consistent k s -> srlg_sound k s -> In a (m_nds s) -> In b (m_nds s) ->
       run_op E k (OpAddCircuit a b na nb ca cb cap c) s = (s', Ok tt) -> consistent k s').
Proof.
  intros H. pose (s := run_ops E0 Flex [OpFailNode "A"] up0).
  assert (I : wf_net Flex s /\ srlg_sound Flex s /\ consistent Flex s).
  { apply C33_consistent; [apply E0_ok|intros o [<-|[]]; exact I|apply chain_wf|apply up0_sound|apply up0_consistent]. }
  destruct I as (W & G & C).
  assert (X : snd (run_op E0 Flex (OpAddCircuit 0 2 "ac" "ca" 1 1 100 (CInt 9)) s) = Ok tt) by (vm_compute; reflexivity).
  destruct (H E0 Flex s 0%nat 2%nat "ac" "ca" 1%Z 1%Z 100%Q (CInt 9) _ E0_ok W C G ltac:(vm_compute; auto) ltac:(vm_compute; auto) (run_split _ _ X)) as (A & _).
  specialize (A 100%nat ltac:(vm_compute; auto 10) ltac:(vm_compute; reflexivity)). destruct A as [A _]. vm_compute in A. discriminate A.
Qed.
Print Assumptions C34_add_circuit_refuted.
