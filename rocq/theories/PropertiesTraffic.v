(** PropertiesTraffic.v - theorems about the traffic of demands on paths, LSPs
    and interfaces after update_simulation. *)
From Verif Require Import Base Graph Objects Sim Api Build Spec SpecHist SpecCkt SpecMetric SpecSim SpecSig SpecFlow Nets PropertiesRoute
  GraphProofs ResProofs RoundProofs RouteProofs IgpProofs SigUpdate FlowProofs UtilProofs DemandProofs LspTraffic SpecFlow.

Lemma flex1_ifkeys : if_keys_unique flex1. Proof. apply flex1_keys. Qed.
Lemma perf1_ifkeys : if_keys_unique perf1. Proof. apply perf1_keys. Qed.

(** ** C04 Path shares of an IGP demand add up to its traffic *)
Theorem C04_total E k s s' d ps : env_ok E -> well_posed s -> if_keys_unique s -> update_simulation E k s = (s', Ok tt) -> same_failures s s' ->
  In d (m_dms s) -> no_lsp_for s' d -> no_shortcuts_for k s' d -> d_path (h_dm s' d) = DPaths ps ->
  exists es, d_detail (h_dm s' d) = PDInfo es /\ map entry_path es = ps /\
    match k with Flex => (total es == d_traffic (h_dm s' d))%Q
               | Perf => (Qabs (total es - d_traffic (h_dm s' d)) <= inject_Z (Z.of_nat (List.length es)) * (1 # 20000))%Q end.
Proof. intros HE WP KU Up St. exact (igp_total E k HE s s' WP Up St KU d ps). Qed.
Print Assumptions C04_total.
Example C04_example : well_posed flex1 /\ if_keys_unique flex1 /\ update_simulation E0 Flex flex1 = (flex2, Ok tt) /\ same_failures flex1 flex2 /\
  In 0%nat (m_dms flex1) /\ no_lsp_for flex2 0 /\ no_shortcuts_for Flex flex2 0 /\
  d_path (h_dm flex2 0) = DPaths (map if_path [[0%nat; 4%nat]; [2%nat; 4%nat]; [6%nat]]) /\
  match d_detail (h_dm flex2 0) with PDInfo es => map (fun e => Qred (pi_traffic e)) es = [4%Q; 4%Q; 4%Q] | _ => False end.
Proof.
  split; [exact flex1_posed|]. split; [exact flex1_ifkeys|]. split; [exact flex12_run|]. split; [exact flex12_same|]. split; [vm_compute; auto|].
  split; [apply no_lsp_tac_flex; auto|]. split; [apply flex2_off|]. split; vm_compute; reflexivity.
Qed.
Example C04_example_perf : well_posed perf1 /\ if_keys_unique perf1 /\ update_simulation E0 Perf perf1 = (perf2, Ok tt) /\ same_failures perf1 perf2 /\
  In 0%nat (m_dms perf1) /\ no_lsp_for perf2 0 /\ no_shortcuts_for Perf perf2 0 /\
  d_path (h_dm perf2 0) = DPaths (map if_path [[0%nat; 2%nat]; [4%nat]]).
Proof.
  split; [exact perf1_posed|]. split; [exact perf1_ifkeys|]. split; [exact perf12_run|]. split; [exact perf12_same|]. split; [vm_compute; auto|].
  split; [apply no_lsp_tac_perf; auto|]. split; [apply perf2_off|]. vm_compute; reflexivity.
Qed.

(** ** C05 Hop-by-hop equal-cost split *)
Theorem C05_split E s s' d ps : env_ok E -> well_posed s -> if_keys_unique s -> update_simulation E Flex s = (s', Ok tt) -> same_failures s s' ->
  In d (m_dms s) -> no_lsp_for s' d -> no_shortcuts_for Flex s' d -> d_path (h_dm s' d) = DPaths ps ->
  exists es, d_detail (h_dm s' d) = PDInfo es /\ map entry_path es = ps /\
    (through s' (dmd_from s' d) (dmd_from s' d) es == d_traffic (h_dm s' d))%Q /\
    (through s' (dmd_from s' d) (dmd_to s' d) es == d_traffic (h_dm s' d))%Q /\
    forall n O i, leaving s' es n O -> In i O -> (over i es == through s' (dmd_from s' d) n es / count O)%Q.
Proof.
  intros HE WP KU Up St Hd NL NS Pd. destruct (igp_flow E Flex HE s s' WP Up St KU d ps Hd NL NS Pd eq_refl) as (es & A & B & C & D & F & _).
  exists es. auto.
Qed.
Print Assumptions C05_split.

(** ** C57 The entries of path_detail of an IGP demand *)
Theorem C57_entries E k s s' d ps : env_ok E -> well_posed s -> if_keys_unique s -> update_simulation E k s = (s', Ok tt) -> same_failures s s' ->
  In d (m_dms s) -> no_lsp_for s' d -> no_shortcuts_for k s' d -> d_path (h_dm s' d) = DPaths ps ->
  exists es, d_detail (h_dm s' d) = PDInfo es /\ map entry_path es = ps /\
    forall outs, (forall n, leaving s' es n (outs n)) -> forall e, In e es ->
      exists p, entry_key k e = Some (if_path p) /\ pi_splits e = Some (split_counts s' outs 1 p) /\
        match k with Flex => pi_traffic e == divided s' outs (d_traffic (h_dm s' d)) p
                   | Perf => rounds 10000 (divided s' outs (d_traffic (h_dm s' d)) p) (pi_traffic e) end%Q.
Proof. intros HE WP KU Up St. exact (igp_entries E k HE s s' WP Up St KU d ps). Qed.
Print Assumptions C57_entries.

(** such a choice of interfaces always exists *)
Definition leave1 (n : string) : list nat :=
  if String.eqb n "A" then [0%nat; 2%nat; 6%nat] else if String.eqb n "B" then [4%nat] else [].
Example C05_example : exists es, d_detail (h_dm flex2 0) = PDInfo es /\ (forall n, leaving flex2 es n (leave1 n)) /\
  map (fun e => pi_splits e) es = [Some [(IIf 0, 3); (IIf 4, 3)]; Some [(IIf 2, 3); (IIf 4, 3)]; Some [(IIf 6, 3)]].
Proof.
  eexists. split; [vm_compute; reflexivity|]. split; [|reflexivity]. intros n. unfold leave1. split.
  - destruct (String.eqb n "A"); [nodup_tac|]. destruct (String.eqb n "B"); nodup_tac.
  - intros i. split.
    + destruct (String.eqb_spec n "A") as [->|]; [|destruct (String.eqb_spec n "B") as [->|]]; simpl; intros H; in_tac;
        (split; [vm_compute; reflexivity|]); first [eexists; split; [left; reflexivity|reflexivity]|eexists; split; [right; left; reflexivity|reflexivity]|eexists; split; [right; right; left; reflexivity|reflexivity]].
    + intros (L & e & He & C). simpl in He. in_tac; subst; unfold crosses, entry_path in C; simpl in C; rewrite ?orb_true_iff, ?orb_false_r in C;
        repeat (destruct C as [C|C]); try discriminate C; try (destruct i as [|[|[|[|[|[|[|i]]]]]]]; try discriminate C); vm_compute; auto.
Qed.

(** ** C08 Flow conservation at every node *)
Theorem C08_conservation E s s' d ps : env_ok E -> well_posed s -> if_keys_unique s -> update_simulation E Flex s = (s', Ok tt) -> same_failures s s' ->
  In d (m_dms s) -> no_lsp_for s' d -> no_shortcuts_for Flex s' d -> d_path (h_dm s' d) = DPaths ps ->
  exists es, d_detail (h_dm s' d) = PDInfo es /\ map entry_path es = ps /\
    (forall n I O, entering s' es n I -> leaving s' es n O -> n <> dmd_from s' d -> n <> dmd_to s' d ->
       (Qsum (map (fun i => over i es) I) == Qsum (map (fun i => over i es) O))%Q) /\
    (forall O, leaving s' es (dmd_from s' d) O -> (Qsum (map (fun i => over i es) O) == d_traffic (h_dm s' d))%Q) /\
    (forall I, entering s' es (dmd_to s' d) I -> (Qsum (map (fun i => over i es) I) == d_traffic (h_dm s' d))%Q).
Proof.
  intros HE WP KU Up St Hd NL NS Pd. destruct (igp_flow E Flex HE s s' WP Up St KU d ps Hd NL NS Pd eq_refl) as (es & A & B & C & D & F & G & H).
  assert (Ne : dmd_from s' d <> dmd_to s' d). { destruct (up_ends E Flex HE s s' WP Up d) as [-> ->]. exact (self_demand E Flex HE s s' d WP Up Hd). }
  exists es. split; [exact A|]. split; [exact B|]. split; [|split].
  - intros n I O HI HO N1 N2. rewrite (G n O HO N2). apply (H n I HI N1).
  - intros O HO. rewrite (G _ O HO Ne). exact C.
  - intros I HI. rewrite (H _ I HI); [exact D|]. intros X. apply Ne. symmetry. exact X.
Qed.
Print Assumptions C08_conservation.
Example C08_example : exists es, d_detail (h_dm flex2 0) = PDInfo es /\ leaving flex2 es "A" [0%nat; 2%nat; 6%nat] /\ leaving flex2 es "B" [4%nat].
Proof. destruct C05_example as (es & D & L & _). exists es. split; [exact D|]. split; [exact (L "A")|exact (L "B")]. Qed.

(** ** C07 Demands with a routed LSP ride the least-metric LSPs, split evenly *)
Theorem C07_ride E k s s' d : env_ok E -> well_posed s -> NoDup (m_lsps s) -> update_simulation E k s = (s', Ok tt) -> same_failures s s' ->
  In d (m_dms s) -> (exists l, lsp_of s' d l /\ routed_lsp s' l) ->
  exists ls es, ls <> [] /\ NoDup ls /\ (forall l, In l ls <-> preferred s' d l) /\
    d_path (h_dm s' d) = DPaths (map (fun l => [ILsp l]) ls) /\ d_detail (h_dm s' d) = PDInfo es /\
    map entry_path es = map (fun l => [ILsp l]) ls /\
    (forall e, In e es -> match k with Flex => pi_traffic e == d_traffic (h_dm s' d) / count ls
                          | Perf => rounds 10000 (d_traffic (h_dm s' d) / count ls) (pi_traffic e) end)%Q /\
    (k = Flex -> (total es == d_traffic (h_dm s' d))%Q).
Proof.
  intros HE WP NL Up St Hd Ex. destruct (simulated_ex _ _ _ _ Up) as (s1 & s2 & s3 & s4 & Sm).
  exact (ride_detail E k HE s s1 s2 s3 s4 s' Sm WP Up St d Hd NL Ex).
Qed.
Print Assumptions C07_ride.
Example C07_example : NoDup (m_lsps flex1) /\ In 1%nat (m_dms flex1) /\ (exists l, lsp_of flex2 1 l /\ routed_lsp flex2 l) /\
  d_path (h_dm flex2 1) = DPaths [[ILsp 0]; [ILsp 1]].
Proof.
  split; [vm_compute; nodup_tac|]. split; [vm_compute; auto|]. split; [|vm_compute; reflexivity]. exists 0%nat. split.
  - split; [vm_compute; auto|]. split; vm_compute; reflexivity.
  - unfold routed_lsp. vm_compute. eauto.
Qed.

(** ** C06 Interface traffic is the sum of what the demands put on it *)
Theorem C06_flex E s s' i : env_ok E -> well_posed s -> if_keys_unique s -> NoDup (m_lsps s) ->
  update_simulation E Flex s = (s', Ok tt) -> same_failures s s' ->
  (forall d, In d (m_dms s) -> no_shortcuts_for Flex s' d) -> In i (m_ifs s) ->
  if i_failed (h_if s' i) then i_traffic (h_if s' i) = TDown
  else exists q, i_traffic (h_if s' i) = TNum q /\ (q == Qsum (map (fun d => demand_on s' d i) (m_dms s')))%Q.
Proof.
  intros HE WP KU NL Up St NS Hi. destruct (simulated_ex _ _ _ _ Up) as (s1 & s2 & s3 & s4 & Sm).
  exact (flex_util E Flex HE s s1 s2 s3 s4 s' Sm WP Up St KU i eq_refl Hi NL NS).
Qed.
Print Assumptions C06_flex.
Theorem C06_perf E s s' i : env_ok E -> well_posed s -> if_keys_unique s -> NoDup (m_lsps s) ->
  update_simulation E Perf s = (s', Ok tt) -> same_failures s s' -> In i (m_ifs s) ->
  if i_failed (h_if s' i) then i_traffic (h_if s' i) = TDown
  else exists q f, i_traffic (h_if s' i) = TNum q /\ (forall d, In d (m_dms s') -> demand_puts s' d i (f d)) /\ (q == Qsum (map f (m_dms s')))%Q.
Proof.
  intros HE WP KU NL Up St Hi. destruct (simulated_ex _ _ _ _ Up) as (s1 & s2 & s3 & s4 & Sm).
  exact (perf_util E Perf HE s s1 s2 s3 s4 s' Sm WP Up St KU i eq_refl Hi NL).
Qed.
Print Assumptions C06_perf.
Example C06_example : well_posed flex1 /\ if_keys_unique flex1 /\ NoDup (m_lsps flex1) /\ (forall d, In d (m_dms flex1) -> no_shortcuts_for Flex flex2 d) /\
  In 1%nat (m_ifs flex1) /\ In 4%nat (m_ifs flex1) /\ NoDup (m_lsps perf1) /\
  match i_traffic (h_if flex2 1) with TNum q => q == 6 | TDown => False end%Q /\
  match i_traffic (h_if flex2 4) with TNum q => q == 8 | TDown => False end%Q.
Proof.
  split; [exact flex1_posed|]. split; [exact flex1_ifkeys|]. split; [vm_compute; nodup_tac|]. split; [intros; apply flex2_off|].
  split; [vm_compute; auto|]. split; [vm_compute; auto 10|]. split; [vm_compute; nodup_tac|]. split; vm_compute; reflexivity.
Qed.

(** ** C18 path_detail of a demand that becomes unrouted is stale *)
Theorem C18_routed_fresh E k s s' d : env_ok E -> NoDup (m_ifs s) -> update_simulation E k s = (s', Ok tt) -> In d (m_dms s) ->
  match d_path (h_dm s' d) with
  | DUnrouted => d_detail (h_dm s' d) = d_detail (h_dm s d)
  | DPaths ps => exists es, d_detail (h_dm s' d) = PDInfo es /\ map entry_path es = ps
  end.
Proof. intros HE. exact (detail_fresh E k HE s s' d). Qed.
Print Assumptions C18_routed_fresh.

Definition line1 : st := net [nd "A"; nd "B"] [itf "ab" 1 10 0 1 1; itf "ba" 1 10 1 0 1] [dmd 0 1 5 "d"] [] [].
Definition line2 : st := run_ops E0 Flex [OpUpdate; OpFailIf "ab" "A"] line1.
(** "after every history of calls that ends in a successful update_simulation, an
    unrouted demand has no path_detail" *)
Theorem C18_stale_refuted :
  ~ (forall E k l s s' d, env_ok E -> (forall x, d_detail (h_dm s x) = PDInitial) -> valid_hist E k (l ++ [OpUpdate]) s ->
       run_ops E k l s = s' -> snd (update_simulation E k s') = Ok tt -> In d (m_dms s') ->
       d_path (h_dm (fst (update_simulation E k s')) d) = DUnrouted -> d_detail (h_dm (fst (update_simulation E k s')) d) = PDInitial).
Proof.
  intros H. specialize (H E0 Flex [OpUpdate; OpFailIf "ab" "A"] line1 line2 0%nat E0_ok).
  assert (D : forall x, d_detail (h_dm line1 x) = PDInitial) by (intros [|[|x]]; reflexivity).
  assert (V : valid_hist E0 Flex ([OpUpdate; OpFailIf "ab" "A"] ++ [OpUpdate]) line1) by (simpl; tauto).
  specialize (H D V eq_refl).
  assert (X : match d_detail (h_dm (fst (update_simulation E0 Flex line2)) 0) with PDInitial => false | PDInfo _ => true end = true) by (vm_compute; reflexivity).
  rewrite H in X; [discriminate X| | |]; clear; vm_compute; auto.
Qed.
Print Assumptions C18_stale_refuted.
Example C18_example : NoDup (m_ifs flex1) /\ update_simulation E0 Flex flex1 = (flex2, Ok tt) /\ In 0%nat (m_dms flex1) /\ In 2%nat (m_dms flex1) /\
  d_path (h_dm flex2 0) <> DUnrouted /\ d_path (h_dm flex2 2) = DUnrouted.
Proof.
  split; [vm_compute; nodup_tac|]. split; [exact flex12_run|]. split; [vm_compute; auto|]. split; [vm_compute; auto|]. split; [|vm_compute; reflexivity].
  vm_compute. intros Z0; discriminate Z0.
Qed.

(** ** C20 Self-demands and self-LSPs make the simulation fail *)
Theorem C20_self E k s : env_ok E -> well_posed s ->
  (exists d, In d (m_dms s) /\ dmd_from s d = dmd_to s d) \/ (exists l, In l (m_lsps s) /\ lsp_from s l = lsp_to s l) ->
  snd (update_simulation E k s) <> Ok tt.
Proof.
  intros HE WP H R. assert (Up : update_simulation E k s = (fst (update_simulation E k s), Ok tt)) by (rewrite <- R; apply surjective_pairing).
  destruct H as [(d & Hd & F)|(l & Hl & F)].
  - exact (self_demand E k HE s _ d WP Up Hd F).
  - exact (proj2 (update_settled E k HE s _ WP Up l Hl) F).
Qed.
Print Assumptions C20_self.
Definition self1 : st := fst (run_op E0 Flex (OpAddDemand "A" "A" 5 "x") line1).
Definition self2 : st := fst (run_op E0 Flex (OpAddLsp "A" "A" "x") line1).
Example C20_example :
  snd (run_op E0 Flex (OpAddDemand "A" "A" 5 "x") line1) = Ok tt /\ well_posed self1 /\ (exists d, In d (m_dms self1) /\ dmd_from self1 d = dmd_to self1 d) /\
  snd (run_op E0 Flex (OpAddLsp "A" "A" "x") line1) = Ok tt /\ well_posed self2 /\ (exists l, In l (m_lsps self2) /\ lsp_from self2 l = lsp_to self2 l) /\
  snd (update_simulation E0 Flex self1) = Err ValueError.
Proof.
  split; [vm_compute; reflexivity|]. split.
  { split; [vm_compute; nodup_tac|]. split; [intros i H; vm_compute in H; in_tac; vm_compute; intros Z0; discriminate Z0|]. texts_tac. }
  split; [exists 100%nat; split; [vm_compute; auto|vm_compute; reflexivity]|]. split; [vm_compute; reflexivity|]. split.
  { split; [vm_compute; nodup_tac|]. split; [intros i H; vm_compute in H; in_tac; vm_compute; intros Z0; discriminate Z0|]. texts_tac. }
  split; [exists 100%nat; split; [vm_compute; auto|vm_compute; reflexivity]|]. vm_compute; reflexivity.
Qed.

(** ** C48 traffic_on_lsp *)
Theorem C48_value E k s s' l ls s'' q : env_ok E -> well_posed s -> NoDup (m_lsps s) -> update_simulation E k s = (s', Ok tt) -> same_failures s s' ->
  (forall d, In d (m_dms s) -> no_shortcuts_for k s' d) -> In l (m_lsps s) -> routed_lsp s' l ->
  NoDup ls -> (forall m, In m ls <-> least_metric s' (lsp_from s' l) (lsp_to s' l) m) ->
  traffic_on_lsp E k l s' = (s'', Ok q) ->
  (q == if existsb (Nat.eqb l) ls then traffic_of s' l / count ls else 0)%Q.
Proof. intros HE WP NL Up St NS Hl Rl Nls Hls. exact (tol_done E k HE s s' WP Up St NL NS l ls Hl Rl Nls Hls s'' q). Qed.
Print Assumptions C48_value.
(** ... and it returns if all routed LSPs between these nodes have a positive metric *)
Theorem C48_returns E k s s' l ls : env_ok E -> well_posed s -> NoDup (m_lsps s) -> update_simulation E k s = (s', Ok tt) -> same_failures s s' ->
  (forall d, In d (m_dms s) -> no_shortcuts_for k s' d) -> In l (m_lsps s) -> routed_lsp s' l ->
  NoDup ls -> (forall m, In m ls <-> least_metric s' (lsp_from s' l) (lsp_to s' l) m) ->
  (forall m, In m (lsps_of s' l) -> routed_lsp s' m -> exists c, 0 < c /\ metric s' m (Some c)) ->
  exists s'' q, traffic_on_lsp E k l s' = (s'', Ok q).
Proof. intros HE WP NL Up St NS Hl Rl Nls Hls. exact (tol_returns E k HE s s' WP Up St NL NS l ls Hl Rl Nls Hls). Qed.
Print Assumptions C48_returns.
(** The values of the group members add up to the traffic of the demands. *)
Theorem C48_group_total E k s s' l ls (f : nat -> Q) : env_ok E -> well_posed s -> NoDup (m_lsps s) -> update_simulation E k s = (s', Ok tt) -> same_failures s s' ->
  (forall d, In d (m_dms s) -> no_shortcuts_for k s' d) -> In l ls ->
  NoDup ls -> (forall m, In m ls <-> least_metric s' (lsp_from s' l) (lsp_to s' l) m) ->
  (forall m, In m ls -> exists s'', traffic_on_lsp E k m s' = (s'', Ok (f m))) ->
  (Qsum (map f ls) == traffic_of s' l)%Q.
Proof. intros HE WP NL Up St NS. exact (tol_group E k HE s s' WP Up St NL NS l ls f). Qed.
Print Assumptions C48_group_total.
Example C48_example : In 0%nat (m_lsps flex1) /\ routed_lsp flex2 0 /\ (forall m, In m [0%nat; 1%nat] <-> least_metric flex2 (lsp_from flex2 0) (lsp_to flex2 0) m) /\
  match snd (traffic_on_lsp E0 Flex 0 flex2) with Ok q => (q == 3)%Q | _ => False end /\
  match snd (traffic_on_lsp E0 Flex 1 flex2) with Ok q => (q == 3)%Q | _ => False end.
Proof.
  split; [vm_compute; auto|]. split; [unfold routed_lsp; vm_compute; eauto|]. split; [|split; vm_compute; reflexivity].
  destruct C07_example as (NL & Hd & Ex & P).
  destruct (C07_ride E0 Flex flex1 flex2 1 E0_ok flex1_posed NL flex12_run flex12_same Hd Ex) as (ls & es & _ & _ & Pf & Pd & _).
  rewrite P in Pd. assert (ls = [0%nat; 1%nat]) as ->.
  { clear - Pd. destruct ls as [|a [|b [|c t]]]; simpl in Pd; injection Pd; try congruence. }
  intros m. rewrite Pf. unfold preferred, least_metric, lsp_of.
  replace (dmd_from flex2 1) with (lsp_from flex2 0) by (vm_compute; reflexivity). replace (dmd_to flex2 1) with (lsp_to flex2 0) by (vm_compute; reflexivity). reflexivity.
Qed.

(** ** C54 IGP shortcuts *)
Theorem C54_no_shortcuts E k s s' d ps p l : env_ok E -> well_posed s -> NoDup (m_lsps s) -> update_simulation E k s = (s', Ok tt) -> same_failures s s' ->
  In d (m_dms s) -> no_shortcuts_for k s' d -> d_path (h_dm s' d) = DPaths ps -> In p ps -> In (ILsp l) p ->
  lsp_of s' d l /\ routed_lsp s' l /\ p = [ILsp l].
Proof. intros HE WP NL Up St. exact (only_own_lsps E k HE s s' WP Up St NL d ps p l). Qed.
Print Assumptions C54_no_shortcuts.
Example C54_example : no_shortcuts_for Flex flex2 1 /\ d_path (h_dm flex2 1) = DPaths [[ILsp 0]; [ILsp 1]].
Proof. split; [apply flex2_off|vm_compute; reflexivity]. Qed.

(** the diamond A-B-M, A-C-M, M-Y-Z, M-X-Z, where C has shortcuts and an LSP to X *)
Definition sc1 : st := net
  [nd "A"; nd "B"; nd_sc "C"; nd "M"; nd "X"; nd "Y"; nd "Z"]
  [itf "ab" 1 100 0 1 1; itf "ba" 1 100 1 0 1; itf "ac" 1 100 0 2 2; itf "ca" 1 100 2 0 2;
   itf "bm" 1 100 1 3 3; itf "mb" 1 100 3 1 3; itf "cm" 1 100 2 3 4; itf "mc" 1 100 3 2 4;
   itf "my" 1 100 3 5 5; itf "ym" 1 100 5 3 5; itf "mx" 1 100 3 4 6; itf "xm" 1 100 4 3 6;
   itf "yz" 1 100 5 6 7; itf "zy" 1 100 6 5 7; itf "xz" 1 100 4 6 8; itf "zx" 1 100 6 4 8]
  [dmd 0 6 16 "d"] [lsp_ 2 4 "l"] [].
Theorem C54_shortcut_total_refuted :
  ~ (forall E s s' d es, env_ok E -> well_posed s -> keys_unique s -> update_simulation E Flex s = (s', Ok tt) -> same_failures s s' ->
       In d (m_dms s) -> no_lsp_for s' d -> d_path (h_dm s' d) <> DUnrouted -> d_detail (h_dm s' d) = PDInfo es ->
       (total es == d_traffic (h_dm s' d))%Q).
Proof.
  intros H.
  assert (D : match d_detail (h_dm (fst (update_simulation E0 Flex sc1)) 0) with PDInfo es => Some (Qred (total es)) | PDInitial => None end = Some 14%Q) by (vm_compute; reflexivity).
  destruct (d_detail (h_dm (fst (update_simulation E0 Flex sc1)) 0)) as [|es] eqn:De; [discriminate D|].
  specialize (H E0 sc1 (fst (update_simulation E0 Flex sc1)) 0%nat es E0_ok).
  assert (P : well_posed sc1).
  { clear. split; [vm_compute; nodup_tac|]. split; [intros i Hi; vm_compute in Hi; in_tac; vm_compute; intros Z0; discriminate Z0|]. texts_tac. }
  assert (K : keys_unique sc1) by (clear; unfold keys_unique; split; [vm_compute; nodup_tac|]; split; [vm_compute; nodup_tac|]; split; vm_compute; nodup_tac).
  assert (R : update_simulation E0 Flex sc1 = (fst (update_simulation E0 Flex sc1), Ok tt)) by (apply run_split; vm_compute; reflexivity).
  assert (S : same_failures sc1 (fst (update_simulation E0 Flex sc1))) by (clear; intros i Hi; vm_compute in Hi; in_tac; vm_compute; reflexivity).
  assert (A : no_lsp_for (fst (update_simulation E0 Flex sc1)) 0) by (clear; intros l (X & F & _); vm_compute in X; in_tac; vm_compute in F; discriminate F).
  assert (U : d_path (h_dm (fst (update_simulation E0 Flex sc1)) 0) <> DUnrouted) by (clear; vm_compute; intros Z0; discriminate Z0).
  specialize (H P K R S (or_introl eq_refl) A U De).
  assert (T : d_traffic (h_dm (fst (update_simulation E0 Flex sc1)) 0) = 16%Q) by (vm_compute; reflexivity). rewrite T in H.
  injection D as D. rewrite <- (Qred_correct (total es)), D in H. discriminate H.
Qed.
Print Assumptions C54_shortcut_total_refuted.

(** ** C55 Utilization *)
Theorem C55_utilization s i :
  match i_traffic (h_if s i) with
  | TDown => utilization s i = None
  | TNum t => exists q, utilization s i = Some q /\ rounds 100 (t / i_cap (h_if s i) * 100) q
  end.
Proof. exact (utilization_spec s i). Qed.
Print Assumptions C55_utilization.
Theorem C55_down E k s s' i : env_ok E -> well_posed s -> update_simulation E k s = (s', Ok tt) -> same_failures s s' ->
  In i (m_ifs s) -> (utilization s' i = None <-> i_failed (h_if s' i) = true).
Proof. intros HE WP Up St. exact (utilization_down E k HE s s' WP Up St i). Qed.
Print Assumptions C55_down.
Example C55_example : In 1%nat (m_ifs flex1) /\ utilization flex2 1 <> None /\ rounds 100 (6 / 100 * 100) 6 /\
  match utilization flex2 1 with Some q => q == 6 | None => False end%Q.
Proof.
  split; [vm_compute; auto|]. split; [vm_compute; intros Z0; discriminate Z0|]. split; [|vm_compute; reflexivity].
  exists 600. split; [reflexivity|]. split; [vm_compute; intros Z0; discriminate Z0|reflexivity].
Qed.
