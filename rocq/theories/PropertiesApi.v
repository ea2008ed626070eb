(** PropertiesApi.v - theorems about the API calls that do not route anything. *)
From Verif Require Import Base Graph Objects Sim Api Build Spec SpecHist SpecMetric Nets
  GraphProofs ApiProofs AddProofs QueryProofs HistProofs.

(** ** C19 update_simulation never changes the input data *)
Theorem C19_update_keeps_input E k s :
  let s' := fst (update_simulation E k s) in
  same_input s s' /\ forall i, i_failed (h_if s i) = true -> i_failed (h_if s' i) = true.
Proof. exact (update_input E k s). Qed.
Print Assumptions C19_update_keeps_input.
(** the run is not trivial: results do change *)
Example C19_example :
  d_path (h_dm flex1 0) = DUnrouted /\
  d_path (h_dm flex2 0) = DPaths [[IIf 0; IIf 4]; [IIf 2; IIf 4]; [IIf 6]].
Proof. vm_compute. split; reflexivity. Qed.

(** ** C27 fail_interface fails exactly one link *)
Theorem C27_fail_interface s iname nname s' r :
  fail_interface iname nname s = (s', r) ->
  (exists e, r = Err e /\ s' = s) \/
  (r = Ok tt /\ exists i j, In i (m_ifs s) /\ if_key s i = (iname, nname) /\ other_end s i j /\
     only_ifs s s' /\ (forall x, x = i \/ x = j -> downed (h_if s x) (h_if s' x)) /\
     (forall x, x <> i -> x <> j -> h_if s' x = h_if s x)).
Proof. exact (fail_interface_exact s iname nname s' r). Qed.
Print Assumptions C27_fail_interface.

Theorem C27_fail_interface_returns s i j : keys_unique s -> refs_ok s -> In i (m_ifs s) -> sole_other_end s i j ->
  exists s', fail_interface (i_name (h_if s i)) (loc s i) s = (s', Ok tt).
Proof. exact (fail_interface_total s i j). Qed.
Print Assumptions C27_fail_interface_returns.
Example C27_example :
  sole_other_end flex1 4 5 /\ snd (fail_interface "bc" "B" flex1) = Ok tt /\
  i_failed (h_if (fst (fail_interface "bc" "B" flex1)) 5) = true.
Proof.
  split; [|vm_compute; auto]. split; [vm_compute; intuition|].
  intros x H L C. vm_compute in H. in_tac; vm_compute in L, C; congruence.
Qed.

(** ** C35 add_demand *)
Theorem C35_add_demand E k src dst t name s s' r : allocated s ->
  add_demand E k src dst t name s = (s', r) ->
  let known x := exists n, In n (m_nds s) /\ nd_name s n = x in
  let unknown x := forall n, In n (m_nds s) -> nd_name s n <> x in
  let taken := exists d, In d (m_dms s) /\ dmd_key s d = (src, dst, name) in
  (exists e, r = Err e /\ m_dms s' = m_dms s /\ (forall d, In d (m_dms s) -> h_dm s' d = h_dm s d) /\
     (((unknown src \/ unknown dst) /\ is_model_exn e = true) \/
      (known src /\ known dst /\ (t < 0)%Q /\ e = ValueError) \/
      (known src /\ known dst /\ (0 <= t)%Q /\ taken /\ is_model_exn e = true))) \/
  (known src /\ known dst /\ (0 <= t)%Q /\ ~ taken /\
   exists d a b, ~ In d (m_dms s) /\ m_dms s' = (m_dms s ++ [d])%list /\
     In a (m_nds s) /\ nd_name s a = src /\ In b (m_nds s) /\ nd_name s b = dst /\
     h_dm s' d = mkDemand a b t name DUnrouted PDInitial /\
     (forall d', In d' (m_dms s) -> h_dm s' d' = h_dm s d')).
Proof. exact (add_demand_exact E k src dst t name s s' r). Qed.
Print Assumptions C35_add_demand.

Theorem C35_add_demand_frame E k src dst t name s :
  let s' := fst (add_demand E k src dst t name s) in
  m_ifs s' = m_ifs s /\ m_nds s' = m_nds s /\ m_lsps s' = m_lsps s /\ m_srs s' = m_srs s /\
  h_nd s' = h_nd s /\ h_ls s' = h_ls s /\ h_sr s' = h_sr s /\
  (forall i, same_if_data (h_if s i) (h_if s' i)) /\ (forall i, i_traffic (h_if s' i) = i_traffic (h_if s i)).
Proof. exact (add_demand_rest E k src dst t name s). Qed.
Print Assumptions C35_add_demand_frame.
Example C35_example :
  allocated flex1 /\ snd (add_demand E0 Flex "A" "C" 7 "new" flex1) = Ok tt /\
  snd (add_demand E0 Flex "A" "C" (-(1)) "new" flex1) = Err ValueError /\
  (exists m, snd (add_demand E0 Flex "A" "C" 7 "d0" flex1) = Err (ModelException m)) /\
  (exists m, snd (add_demand E0 Flex "A" "X" 7 "d0" flex1) = Err (ModelException m)).
Proof. split; [exact flex1_alloc|]. vm_compute. repeat split; eauto. Qed.

(** ** C36 add_rsvp_lsp and the stale group cache *)
Theorem C36_add_rsvp_lsp E k src dst name s s' r : allocated s ->
  add_rsvp_lsp E k src dst name s = (s', r) ->
  let known x := exists n, In n (m_nds s) /\ nd_name s n = x in
  let unknown x := forall n, In n (m_nds s) -> nd_name s n <> x in
  let taken := exists l, In l (m_lsps s) /\ lsp_key s l = (src, dst, name) in
  (exists e, r = Err e /\ is_model_exn e = true /\ m_lsps s' = m_lsps s /\
     (forall l, In l (m_lsps s) -> h_ls s' l = h_ls s l) /\
     (unknown src \/ unknown dst \/ taken)) \/
  (known src /\ known dst /\ ~ taken /\ m_groups s' = m_groups s /\
   exists l a b, ~ In l (m_lsps s) /\ m_lsps s' = (m_lsps s ++ [l])%list /\
     In a (m_nds s) /\ nd_name s a = src /\ In b (m_nds s) /\ nd_name s b = dst /\
     h_ls s' l = mkLsp a b name PInit RInit RInit None None None /\
     (forall l', In l' (m_lsps s) -> h_ls s' l' = h_ls s l')).
Proof. exact (add_lsp_exact E k src dst name s s' r). Qed.
Print Assumptions C36_add_rsvp_lsp.

Theorem C36_add_rsvp_lsp_frame E k src dst name s :
  let s' := fst (add_rsvp_lsp E k src dst name s) in
  m_ifs s' = m_ifs s /\ m_nds s' = m_nds s /\ m_dms s' = m_dms s /\ m_srs s' = m_srs s /\
  h_nd s' = h_nd s /\ h_dm s' = h_dm s /\ h_sr s' = h_sr s /\
  (forall i, same_if_data (h_if s i) (h_if s' i)) /\ (forall i, i_traffic (h_if s' i) = i_traffic (h_if s i)).
Proof. exact (add_lsp_rest E k src dst name s). Qed.
Print Assumptions C36_add_rsvp_lsp_frame.
Example C36_example :
  allocated flex2 /\ snd (add_rsvp_lsp E0 Flex "A" "C" "new" flex2) = Ok tt.
Proof. split; [eapply kframe_wf; [apply kf_update|apply flex1_wf]|]. vm_compute. reflexivity. Qed.

(** An LSP of the model whose traffic cannot be read: KeyError. *)
Theorem C36_stale_cache_refuted :
  ~ (forall E k s src dst name l, env_ok E -> keys_unique s -> refs_ok s ->
       let s1 := fst (update_simulation E k s) in
       let s2 := fst (add_rsvp_lsp E k src dst name s1) in
       snd (update_simulation E k s) = Ok tt -> snd (add_rsvp_lsp E k src dst name s1) = Ok tt ->
       In l (m_lsps s2) -> snd (traffic_on_lsp E k l s2) <> Err KeyError).
Proof.
  intros H. apply (H E0 Flex flex1 "A" "C" "new" 100%nat E0_ok flex1_keys flex1_refs); vm_compute; auto.
Qed.
Print Assumptions C36_stale_cache_refuted.
(** after another update_simulation it can be read *)
Example C36_refreshed : snd (traffic_on_lsp E0 Flex 100 (fst (update_simulation E0 Flex
    (fst (add_rsvp_lsp E0 Flex "A" "C" "new" flex2))))) = Ok 12%Q.
Proof. vm_compute. reflexivity. Qed.

(** ** C37 add_circuit *)
Theorem C37_add_circuit E k a b na nb ca cb cap c s s' r : allocated s ->
  (na, nd_name s a) <> (nb, nd_name s b) ->
  add_circuit E k a b na nb ca cb cap c s = (s', r) ->
  let key_used key := exists i, In i (m_ifs s) /\ if_key s i = key in
  let cid_used x := exists i, In i (m_ifs s) /\ i_cid (h_if s i) = x in
  (exists e, r = Err e /\ m_ifs s' = m_ifs s /\ (forall i, In i (m_ifs s) -> h_if s' i = h_if s i) /\
     ((k = Flex /\ (c = CNone \/ cid_used c) /\ is_model_exn e = true) \/
      (k = Perf /\ c = CNone /\ (exists i, In i (m_ifs s) /\ forall z, i_cid (h_if s i) <> CInt z) /\ e = TypeError) \/
      ((ca < 1 \/ cb < 1 \/ (cap <= 0)%Q) /\ is_model_exn e = true) \/
      ((key_used (na, nd_name s a) \/ key_used (nb, nd_name s b)) /\ is_model_exn e = true))) \/
  (1 <= ca /\ 1 <= cb /\ (0 < cap)%Q /\ ~ key_used (na, nd_name s a) /\ ~ key_used (nb, nd_name s b) /\
   exists ia ib c' s1,
     (k = Flex -> c' = c /\ c <> CNone /\ ~ cid_used c) /\
     (k = Perf -> c <> CNone -> c' = c) /\
     (k = Perf -> c = CNone -> (m_ifs s = [] /\ c' = CInt 1) \/
         exists z, c' = CInt (z + 1) /\ cid_used (CInt z) /\
           forall i, In i (m_ifs s) -> exists y, i_cid (h_if s i) = CInt y /\ y <= z) /\
     ~ In ia (m_ifs s) /\ ~ In ib (m_ifs s) /\ ia <> ib /\
     m_ifs s1 = (m_ifs s ++ [ia; ib])%list /\ (forall i, In i (m_ifs s) -> h_if s1 i = h_if s i) /\
     m_nds s1 = m_nds s /\ m_dms s1 = m_dms s /\ m_lsps s1 = m_lsps s /\ m_srs s1 = m_srs s /\
     h_nd s1 = h_nd s /\ h_dm s1 = h_dm s /\ h_ls s1 = h_ls s /\ h_sr s1 = h_sr s /\
     h_if s1 ia = mkIface na ca cap a b c' (TNum 0) false 0 [] true 100 false /\
     h_if s1 ib = mkIface nb cb cap b a c' (TNum 0) false 0 [] true 100 false /\
     validate_model E k s1 = (s', r) /\ m_ifs s' = m_ifs s1).
Proof. exact (add_circuit_exact E k a b na nb ca cb cap c s s' r). Qed.
Print Assumptions C37_add_circuit.
Example C37_example :
  allocated flex1 /\ ("x", nd_name flex1 2) <> ("y", nd_name flex1 3) /\
  snd (add_circuit E0 Flex 2 3 "x" "y" 5 6 10 (CInt 9) flex1) = Ok tt /\
  (exists m, snd (add_circuit E0 Flex 2 3 "x" "y" 5 6 10 (CInt 1) flex1) = Err (ModelException m)) /\
  snd (add_circuit E0 Perf 2 3 "x" "y" 5 6 10 CNone perf1) = Ok tt.
Proof. split; [exact flex1_alloc|]. split; [discriminate|]. vm_compute. repeat split; eauto. Qed.

(** ** C38 Object keys stay unique over histories *)
Theorem C38_keys_unique_history E k l s :
  keys_unique s -> wf_refs s -> valid_hist E k l s -> keys_unique (run_ops E k l s).
Proof. intros HU HW HV. exact (proj1 (keys_history E k l s HV (conj HU HW))). Qed.
Print Assumptions C38_keys_unique_history.
Theorem C38_keys_unique_from_empty E k l : valid_hist E k l init_st -> keys_unique (run_ops E k l init_st).
Proof. intros HV. exact (proj1 (keys_history E k l init_st HV kinv_init)). Qed.
Print Assumptions C38_keys_unique_from_empty.

Definition demo_hist : list op :=
  [OpNewNode "A"; OpNewNode "B"; OpNewNode "A"; OpAddNode 0; OpAddNode 1; OpAddNode 2;
   OpAddCircuit 0 1 "a" "b" 3 4 100 (CInt 1); OpAddCircuit 0 1 "a" "c" 3 4 100 (CInt 2);
   OpAddDemand "A" "B" 5 "d"; OpAddDemand "A" "B" 6 "d"; OpAddDemand "B" "A" (-(6)) "n"; OpAddLsp "A" "B" "l"; OpUpdate].
Definition demo_st : st := run_ops E0 Flex demo_hist init_st.
Example C38_example :
  valid_hist E0 Flex demo_hist init_st /\
  (List.length (m_ifs demo_st), List.length (m_nds demo_st), List.length (m_dms demo_st), List.length (m_lsps demo_st))
    = (2, 2, 1, 1)%nat.
Proof.
  split; [|vm_compute; reflexivity].
  vm_compute. repeat split; try lia; intros H; try discriminate.
Qed.

(** ** C39 change_interface_name and add_network_interfaces_from_list *)
Theorem C39_rename_refuted :
  ~ (forall E k s nname old new, env_ok E -> keys_unique s -> refs_ok s ->
       let s1 := fst (change_interface_name nname old new s) in
       snd (validate_model E k s1) = Ok tt -> keys_unique s1).
Proof.
  intros H. specialize (H E0 Flex flex1 "A" "ab1" "ab2" E0_ok flex1_keys flex1_refs).
  destruct H as [H _]; [vm_compute; reflexivity|]. vm_compute in H. inversion H as [|? ? N _]. apply N. simpl; auto.
Qed.
Print Assumptions C39_rename_refuted.

Theorem C39_add_network_interfaces_refuted :
  ~ (forall E k s l, env_ok E -> keys_unique s -> refs_ok s ->
       let s1 := fst (add_network_interfaces E k l s) in
       snd (add_network_interfaces E k l s) = Ok tt -> keys_unique s1).
Proof.
  intros H.
  specialize (H E0 Flex flex1 [mkInfo "ab1" 3 50 "A" "C" (CInt 9); mkInfo "ca9" 3 50 "C" "A" (CInt 9)] E0_ok flex1_keys flex1_refs).
  destruct H as [H _]; [vm_compute; reflexivity|]. vm_compute in H. inversion H as [|? ? N _]. apply N. simpl; auto 12.
Qed.
Print Assumptions C39_add_network_interfaces_refuted.

(** ** C40 Costs and capacities stay positive *)
Theorem C40_positive_history E k l :
  let s := run_ops E k l init_st in
  (forall i, In i (m_ifs s) -> 1 <= i_cost (h_if s i) /\ (0 < i_cap (h_if s i))%Q) /\
  (forall d, In d (m_dms s) -> (0 <= d_traffic (h_dm s d))%Q).
Proof.
  intros s. destruct (positive_history E k l init_st positive_init) as [H1 H2].
  exact (conj (fun i _ => H1 i) (fun d _ => H2 d)).
Qed.
Print Assumptions C40_positive_history.
Example C40_example :
  map (fun i => i_cost (h_if demo_st i)) (m_ifs demo_st) = [3; 4] /\
  map (fun d => d_traffic (h_dm demo_st d)) (m_dms demo_st) = [5%Q].
Proof. vm_compute. split; reflexivity. Qed.

(** ** C41 Lookups return the right object *)
Theorem C41_lookups s : keys_unique s -> refs_ok s ->
  (forall name, match get_node s name with
     | Ok n => forall m, In m (m_nds s) /\ nd_name s m = name <-> m = n
     | Err e => is_model_exn e = true /\ forall n, In n (m_nds s) -> nd_name s n <> name end) /\
  (forall iname nname, match get_interface s iname nname with
     | Ok i => forall j, In j (m_ifs s) /\ if_key s j = (iname, nname) <-> j = i
     | Err e => is_model_exn e = true /\ forall j, In j (m_ifs s) -> if_key s j <> (iname, nname) end) /\
  (forall src dst name, match get_demand s src dst name with
     | Ok d => forall x, In x (m_dms s) /\ dmd_key s x = (src, dst, name) <-> x = d
     | Err e => is_model_exn e = true /\ forall x, In x (m_dms s) -> dmd_key s x <> (src, dst, name) end) /\
  (forall src dst name, match get_lsp s src dst name with
     | Ok l => forall x, In x (m_lsps s) /\ lsp_key s x = (src, dst, name) <-> x = l
     | Err e => is_model_exn e = true /\ forall x, In x (m_lsps s) -> lsp_key s x <> (src, dst, name) end) /\
  (forall name, match get_srlg s name with
     | Ok g => forall x, In x (m_srs s) /\ srlg_name s x = name <-> x = g
     | Err e => is_model_exn e = true /\ forall x, In x (m_srs s) -> srlg_name s x <> name end).
Proof. exact (lookups_exact s). Qed.
Print Assumptions C41_lookups.
Example C41_example :
  keys_unique flex1 /\ refs_ok flex1 /\ get_interface flex1 "bc" "B" = Ok 4%nat /\
  get_demand flex1 "B" "A" "d1" = Ok 1%nat /\ get_lsp flex1 "B" "A" "l1" = Ok 1%nat.
Proof. split; [exact flex1_keys|]. split; [exact flex1_refs|]. vm_compute. auto. Qed.

(** ** C42 manual_metric life cycle *)
Theorem C42_manual_metric l acts s s' outs :
  do_actions l acts s = (s', outs) ->
  mrun (mstate_of (h_ls s l)) acts = (mstate_of (h_ls s' l), outs) /\ only_metric s s' l.
Proof. exact (do_actions_run l acts s s' outs). Qed.
Print Assumptions C42_manual_metric.
(** the first assignment to an LSP created with a configured metric is lost *)
Theorem C42_first_assignment_lost_refuted :
  ~ (forall l v s, 0 < v -> snd (set_manual_metric l v s) = Ok tt ->
       snd (get_manual_metric l (fst (set_manual_metric l v s))) = Ok (Some v)).
Proof.
  intros H. specialize (H 0%nat 7 (net [nd "A"] [] [] [mkLsp 0 0 "l" PInit RInit RInit None None (Some 3)] [])).
  assert (X : Ok (Some 3) = Ok (Some 7)); [|discriminate]. apply H; vm_compute; auto.
Qed.
Print Assumptions C42_first_assignment_lost_refuted.
Example C42_example :
  snd (do_actions 0 [MAssign 7; MRead; MAssign 7; MRead; MAssign 0; MRead; MAssign (-1); MRead]
     (net [nd "A"] [] [] [mkLsp 0 0 "l" PInit RInit RInit None None (Some 3)] []))
  = [OutDone; OutValue (Some 3); OutDone; OutValue (Some 7); OutModelExn; OutValue (Some 7); OutDone; OutValue None].
Proof. vm_compute. reflexivity. Qed.

(** ** C46 Interface.lsps, Interface.demands and demands_on_lsp *)
Theorem C46_interface_lsps s i : NoDup (map (if_key s) (m_ifs s)) -> In i (m_ifs s) ->
  (forall l ifs c b, In l (m_lsps s) -> l_path (h_ls s l) = PRouted ifs c b -> forall j, In j ifs -> In j (m_ifs s)) ->
  (forall l, In l (m_lsps s) -> l_path (h_ls s l) <> PEmpty) ->
  exists ls, iface_lsps s i = Ok ls /\ (NoDup (m_lsps s) -> NoDup ls) /\
    forall l, In l ls <-> In l (m_lsps s) /\ exists ifs c b, l_path (h_ls s l) = PRouted ifs c b /\ In i ifs.
Proof. exact (iface_lsps_exact s i). Qed.
Print Assumptions C46_interface_lsps.
Theorem C46_demands_on_lsp s l :
  (NoDup (m_dms s) -> NoDup (demands_on_lsp s l)) /\
  forall d, In d (demands_on_lsp s l) <->
    In d (m_dms s) /\ exists ps p, d_path (h_dm s d) = DPaths ps /\ In p ps /\ In (ILsp l) p.
Proof. split; [apply NoDup_filter|]. intros d. exact (demands_on_lsp_exact s l d). Qed.
Print Assumptions C46_demands_on_lsp.
Theorem C46_interface_demands s i : NoDup (map (if_key s) (m_ifs s)) -> In i (m_ifs s) ->
  (forall d ps p, In d (m_dms s) -> d_path (h_dm s d) = DPaths ps -> In p ps ->
     (forall j, In (IIf j) p -> In j (m_ifs s)) /\
     (forall l, In (ILsp l) p -> exists ifs c b, l_path (h_ls s l) = PRouted ifs c b /\ forall j, In j ifs -> In j (m_ifs s))) ->
  exists ds, iface_demands s i = Ok ds /\ (NoDup (m_dms s) -> NoDup ds) /\
    forall d, In d ds <-> In d (m_dms s) /\ exists ps p, d_path (h_dm s d) = DPaths ps /\ In p ps /\
      (In (IIf i) p \/ exists l ifs c b, In (ILsp l) p /\ l_path (h_ls s l) = PRouted ifs c b /\ In i ifs).
Proof. exact (iface_demands_exact s i). Qed.
Print Assumptions C46_interface_demands.
(** demand 1 rides both LSPs; demand 0 crosses interface 4 directly *)
Example C46_example :
  iface_lsps flex2 1 = Ok [0%nat; 1%nat] /\ demands_on_lsp flex2 1 = [1%nat] /\
  iface_demands flex2 1 = Ok [1%nat] /\ iface_demands flex2 4 = Ok [0%nat].
Proof. vm_compute. auto. Qed.
Example C46_hypotheses : NoDup (map (if_key flex2) (m_ifs flex2)) /\
  (forall l, In l (m_lsps flex2) -> l_path (h_ls flex2 l) <> PEmpty).
Proof.
  split; [vm_compute; nodup_tac|]. intros l H. vm_compute in H. in_tac; vm_compute; discriminate.
Qed.

(** ** C47 simulation_diagnostics *)
Theorem C47_diagnostics s :
  let g := simulation_diagnostics s in
  (dg_with g + dg_without g + dg_unr_lsps g = Z.of_nat (List.length (m_lsps s)))%Z /\
  (dg_riding g + dg_not_riding g = Z.of_nat (List.length (m_dms s)))%Z /\
  dg_riding g = Z.of_nat (List.length (dg_dmds_riding g)) /\
  dg_with g = Z.of_nat (List.length (dg_lsps_with g)) /\
  dg_without g = Z.of_nat (List.length (dg_lsps_without g)) /\
  (dg_unr_dmds g <= dg_not_riding g)%Z /\
  dg_unr_dmds g = Z.of_nat (List.length (filter (fun d => match d_path (h_dm s d) with DUnrouted => true | _ => false end) (m_dms s))) /\
  dg_unr_lsps g = Z.of_nat (List.length (filter (fun l => match l_path (h_ls s l) with PUnrouted => true | _ => false end) (m_lsps s))) /\
  (NoDup (m_lsps s) -> NoDup (dg_lsps_with g) /\ NoDup (dg_lsps_without g)) /\ (NoDup (m_dms s) -> NoDup (dg_dmds_riding g)) /\
  (forall l, In l (dg_lsps_with g) <-> In l (m_lsps s) /\ l_path (h_ls s l) <> PUnrouted /\
      exists d ps p, In d (m_dms s) /\ d_path (h_dm s d) = DPaths ps /\ In p ps /\ In (ILsp l) p) /\
  (forall l, In l (dg_lsps_without g) <-> In l (m_lsps s) /\ l_path (h_ls s l) <> PUnrouted /\
      ~ exists d ps p, In d (m_dms s) /\ d_path (h_dm s d) = DPaths ps /\ In p ps /\ In (ILsp l) p) /\
  (forall d, In d (dg_dmds_riding g) <-> In d (m_dms s) /\ rides_an_lsp s d).
Proof. exact (diagnostics_partition s). Qed.
Print Assumptions C47_diagnostics.
Example C47_example :
  let g := simulation_diagnostics flex2 in
  (dg_with g, dg_without g, dg_unr_lsps g, dg_riding g, dg_not_riding g, dg_unr_dmds g) = (2, 0, 0, 1, 2, 1).
Proof. vm_compute. reflexivity. Qed.
(** Before the first simulation no LSP is counted as unrouted. *)
Theorem C47_initial_lsps_refuted :
  ~ (forall s, (dg_unr_lsps (simulation_diagnostics s) =
       Z.of_nat (List.length (filter (fun l => match l_path (h_ls s l) with PRouted _ _ _ => false | _ => true end) (m_lsps s))))%Z).
Proof. intros H. specialize (H flex1). vm_compute in H. discriminate. Qed.
Print Assumptions C47_initial_lsps_refuted.

(** ** C49 get_remote_interface is an involution on valid models *)
Theorem C49_remote_interface s : (forall i, In i (m_ifs s) -> exists j, sole_other_end s i j) ->
  forall i, In i (m_ifs s) ->
  exists j, get_remote_interface s i = Ok j /\ other_end s i j /\ get_remote_interface s j = Ok i.
Proof. exact (get_remote_involution s). Qed.
Print Assumptions C49_remote_interface.
Example C49_example : (forall i, In i (m_ifs flex1) -> exists j, sole_other_end flex1 i j) /\
  get_remote_interface flex1 2 = Ok 3%nat /\ get_remote_interface flex1 3 = Ok 2%nat.
Proof.
  split; [|vm_compute; auto].
  intros i H. vm_compute in H.
  assert (X : forall i j, (i = 0 /\ j = 1 \/ i = 1 /\ j = 0 \/ i = 2 /\ j = 3 \/ i = 3 /\ j = 2 \/ i = 4 /\ j = 5 \/ i = 5 /\ j = 4 \/ i = 6 /\ j = 7 \/ i = 7 /\ j = 6)%nat -> sole_other_end flex1 i j).
  { clear. intros i j H. assert (A : other_end flex1 i j).
    { repeat destruct H as [[-> ->]|H]; try destruct H as [-> ->]; vm_compute; intuition. }
    split; auto. intros x Hx L C. vm_compute in Hx.
    repeat destruct H as [[-> ->]|H]; try destruct H as [-> ->]; in_tac; vm_compute in L, C; congruence. }
  in_tac; eexists; apply X; intuition eauto.
Qed.
