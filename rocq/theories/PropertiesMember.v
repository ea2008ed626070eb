(** PropertiesMember.v - theorems about SRLG membership calls, the failed
    setters, and calls that add or edit nodes and interfaces. *)
From Verif Require Import Base Graph Objects Sim Api Build Spec SpecHist SpecCkt SpecFail SpecMember SpecInfo Nets
  GraphProofs MonadProofs HistProofs ApiProofs ValidateProofs MemberProofs InfoProofs PropertiesFail.

(** ** C59 SRLG membership *)
Theorem C59_interface_add_to_srlg s i j name create s' r :
  NoDup (map (srlg_name s) (m_srs s)) -> (forall g, In g (m_srs s) -> (g < s_next s)%nat) ->
  In i (m_ifs s) -> sole_other_end s i j -> iface_add_to_srlg i name create s = (s', r) ->
  (forall g, srlg_called s name g -> r = Ok tt /\ only_ifs s s' /\ ifs_join s s' g (fun x => x = i \/ x = j)) /\
  (no_srlg_called s name -> create = true ->
     r = Ok tt /\ exists g, new_srlg s s' g name /\ h_nd s' = h_nd s /\ ifs_join s s' g (fun x => x = i \/ x = j)) /\
  (no_srlg_called s name -> create = false -> s' = s /\ exists m, r = Err (ModelException m)).
Proof. exact (if_add i j name create s s' r). Qed.
Print Assumptions C59_interface_add_to_srlg.
Theorem C59_node_add_to_srlg s n name create s' r :
  NoDup (map (srlg_name s) (m_srs s)) -> (forall g, In g (m_srs s) -> (g < s_next s)%nat) ->
  node_add_to_srlg n name create s = (s', r) ->
  (forall g, srlg_called s name g -> r = Ok tt /\ only_nodes s s' /\ nds_join s s' g (fun x => x = n)) /\
  (no_srlg_called s name -> create = true ->
     r = Ok tt /\ exists g, new_srlg s s' g name /\ h_if s' = h_if s /\ nds_join s s' g (fun x => x = n)) /\
  (no_srlg_called s name -> create = false -> s' = s /\ exists m, r = Err (ModelException m)).
Proof. exact (nd_add n name create s s' r). Qed.
Print Assumptions C59_node_add_to_srlg.
Theorem C59_add_srlg s name s' r : (forall g, In g (m_srs s) -> (g < s_next s)%nat) -> add_srlg name s = (s', r) ->
  (forall g, srlg_called s name g -> s' = s /\ exists m, r = Err (ModelException m)) /\
  (no_srlg_called s name -> r = Ok tt /\ exists g, new_srlg s s' g name /\ h_if s' = h_if s /\ h_nd s' = h_nd s).
Proof. exact (srlg_add name s s' r). Qed.
Print Assumptions C59_add_srlg.
(** After the interface and its other end have left, interface.failed = False is
    assigned on the interface only. *)
Theorem C59_interface_remove_from_srlg s i j name s' r :
  NoDup (map (srlg_name s) (m_srs s)) -> In i (m_ifs s) -> sole_other_end s i j -> i <> j ->
  iface_remove_from_srlg i name s = (s', r) ->
  (no_srlg_called s name -> s' = s /\ exists m, r = Err (ModelException m)) /\
  (forall g, srlg_called s name g ->
    (~ In g (i_srlgs (h_if s i)) -> s' = s /\ r = Err KeyError) /\
    (In g (i_srlgs (h_if s i)) -> ~ In g (i_srlgs (h_if s j)) -> r = Err KeyError /\ only_ifs s s' /\ ifs_leave s s' g (fun x => x = i)) /\
    (In g (i_srlgs (h_if s i)) -> In g (i_srlgs (h_if s j)) ->
       exists s1, only_ifs s s1 /\ ifs_leave s s1 g (fun x => x = i \/ x = j) /\ if_assigned s1 s' i false r)).
Proof. exact (if_remove i j name s s' r). Qed.
Print Assumptions C59_interface_remove_from_srlg.
Theorem C59_node_remove_from_srlg s n name s' r :
  NoDup (map (srlg_name s) (m_srs s)) -> In n (m_nds s) -> node_remove_from_srlg n name s = (s', r) ->
  (no_srlg_called s name -> s' = s /\ exists m, r = Err (ModelException m)) /\
  (forall g, srlg_called s name g ->
    (~ In g (n_srlgs (h_nd s n)) -> s' = s /\ r = Err KeyError) /\
    (In g (n_srlgs (h_nd s n)) -> exists s1, only_nodes s s1 /\ nds_leave s s1 g (fun x => x = n) /\ nd_assigned s1 s' n false r)).
Proof. exact (nd_remove n name s s' r). Qed.
Print Assumptions C59_node_remove_from_srlg.

(** an SRLG "g" with node B, interface 2 and its other end 3 *)
Definition mem0 : st := chain false false false [0%nat] false false false false [] [] [0%nat] false false.
Example C59_example :
  NoDup (map (srlg_name mem0) (m_srs mem0)) /\ (forall g, In g (m_srs mem0) -> (g < s_next mem0)%nat) /\
  sole_other_end mem0 0 1 /\ sole_other_end mem0 2 3 /\ srlg_called mem0 "g" 0 /\ no_srlg_called mem0 "new" /\
  map (fun i => i_srlgs (h_if (fst (iface_add_to_srlg 0 "g" false mem0)) i)) [0; 1; 2; 3]%nat = [[0]; [0]; [0]; [0]]%nat /\
  map (fun i => List.length (i_srlgs (h_if (fst (iface_add_to_srlg 2 "new" true mem0)) i))) [0; 1; 2; 3]%nat = [0; 0; 2; 2]%nat /\
  (exists m, snd (iface_add_to_srlg 0 "new" false mem0) = Err (ModelException m)) /\
  map (fun i => i_srlgs (h_if (fst (iface_remove_from_srlg 2 "g" mem0)) i)) [0; 1; 2; 3]%nat = [[]; []; []; []] /\
  snd (iface_remove_from_srlg 2 "g" mem0) = Ok tt /\ snd (iface_remove_from_srlg 0 "g" mem0) = Err KeyError /\
  n_srlgs (h_nd (fst (node_remove_from_srlg 1 "g" mem0)) 1) = [] /\ snd (node_remove_from_srlg 1 "h" mem0) = Err KeyError /\
  (exists m, snd (add_srlg "g" mem0) = Err (ModelException m)) /\ List.length (m_srs (fst (add_srlg "new" mem0))) = 3%nat.
Proof.
  split; [vm_compute; nd_tac|]. split; [apply refs_below; vm_compute; reflexivity|]. split; [sole_tac|]. split; [sole_tac|].
  split; [vm_compute; auto|]. split; [intros g H; vm_compute in H; in_tac; vm_compute; discriminate|].
  vm_compute. repeat split; eauto.
Qed.

(** ** C68 The failed setters, Interface.fail_interface and
    Interface.unfail_interface *)
Theorem C68_interface_failed_setter s i b s' r : iface_set_failed i b s = (s', r) -> if_assigned s s' i b r.
Proof. exact (if_assign i b s s' r). Qed.
Print Assumptions C68_interface_failed_setter.
Theorem C68_node_failed_setter s n b s' r : node_set_failed n b s = (s', r) -> nd_assigned s s' n b r.
Proof. exact (nd_assign n b s s' r). Qed.
Print Assumptions C68_node_failed_setter.
Theorem C68_interface_fail s i j s' r : In i (m_ifs s) -> sole_other_end s i j -> iface_fail i s = (s', r) ->
  r = Ok tt /\ only_ifs s s' /\ (forall x, x = i \/ x = j -> downed (h_if s x) (h_if s' x)) /\
  (forall x, x <> i -> x <> j -> h_if s' x = h_if s x).
Proof. exact (if_fail_exact i j s s' r). Qed.
Print Assumptions C68_interface_fail.
Theorem C68_interface_unfail s i j s' r : In i (m_ifs s) -> sole_other_end s i j -> iface_unfail i s = (s', r) ->
  (~ ends_up s i /\ s' = s /\ exists m, r = Err (ModelException m)) \/
  (ends_up s i /\ exists s1 r1, if_assigned s s1 i false r1 /\
     ((r1 <> Ok tt /\ r = r1 /\ s' = s1) \/ (r1 = Ok tt /\ if_assigned s1 s' j false r))).
Proof. exact (if_unfail_exact i j s s' r). Qed.
Print Assumptions C68_interface_unfail.
(** interface 2 in an SRLG that is failed; node A failed *)
Definition mem1 : st := chain true false false [0%nat] true true true true [] [] [0%nat] true false.
Example C68_example : sole_other_end mem1 0 1 /\ sole_other_end mem1 2 3 /\
  in_failed_srlg mem1 (i_srlgs (h_if mem1 2)) /\ ~ in_failed_srlg mem1 (i_srlgs (h_if mem1 0)) /\ ~ ends_up mem1 0 /\ ends_up mem1 2 /\
  in_failed_srlg mem1 (n_srlgs (h_nd mem1 1)) /\ ~ in_failed_srlg mem1 (n_srlgs (h_nd mem1 0)) /\
  snd (iface_set_failed 0 false mem1) = Ok tt /\ i_failed (h_if (fst (iface_set_failed 0 false mem1)) 0) = true /\
  n_failed (h_nd (fst (node_set_failed 0 false mem1)) 0) = false /\
  i_failed (h_if (fst (iface_set_failed 0 false (fst (node_set_failed 0 false mem1)))) 0) = false.
Proof.
  split; [sole_tac|]. split; [sole_tac|]. split; [exists 0%nat; vm_compute; auto|]. split; [intros (g & [] & _)|].
  split; [intros [H _]; vm_compute in H; discriminate|]. split; [vm_compute; auto|]. split; [exists 0%nat; vm_compute; auto|].
  split; [intros (g & [] & _)|]. vm_compute. auto.
Qed.

(** ** C60 topology_metric *)
Theorem C60_topology_metric s l :
  match l_path (h_ls s l) with
  | PRouted ifs _ _ => topology_metric s l = Ok (Some (route_cost s ifs))
  | PEmpty => topology_metric s l = Err KeyError
  | _ => topology_metric s l = Ok None
  end.
Proof. exact (topology_exact s l). Qed.
Print Assumptions C60_topology_metric.
Example C60_example : exists ifs c b, l_path (h_ls flex2 0) = PRouted ifs c b /\ ifs <> [] /\ topology_metric flex2 0 = Ok (Some (route_cost flex2 ifs)) /\
  topology_metric flex1 0 = Ok None.
Proof. vm_compute. do 3 eexists. split; [reflexivity|]. split; [discriminate|]. auto. Qed.

(** ** C61 Circuit.failed and get_circuit_object_from_interface *)
Theorem C61_circuit_failed s a b : circuit_failed s (a, b) = true <-> i_failed (h_if s a) = true \/ i_failed (h_if s b) = true.
Proof. unfold circuit_failed. simpl. apply orb_true_iff. Qed.
Print Assumptions C61_circuit_failed.
Theorem C61_get_circuit s i : keys_unique s -> refs_ok s -> (forall a b, In (a, b) (m_ckts s) -> In a (m_ifs s) /\ In b (m_ifs s)) -> In i (m_ifs s) ->
  match get_circuit s (i_name (h_if s i)) (loc s i) with
  | Ok c => In c (m_ckts s) /\ end_of c i
  | Err e => e = IndexError /\ forall c, In c (m_ckts s) -> ~ end_of c i
  end.
Proof. exact (get_circuit_exact s i). Qed.
Print Assumptions C61_get_circuit.
Theorem C61_get_circuit_unknown s iname nname : (forall i, In i (m_ifs s) -> if_key s i <> (iname, nname)) ->
  exists m, get_circuit s iname nname = Err (ModelException m).
Proof. exact (get_circuit_none s iname nname). Qed.
Print Assumptions C61_get_circuit_unknown.
(** In a validated model the circuit of an interface is that of the interface
    and its other end, and both ends are in the same state. *)
Theorem C61_validated_circuit E s s' i : env_ok E -> keys_unique s -> refs_ok s -> cids_set Flex s -> validate_model E Flex s = (s', Ok tt) ->
  In i (m_ifs s') -> available s i ->
  exists a b, get_circuit s' (i_name (h_if s' i)) (loc s' i) = Ok (a, b) /\ In (a, b) (m_ckts s') /\ end_of (a, b) i /\
    is_reverse Flex s' a b /\ (circuit_failed s' (a, b) = true <-> i_failed (h_if s' i) = true).
Proof. exact (validated_circuit E s s' i). Qed.
Print Assumptions C61_validated_circuit.
Example C61_example : cids_set Flex flex2 /\ (exists s', validate_model E0 Flex flex2 = (s', Ok tt) /\
  get_circuit s' "bc" "B" = Ok (4, 5)%nat /\ circuit_failed s' (4, 5)%nat = false /\
  circuit_failed (fst (fail_interface "bc" "B" s')) (4, 5)%nat = true /\ circuit_failed (upd_if 5 (if_failed true) s') (4, 5)%nat = true).
Proof.
  split; [intros _ i Hi; vm_compute in Hi; in_tac; vm_compute; discriminate|].
  exists (fst (validate_model E0 Flex flex2)). split; [apply run_split; vm_compute; reflexivity|]. vm_compute. auto.
Qed.

(** ** C65 add_node, change_interface_name, add_network_interfaces_from_list,
    and the cost and capacity setters *)
Theorem C65_add_node E k n s s' r : add_node E k n s = (s', r) ->
  ((exists m, In m (m_nds s) /\ nd_name s m = nd_name s n) -> s' = s /\ exists m, r = Err (ModelException m)) /\
  ((forall m, In m (m_nds s) -> nd_name s m <> nd_name s n) ->
     exists s1, only_node_set s s1 /\ m_nds s1 = (m_nds s ++ [n])%list /\ validate_model E k s1 = (s', r)).
Proof. exact (add_node_exact E k n s s' r). Qed.
Print Assumptions C65_add_node.
Theorem C65_change_interface_name nname old new s s' r : change_interface_name nname old new s = (s', r) ->
  ((forall i, In i (m_ifs s) -> if_key s i <> (old, nname)) -> s' = s /\ exists m, r = Err (ModelException m)) /\
  (keys_unique s -> refs_ok s -> forall i, In i (m_ifs s) -> if_key s i = (old, nname) ->
     r = Ok tt /\ only_ifs s s' /\ (forall x, x <> i -> h_if s' x = h_if s x) /\ but_name (h_if s i) (h_if s' i) /\ i_name (h_if s' i) = new).
Proof. exact (rename_exact nname old new s s' r). Qed.
Print Assumptions C65_change_interface_name.
Theorem C65_cost_setter i c s s' r : iface_set_cost i c s = (s', r) ->
  ((c < 1)%Z -> s' = s /\ exists m, r = Err (ModelException m)) /\
  ((1 <= c)%Z -> r = Ok tt /\ only_ifs s s' /\ (forall x, x <> i -> h_if s' x = h_if s x) /\ but_cost (h_if s i) (h_if s' i) /\ i_cost (h_if s' i) = c).
Proof. exact (set_cost_exact i c s s' r). Qed.
Print Assumptions C65_cost_setter.
Theorem C65_capacity_setter i c s s' r : iface_set_capacity i c s = (s', r) ->
  ((c <= 0)%Q -> s' = s /\ exists m, r = Err (ModelException m)) /\
  ((0 < c)%Q -> r = Ok tt /\ only_ifs s s' /\ (forall x, x <> i -> h_if s' x = h_if s x) /\ but_cap (h_if s i) (h_if s' i) /\ i_cap (h_if s' i) = c).
Proof. exact (set_cap_exact i c s s' r). Qed.
Print Assumptions C65_capacity_setter.
Theorem C65_add_network_interfaces E k l s s' r : allocated s -> add_network_interfaces E k l s = (s', r) ->
  ((exists x, In x l /\ (in_cost x < 1 \/ (in_cap x <= 0)%Q)) ->
     (exists m, r = Err (ModelException m)) /\ m_ifs s' = m_ifs s /\ m_nds s' = m_nds s /\
     forall y, (y < s_next s)%nat -> h_if s' y = h_if s y /\ h_nd s' y = h_nd s y) /\
  ((forall x, In x l -> 1 <= in_cost x /\ (0 < in_cap x)%Q) -> exists s1, ifs_added l s s1 /\ validate_model E k s1 = (s', r)).
Proof. exact (add_network_exact E k l s s' r). Qed.
Print Assumptions C65_add_network_interfaces.

Definition two_new : list if_info := [mkInfo "cz" 3 50 "C" "Z" (CInt 9); mkInfo "zc" 4 50 "Z" "C" (CInt 9)].
Definition grown1 : st := fst (add_network_interfaces E0 Flex two_new flex1).
Example C65_example : allocated flex1 /\ (forall x, In x two_new -> 1 <= in_cost x /\ (0 < in_cap x)%Q) /\
  snd (add_network_interfaces E0 Flex two_new flex1) = Ok tt /\
  (List.length (m_ifs grown1) = 2 + List.length (m_ifs flex1))%nat /\ (List.length (m_nds grown1) = 1 + List.length (m_nds flex1))%nat /\
  (exists m, snd (add_network_interfaces E0 Flex [mkInfo "cd" 0 50 "C" "D" (CInt 9)] flex1) = Err (ModelException m)).
Proof.
  split; [exact flex1_alloc|]. split; [intros x H; vm_compute in H; in_tac; vm_compute; split; congruence|].
  vm_compute. repeat split; eauto.
Qed.
(** The nodes of the new interfaces are not the nodes of the model, so an
    interface added this way can be brought up on a node that is down. *)
Theorem C65_separate_nodes_refuted :
  ~ (forall E k s l s' i n, env_ok E -> keys_unique s -> refs_ok s -> allocated s -> add_network_interfaces E k l s = (s', Ok tt) ->
       In i (m_ifs s') -> In n (m_nds s') -> nd_name s' n = loc s' i ->
       let s2 := fst (fail_node (nd_name s' n) s') in
       i_failed (h_if (fst (iface_set_failed i false s2)) i) = true).
Proof.
  intros H. assert (X : snd (add_network_interfaces E0 Flex two_new flex1) = Ok tt) by (vm_compute; reflexivity).
  specialize (H E0 Flex flex1 two_new _ 102%nat 2%nat E0_ok flex1_keys flex1_refs flex1_alloc (run_split _ _ X)).
  vm_compute in H. assert (Y : false = true); [|discriminate Y]. apply H; auto 20.
Qed.
Print Assumptions C65_separate_nodes_refuted.

(** ** C66 Queries that select objects *)
Theorem C66_interfaces_by_state s :
  (NoDup (m_ifs s) -> NoDup (get_failed_interfaces s) /\ NoDup (get_unfailed_interfaces s)) /\
  forall i, (In i (get_failed_interfaces s) <-> In i (m_ifs s) /\ i_failed (h_if s i) = true) /\
  (In i (get_unfailed_interfaces s) <-> In i (m_ifs s) /\ i_failed (h_if s i) = false).
Proof.
  unfold get_failed_interfaces, get_unfailed_interfaces. split; [intros N; split; apply NoDup_filter; exact N|].
  intros i. rewrite !filter_In, negb_true_iff. tauto.
Qed.
Print Assumptions C66_interfaces_by_state.
Theorem C66_nodes_by_state s : NoDup (map (nd_name s) (m_nds s)) -> exists down up, get_failed_nodes s = Ok down /\ get_non_failed_nodes s = Ok up /\
  NoDup down /\ NoDup up /\
  forall n, (In n down <-> In n (m_nds s) /\ n_failed (h_nd s n) = true) /\ (In n up <-> In n (m_nds s) /\ n_failed (h_nd s n) = false).
Proof.
  intros N. exists (filter (fun n => n_failed (h_nd s n)) (m_nds s)), (filter (fun n => negb (n_failed (h_nd s n))) (m_nds s)).
  split; [exact (filter_names s _ N)|]. split; [exact (filter_names s _ N)|].
  apply NoDup_map_inv in N. split; [apply NoDup_filter; exact N|]. split; [apply NoDup_filter; exact N|]. intros n. rewrite !filter_In, negb_true_iff. tauto.
Qed.
Print Assumptions C66_nodes_by_state.
Theorem C66_unrouted_demands s : (NoDup (m_dms s) -> NoDup (get_unrouted_demands s)) /\
  forall d, In d (get_unrouted_demands s) <-> In d (m_dms s) /\ d_path (h_dm s d) = DUnrouted.
Proof. unfold get_unrouted_demands, demand_unrouted. split; [apply NoDup_filter|]. intros d. rewrite filter_In. destruct (d_path (h_dm s d)); split; intros [A B]; split; auto; discriminate. Qed.
Print Assumptions C66_unrouted_demands.
Theorem C66_demands_by_node s n : (NoDup (m_dms s) -> NoDup (demands_from s n) /\ NoDup (demands_to s n)) /\ forall d,
  (In d (demands_from s n) <-> In d (m_dms s) /\ dmd_from s d = n) /\ (In d (demands_to s n) <-> In d (m_dms s) /\ dmd_to s d = n).
Proof. unfold demands_from, demands_to. split; [intros N; split; apply NoDup_filter; exact N|]. intros d. rewrite !filter_In, !String.eqb_eq. tauto. Qed.
Print Assumptions C66_demands_by_node.
Theorem C66_orphans s : (NoDup (m_nds s) -> NoDup (get_orphans s)) /\ forall n,
  (In n (get_orphans s) <-> In n (m_nds s) /\ forall i, In i (m_ifs s) -> loc s i <> nd_name s n) /\
  (NoDup (map (nd_name s) (m_nds s)) -> In n (m_nds s) -> (is_orphan s n = true <-> forall i, In i (m_ifs s) -> loc s i <> nd_name s n)).
Proof. split; [apply NoDup_filter|]. intros n. split; [exact (orphans_exact s n)|]. intros N Hn. exact (is_orphan_exact s n N Hn). Qed.
Print Assumptions C66_orphans.
Theorem C66_adjacent_nodes s n : keys_unique s -> refs_ok s -> NoDup (adjacent_nodes s n) /\ forall m,
  In m (adjacent_nodes s n) <-> exists i, In i (m_ifs s) /\ loc s i = nd_name s n /\ i_rem (h_if s i) = m.
Proof. intros U R. split; [exact (adjacent_nodup s n)|]. exact (adjacent_exact s n U R). Qed.
Print Assumptions C66_adjacent_nodes.
Example C66_example : get_failed_interfaces mem1 = [0; 1; 2; 3]%nat /\ get_unfailed_interfaces mem0 = [0; 1; 2; 3]%nat /\
  get_failed_nodes mem1 = Ok [0%nat] /\ get_non_failed_nodes mem1 = Ok [1; 2]%nat /\
  get_unrouted_demands flex2 = [2%nat] /\ demands_from flex2 "A" <> [] /\ get_orphans mem0 = [] /\
  adjacent_nodes mem0 1 = [0; 2]%nat.
Proof. vm_compute. repeat split; discriminate. Qed.
