(** PropertiesMap.v - theorems about the weather map. *)
From Coq Require Import DecimalString Sorting.Sorted.
From Verif Require Import Base Graph Objects Sim Api Build Spec SpecHist SpecCkt SpecSim MapTypes Map SpecMap Nets
  GraphProofs MonadProofs MapProofs MapMore MapLists MapSelect MapEdges.

Lemma flex1_run : update_simulation E0 Flex flex1 = (flex2, Ok tt).
Proof. unfold flex2. apply run_split. exact flex1_runs. Qed.
Lemma flex2_keys : keys_unique flex2.
Proof. unfold keys_unique. repeat split; vm_compute; nodup_tac. Qed.
Lemma flex2_refs : refs_ok flex2.
Proof. unfold refs_ok. split; [|split]; intros x H; vm_compute in H; in_tac; vm_compute; auto 10. Qed.
Ltac plain_tac := intros x H; vm_compute in H; in_tac; split; vm_compute; repeat split; discriminate.
Lemma flex1_plain t : plain_names flex1 t.
Proof. destruct t; plain_tac. Qed.
Lemma flex2_plain t : plain_names flex2 t.
Proof. destruct t; plain_tac. Qed.

(** ** C70 The elements of the map *)
Theorem C70_elements s :
  made_of (circuit_places s) (m_ckts s) (fst (create_elements s)) /\ made_of (circuit_parts s) (m_ckts s) (snd (create_elements s)).
Proof. exact (elements_spec s). Qed.
Print Assumptions C70_elements.
Theorem C70_interfaces E s s' i : env_ok E -> NoDup (m_ifs s) -> cids_set Flex s -> lsps_sane s -> NoDup (map (if_key s) (m_ifs s)) ->
  (forall j, In j (m_ifs s) -> loc s j <> rem s j) -> validate_model E Flex s = (s', Ok tt) -> In i (m_ifs s) -> available s i ->
  exists e l1 l2, snd (create_elements s') = l1 ++ e :: l2 /\
    je_source e = loc s i /\ je_name e = i_name (h_if s i) /\ je_cost e = i_cost (h_if s i) /\ (je_cap e == i_cap (h_if s i))%Q /\
    shown_cid (i_cid (h_if s i)) (je_cid e) /\ shown_util s' i (je_util e) /\
    forall e', In e' (l1 ++ l2) -> (je_source e', je_name e') <> (loc s i, i_name (h_if s i)).
Proof. exact (interface_drawn E s s' i). Qed.
Print Assumptions C70_interfaces.
Theorem C70_one_place s v w : (forall c i, In c (m_ckts s) -> end_of c i -> In (i_node (h_if s i)) (m_nds s) /\ dash_free (loc s i)) ->
  NoDup (map (nd_name s) (m_nds s)) -> In v (fst (create_elements s)) -> In w (fst (create_elements s)) -> jn_id v = jn_id w ->
  jn_label v = jn_label w /\ jn_group v = jn_group w /\ jn_failed v = jn_failed w /\ jn_neighbors v = jn_neighbors w /\
  (jn_x v == jn_x w)%Q /\ (jn_y v == jn_y w)%Q.
Proof. intros A B C D F. exact (proj2 (one_place s v w A B C D F)). Qed.
Print Assumptions C70_one_place.
Example C70_example : map je_name (snd (create_elements flex2)) = ["ab1"; "ba1"; "ab2"; "ba2"; "bc"; "cb"; "ac"; "ca"] /\
  map jn_id (fst (create_elements flex2)) = ["midpoint-A-B"; "A"; "B"; "midpoint-A-B"; "A"; "B"; "midpoint-B-C"; "B"; "C"; "midpoint-A-C"; "A"; "C"].
Proof. vm_compute. split; reflexivity. Qed.
Example C70_hypotheses : cids_set Flex flex2 /\ snd (validate_model E0 Flex flex2) = Ok tt /\
  (forall j, In j (m_ifs flex2) -> loc flex2 j <> rem flex2 j) /\
  (forall c i, In c (m_ckts flex2) -> end_of c i -> In (i_node (h_if flex2 i)) (m_nds flex2) /\ dash_free (loc flex2 i)).
Proof.
  split; [intros _ i H; vm_compute in H; in_tac; vm_compute; discriminate|]. split; [vm_compute; reflexivity|].
  split; [intros j H; vm_compute in H; in_tac; vm_compute; discriminate|].
  intros c i H He. vm_compute in H. in_tac; destruct He as [-> | ->]; (split; [vm_compute; auto|vm_compute; repeat split; discriminate]).
Qed.
(** a node without interfaces is not on the map *)
Theorem C70_all_nodes_refuted :
  ~ (forall E s s' n, env_ok E -> keys_unique s -> refs_ok s -> update_simulation E Flex s = (s', Ok tt) -> In n (m_nds s') ->
       exists v, In v (fst (create_elements s')) /\ jn_id v = nd_name s' n).
Proof.
  intros H. destruct (H E0 flex1 flex2 3%nat E0_ok flex1_keys flex1_refs flex1_run) as (v & Hv & Q); [vm_compute; auto|].
  clear H. vm_compute in Hv. in_tac; vm_compute in Q; discriminate Q.
Qed.
Print Assumptions C70_all_nodes_refuted.
(** parallel links do not always share one node in the middle: in the second link
    the end at A has rsvp_enabled=False *)
Definition mid1 : st := net [nd "A"; nd "B"]
  [itf "ab1" 1 10 0 1 1; itf "ba1" 1 10 1 0 1; mkIface "ab2" 1 10 0 1 (CInt 2) (TNum 0) false 0 [] false 100 false; itf "ba2" 1 10 1 0 2] [] [] [].
Definition mid2 : st := fst (update_simulation E0 Flex mid1).
Lemma mid1_run : update_simulation E0 Flex mid1 = (mid2, Ok tt).
Proof. unfold mid2. apply run_split. vm_compute. reflexivity. Qed.
Theorem C70_shared_middle_refuted :
  ~ (forall E s s' c c' v w, env_ok E -> keys_unique s -> refs_ok s -> update_simulation E Flex s = (s', Ok tt) ->
       In c (m_ckts s') -> In c' (m_ckts s') ->
       (loc s' (fst c), loc s' (snd c)) = (loc s' (fst c'), loc s' (snd c')) \/ (loc s' (fst c), loc s' (snd c)) = (loc s' (snd c'), loc s' (fst c')) ->
       mid_for s' c v -> mid_for s' c' w -> jn_id v = jn_id w).
Proof.
  intros H. assert (X : "midpoint-A-B" = "midpoint-B-A").
  { refine (H E0 mid1 mid2 (0, 1)%nat (3, 2)%nat (mkJnode 0 0 "midpoint-A-B" "midpoint-A-B" "midpoint" false ["A"; "B"]) (mkJnode 0 0 "midpoint-B-A" "midpoint-B-A" "midpoint" false ["B"; "A"]) E0_ok _ _ mid1_run _ _ _ _ _); clear.
    - unfold keys_unique. repeat split; vm_compute; nodup_tac.
    - unfold refs_ok. split; [|split]; intros x H; vm_compute in H; in_tac; vm_compute; auto 10.
    - vm_compute. auto.
    - vm_compute. auto.
    - right. vm_compute. reflexivity.
    - vm_compute. repeat split.
    - vm_compute. repeat split. }
  discriminate X.
Qed.
Print Assumptions C70_shared_middle_refuted.

(** ** C71 Colours *)
Theorem C71_colours s e c : In e (snd (create_elements s)) -> (je_group e = Some c <-> colour_for (je_util e) c).
Proof. exact (edges_coloured s e c). Qed.
Print Assumptions C71_colours.
Theorem C71_whole_percent s e z : In e (snd (create_elements s)) -> (exists q, je_util e = Some q /\ q == inject_Z z)%Q -> 0 <= z -> je_group e <> None.
Proof. exact (whole_coloured e z s). Qed.
Print Assumptions C71_whole_percent.
Example C71_example : map je_group (snd (create_elements flex2)) =
  [Some "royalblue"; Some "royalblue"; Some "royalblue"; Some "royalblue"; Some "royalblue"; Some "royalblue"; Some "royalblue"; Some "royalblue"] /\
  colour_for (Some 90%Q) "darkred" /\ colour_for (Some 100%Q) "darkviolet" /\ colour_for None "dimgrey".
Proof.
  split; [vm_compute; reflexivity|]. split; [right; exists 90, 99; split; [simpl; auto 10|vm_compute; split; congruence]|].
  split; [left; split; [vm_compute; congruence|reflexivity]|reflexivity].
Qed.
(** between the ranges, edges have no colour: utilization 24.5 percent *)
Definition pale1 : st := net [nd "A"; nd "B"] [itf "ab" 1 200 0 1 1; itf "ba" 1 200 1 0 1] [dmd 0 1 49 "d"] [] [].
Definition pale2 : st := fst (update_simulation E0 Flex pale1).
Lemma pale1_run : update_simulation E0 Flex pale1 = (pale2, Ok tt).
Proof. unfold pale2. apply run_split. vm_compute. reflexivity. Qed.
Theorem C71_always_coloured_refuted :
  ~ (forall E s s' e, env_ok E -> keys_unique s -> refs_ok s -> costs_ok s -> update_simulation E Flex s = (s', Ok tt) ->
       In e (snd (create_elements s')) -> je_group e <> None).
Proof.
  intros H. assert (X : exists e, In e (snd (create_elements pale2)) /\ je_group e = None).
  { clear. exists (nth 0 (snd (create_elements pale2)) (mkJedge "" "" None "" None "" 0 0)). split; vm_compute; auto. }
  destruct X as (e & He & Q). refine (H E0 pale1 pale2 e E0_ok _ _ _ pale1_run He Q); clear.
  - unfold keys_unique. repeat split; vm_compute; nodup_tac.
  - unfold refs_ok. split; [|split]; intros x H; vm_compute in H; in_tac; vm_compute; auto 10.
  - intros x H; vm_compute in H; in_tac; split; vm_compute; congruence.
Qed.
Print Assumptions C71_always_coloured_refuted.

(** ** C72 Dropdown lists *)
Theorem C72_after_simulation E k s s' : env_ok E -> NoDup (m_ifs s) -> plain_names s TLsp -> update_simulation E k s = (s', Ok tt) ->
  cache_current s' /\ plain_names s' TLsp.
Proof. intros HE. exact (cache_after E HE k s s'). Qed.
Print Assumptions C72_after_simulation.
Theorem C72_sources E s t b : env_ok E -> plain_names s t -> (t = TLsp -> cache_current s) ->
  exists s' l, get_sources E b t s = (s', Ok l) /\ but_cache s s' /\ (t = TDemand -> s' = s) /\ (t = TLsp -> cache_current s') /\
    NoDup l /\ forall a, In a l <-> exists x, In x (objs s t) /\ ofrom s t x = a /\ oto s t x = b.
Proof. intros HE. exact (get_sources_spec E HE s t b). Qed.
Print Assumptions C72_sources.
Theorem C72_destinations E s t a : env_ok E -> plain_names s t -> (t = TLsp -> cache_current s) ->
  exists s' l, get_destinations E a t s = (s', Ok l) /\ but_cache s s' /\ (t = TDemand -> s' = s) /\ (t = TLsp -> cache_current s') /\
    NoDup l /\ forall b, In b l <-> exists x, In x (objs s t) /\ ofrom s t x = a /\ oto s t x = b.
Proof. intros HE. exact (get_destinations_spec E HE s t a). Qed.
Print Assumptions C72_destinations.
Theorem C72_lists E s t : env_ok E -> plain_names s t -> (t = TLsp -> cache_current s) ->
  exists s' srcs dsts, sources_and_destinations E t s = (s', Ok (srcs, dsts)) /\ but_cache s s' /\ (t = TDemand -> s' = s) /\ (t = TLsp -> cache_current s') /\
    alphabetical srcs /\ NoDup srcs /\ (forall a, In a srcs <-> exists x, In x (objs s t) /\ ofrom s t x = a) /\
    alphabetical dsts /\ NoDup dsts /\ (forall b, In b dsts <-> exists x, In x (objs s t) /\ oto s t x = b).
Proof. intros HE. exact (sd_spec E HE s t). Qed.
Print Assumptions C72_lists.
Theorem C72_nodes s : alphabetical (make_node_list s) /\ Permutation (make_node_list s) (map (nd_name s) (m_nds s)).
Proof. exact (node_list_spec s). Qed.
Print Assumptions C72_nodes.
Theorem C72_no_choice E srcs dsts s t : dropdowns E srcs dsts t None None s = (s, Ok (srcs, dsts, [Clear; Text ""])).
Proof. exact (dropdown_none E srcs dsts s t). Qed.
Print Assumptions C72_no_choice.
Theorem C72_both_chosen E srcs dsts s t a b : env_ok E -> plain_names s t -> (t = TLsp -> cache_current s) -> dash_free a ->
  exists s', but_cache s s' /\ (t = TDemand -> s' = s) /\ (t = TLsp -> cache_current s') /\
    dropdowns E srcs dsts t (Some a) (Some b) s =
      (s', match filter (fun x => String.eqb (ofrom s t x) a && String.eqb (oto s t x) b) (objs s t) with
           | [] => Err KeyError
           | l => Ok ([a], [b], Clear :: map (fun x => Obj (okey s t x)) l)
           end).
Proof. intros HE. exact (dropdown_both E HE srcs dsts s t a b). Qed.
Print Assumptions C72_both_chosen.
Theorem C72_destination_chosen E srcs dsts s t b : env_ok E -> plain_names s t -> NoDup (objs s t) -> (t = TLsp -> cache_current s) ->
  exists s' r, dropdowns E srcs dsts t None (Some b) s = (s', r) /\ but_cache s s' /\ (t = TDemand -> s' = s) /\ (t = TLsp -> cache_current s') /\
    ((forall x, In x (objs s t) -> oto s t x <> b) -> r = Err IndexError) /\
    ((exists x, In x (objs s t) /\ oto s t x = b) -> exists ss os, r = Ok (ss, [b], Clear :: map Obj os) /\
       alphabetical ss /\ NoDup ss /\ (forall a, In a ss <-> exists x, In x (objs s t) /\ ofrom s t x = a /\ oto s t x = b) /\
       Permutation os (map (okey s t) (filter (fun x => String.eqb (oto s t x) b) (objs s t)))).
Proof. intros HE. exact (dropdown_dest E HE srcs dsts s t b). Qed.
Print Assumptions C72_destination_chosen.
Theorem C72_source_chosen E srcs dsts s t a : env_ok E -> plain_names s t -> NoDup (objs s t) -> (t = TLsp -> cache_current s) ->
  exists s' r, dropdowns E srcs dsts t (Some a) None s = (s', r) /\ but_cache s s' /\ (t = TDemand -> s' = s) /\ (t = TLsp -> cache_current s') /\
    ((forall x, In x (objs s t) -> ofrom s t x <> a) -> r = Err IndexError) /\
    ((exists x, In x (objs s t) /\ ofrom s t x = a) -> exists ds os, r = Ok ([a], ds, Clear :: map Obj os) /\
       alphabetical ds /\ NoDup ds /\ (forall b, In b ds <-> exists x, In x (objs s t) /\ ofrom s t x = a /\ oto s t x = b) /\
       Permutation os (map (okey s t) (filter (fun x => String.eqb (ofrom s t x) a) (objs s t)))).
Proof. intros HE. exact (dropdown_source E HE srcs dsts s t a). Qed.
Print Assumptions C72_source_chosen.
Example C72_example : snd (get_sources E0 "A" TLsp flex2) = Ok ["B"] /\ snd (get_destinations E0 "A" TDemand flex2) = Ok ["C"; "D"] /\
  snd (sources_and_destinations E0 TDemand flex2) = Ok (["A"; "B"], ["A"; "C"; "D"]) /\
  snd (dropdowns E0 [] [] TDemand (Some "A") None flex2) = Ok (["A"], ["C"; "D"], [Clear; Obj ("A", "C", "d0"); Obj ("A", "D", "d2")]) /\
  snd (dropdowns E0 [] [] TLsp (Some "B") (Some "A") flex2) = Ok (["B"], ["A"], [Clear; Obj ("B", "A", "l0"); Obj ("B", "A", "l1")]).
Proof. vm_compute. repeat split; reflexivity. Qed.
Example C72_hypotheses : plain_names flex2 TDemand /\ cache_current flex2 /\ m_groups flex2 <> [].
Proof.
  split; [apply flex2_plain|]. split; [|vm_compute; discriminate].
  assert (N : NoDup (m_ifs flex1)) by (vm_compute; nodup_tac).
  exact (proj1 (C72_after_simulation E0 Flex flex1 flex2 E0_ok N (flex1_plain TLsp) flex1_run)).
Qed.
(** a node name with '-' *)
Definition dash1 : st := net [nd "A-1"; nd "B"] [itf "ab" 1 10 0 1 1; itf "ba" 1 10 1 0 1] [dmd 0 1 5 "d"; dmd 1 0 5 "e"] [] [].
Theorem C72_dash_lists_refuted :
  ~ (forall E s, env_ok E -> keys_unique s -> refs_ok s -> exists l, snd (sources_and_destinations E TDemand s) = Ok l).
Proof.
  intros H. destruct (H E0 dash1 E0_ok) as (l & X).
  - unfold keys_unique. repeat split; vm_compute; nodup_tac.
  - unfold refs_ok. split; [|split]; intros x Hx; vm_compute in Hx; in_tac; vm_compute; auto 10.
  - vm_compute in X. discriminate X.
Qed.
Print Assumptions C72_dash_lists_refuted.
Theorem C72_dash_sources_refuted :
  ~ (forall E s a b l, env_ok E -> keys_unique s -> refs_ok s -> snd (get_sources E b TDemand s) = Ok l -> In a l ->
       exists x, In x (m_dms s) /\ dmd_from s x = a /\ dmd_to s x = b).
Proof.
  intros H. destruct (H E0 dash1 "B" "A" ["B"] E0_ok) as (x & Hx & A & B).
  - unfold keys_unique. repeat split; vm_compute; nodup_tac.
  - unfold refs_ok. split; [|split]; intros x Hx; vm_compute in Hx; in_tac; vm_compute; auto 10.
  - vm_compute. reflexivity.
  - simpl. auto.
  - vm_compute in Hx. in_tac; vm_compute in A, B; congruence.
Qed.
Print Assumptions C72_dash_sources_refuted.

(** ** C73 Highlighting *)
Theorem C73_demand_interfaces s ds : NoDup (map (if_key s) (m_ifs s)) -> (forall d, In d ds -> sound_paths s d) ->
  exists ifs ls, find_demand_interfaces_and_lsps s ds = Ok (map HIf ifs, ls) /\ NoDup ifs /\ NoDup ls /\
    (forall i, In i ifs <-> exists d, In d ds /\ demand_over s d i) /\ (forall l, In l ls <-> exists d, In d ds /\ demand_rides s d l).
Proof. exact (find_exact s ds). Qed.
Print Assumptions C73_demand_interfaces.
Theorem C73_entries E s cols dm ifc lp : env_ok E -> keys_unique s -> refs_ok s -> plain_names s TDemand -> good_choice s dm lp ->
  exists es, update_stylesheet E s cols dm ifc lp = Ok es /\ forall en, In en es <-> wanted s cols dm ifc lp en.
Proof.
  intros HE KU RO PN [G1 G2]. apply (style_spec s KU RO E cols dm ifc lp HE PN G1).
  intros k Q. destruct (G2 k Q) as (l & ifs & c & b & A1 & A2 & A3 & _). eauto 10.
Qed.
Print Assumptions C73_entries.
Theorem C73_edges E s cols dm ifc lp es c i e : env_ok E -> keys_unique s -> refs_ok s -> plain_names s TDemand -> good_choice s dm lp ->
  paired s -> cid_texts_apart s -> update_stylesheet E s cols dm ifc lp = Ok es ->
  In c (m_ckts s) -> end_of c i -> edge_for s c i e ->
  (marked es DemandOut e <-> chosen_demand_over s dm i) /\
  (marked es DemandIn e <-> exists j, other_end s i j /\ chosen_demand_over s dm j) /\
  (marked es LspOut e <-> chosen_lsp_over s lp i) /\
  (marked es LspIn e <-> exists j, other_end s i j /\ chosen_lsp_over s lp j) /\
  (marked es Chosen e <-> chosen_interface s ifc i).
Proof. intros HE KU RO PN GC PA CA U. exact (marks s KU RO PA CA E cols dm ifc lp es HE PN GC U c i e). Qed.
Print Assumptions C73_edges.
Lemma flex2_paired : paired flex2.
Proof.
  split; [|split].
  - intros a b H. vm_compute in H. repeat (destruct H as [H|H]; [injection H as <- <-; vm_compute; repeat split; auto 10|]). destruct H.
  - intros c c' x H H'. vm_compute in H, H'. in_tac; unfold end_of; cbn [fst snd]; intros; try reflexivity; exfalso; intuition congruence.
  - intros i H. vm_compute in H. in_tac; [exists (0, 1)%nat|exists (0, 1)%nat|exists (2, 3)%nat|exists (2, 3)%nat|exists (4, 5)%nat|exists (4, 5)%nat|exists (6, 7)%nat|exists (6, 7)%nat];
      (split; [vm_compute; auto 10|unfold end_of; cbn [fst snd]; auto]).
Qed.
Lemma flex2_apart : cid_texts_apart flex2.
Proof.
  intros i j x Hi Hj L X Y. vm_compute in Hi, Hj. in_tac; vm_compute in L; try discriminate L; try reflexivity; vm_compute in X, Y; congruence.
Qed.
Definition pick_d1 : option sel := Some (mkSel ("B", "A", "d1") true).
Definition pick_l0 : option sel := Some (mkSel ("B", "A", "l0") true).
Lemma flex2_choice : good_choice flex2 pick_d1 pick_l0.
Proof.
  split; intros k Q; injection Q as <-.
  - split; [exists 1%nat; split; [vm_compute; auto|split; vm_compute; reflexivity]|].
    intros d H [A B]. vm_compute in H. in_tac; vm_compute in A, B; try discriminate.
    eexists. split; [vm_compute; reflexivity|]. intros p x Hp Hx. destruct Hp as [<-|[<-|[]]]; destruct Hx as [<-|[]]; (eexists _, _, _; split; [vm_compute; reflexivity|]; intros i Hi; vm_compute in Hi; in_tac; vm_compute; auto 10).
  - exists 0%nat. eexists _, _, _. split; [vm_compute; auto|]. split; [vm_compute; reflexivity|]. split; [vm_compute; reflexivity|]. intros i Hi; vm_compute in Hi; in_tac; vm_compute; auto 10.
Qed.
Example C73_example : exists es, update_stylesheet E0 flex2 ["green"] pick_d1 None pick_l0 = Ok es /\
  In (OnColour "green" Opaque) es /\ In (OnEdge "1" "B" DemandOut) es /\ In (OnEdge "1" "A" DemandIn) es /\ In (OnEdge "1" "B" LspOut) es /\ In (OnNode "A" LspNode) es.
Proof. eexists. split; [vm_compute; reflexivity|]. simpl. auto 40. Qed.
(** two links at A with the same circuit_id: the link to C is marked although the
    demand goes to B *)
Definition reuse1 : st := net [nd "A"; nd "B"; nd "C"]
  [itf "ab" 1 10 0 1 1; itf "ba" 1 10 1 0 1; itf "ac" 1 10 0 2 1; itf "ca" 1 10 2 0 1] [dmd 0 1 5 "d"] [] [].
Definition reuse2 : st := fst (update_simulation E0 Flex reuse1).
Lemma reuse1_run : update_simulation E0 Flex reuse1 = (reuse2, Ok tt).
Proof. unfold reuse2. apply run_split. vm_compute. reflexivity. Qed.
Theorem C73_reused_ids_refuted :
  ~ (forall E s s' dm es c i e, env_ok E -> keys_unique s -> refs_ok s -> update_simulation E Flex s = (s', Ok tt) ->
       plain_names s' TDemand -> good_choice s' dm None -> paired s' -> update_stylesheet E s' [] dm None None = Ok es ->
       In c (m_ckts s') -> end_of c i -> edge_for s' c i e -> marked es DemandOut e -> chosen_demand_over s' dm i).
Proof.
  intros H.
  assert (X : chosen_demand_over reuse2 (Some (mkSel ("A", "B", "d") true)) 2%nat).
  { pose (es := [OnEdge "1" "A" DemandOut; OnEdge "1" "B" DemandIn; OnNode "A" DemandNode; OnNode "B" DemandNode]).
    refine (H E0 reuse1 reuse2 (Some (mkSel ("A", "B", "d") true)) es (2, 3)%nat 2%nat (circuit_edge reuse2 (2, 3)%nat 2%nat) E0_ok _ _ reuse1_run _ _ _ _ _ _ _ _); clear H.
    - unfold keys_unique. repeat split; vm_compute; nodup_tac.
    - unfold refs_ok. split; [|split]; intros x H; vm_compute in H; in_tac; vm_compute; auto 10.
    - plain_tac.
    - split; intros k Q; [|discriminate]. injection Q as <-. split; [exists 0%nat; split; [vm_compute; auto|split; vm_compute; reflexivity]|].
      intros d H _. vm_compute in H. in_tac. eexists. split; [vm_compute; reflexivity|]. intros p x Hp Hx. destruct Hp as [<-|[]]; destruct Hx as [<-|[]]. vm_compute. auto.
    - split; [|split].
      + intros a b H. vm_compute in H. repeat (destruct H as [H|H]; [injection H as <- <-; vm_compute; repeat split; auto 10|]). destruct H.
      + intros c c' x H H'. vm_compute in H, H'. in_tac; unfold end_of; cbn [fst snd]; intros; try reflexivity; exfalso; intuition congruence.
      + intros i H. vm_compute in H. in_tac; [exists (0, 1)%nat|exists (0, 1)%nat|exists (2, 3)%nat|exists (2, 3)%nat]; (split; [vm_compute; auto 10|unfold end_of; cbn [fst snd]; auto]).
    - vm_compute. reflexivity.
    - vm_compute. auto.
    - left. reflexivity.
    - destruct (edge_parts reuse2 (2, 3)%nat) as (e1 & e2 & Q & A & B). injection Q as <- <-. exact A.
    - exists "1", "A". split; [simpl; auto|]. split; vm_compute; reflexivity. }
  destruct X as (k & d & _ & Hd & _ & (ps & p & P & Hp & O)). clear H. vm_compute in Hd. in_tac. vm_compute in P. injection P as <-. destruct Hp as [<-|[]].
  destruct O as [[O|[]]|(l & ifs & c & b & [O|[]] & _)]; discriminate O.
Qed.
Print Assumptions C73_reused_ids_refuted.
(** a demand added after the simulation spoils the display of the others with its ends *)
Definition late1 : st := net [nd "A"; nd "B"] [itf "ab" 1 10 0 1 1; itf "ba" 1 10 1 0 1] [dmd 0 1 5 "d"] [] [].
Definition late2 : st := fst (update_simulation E0 Flex late1).
Definition late3 : st := fst (add_demand E0 Flex "A" "B" 1 "e" late2).
Theorem C73_late_demand_refuted :
  ~ (forall E s s' s'' src dst x name d b, env_ok E -> keys_unique s -> refs_ok s -> update_simulation E Flex s = (s', Ok tt) ->
       add_demand E Flex src dst x name s' = (s'', Ok tt) -> In d (m_dms s'') -> select_demand s'' (dmd_key s'' d) = Ok b ->
       exists es, update_stylesheet E s'' [] (Some b) None None = Ok es).
Proof.
  intros H. destruct (H E0 late1 late2 late3 "A" "B" 1%Q "e" 0%nat (mkSel ("A", "B", "d") true) E0_ok) as (es & X).
  - unfold keys_unique. repeat split; vm_compute; nodup_tac.
  - unfold refs_ok. split; [|split]; intros x Hx; vm_compute in Hx; in_tac; vm_compute; auto 10.
  - unfold late2. apply run_split. vm_compute. reflexivity.
  - unfold late3. apply run_split. vm_compute. reflexivity.
  - vm_compute. auto.
  - vm_compute. reflexivity.
  - vm_compute in X. discriminate X.
Qed.
Print Assumptions C73_late_demand_refuted.

(** ** C74 Selections *)
Theorem C74_demand s d : keys_unique s -> refs_ok s -> In d (m_dms s) ->
  exists b, select_demand s (dmd_key s d) = Ok (mkSel (dmd_key s d) b) /\ (b = true <-> exists ps, d_path (h_dm s d) = DPaths ps).
Proof. intros KU RO. exact (select_demand_spec s KU RO d). Qed.
Print Assumptions C74_demand.
Theorem C74_lsp s l : keys_unique s -> refs_ok s -> In l (m_lsps s) ->
  exists b, select_lsp s (lsp_key s l) = Ok (mkSel (lsp_key s l) b) /\ (b = true <-> l_path (h_ls s l) <> PUnrouted).
Proof. intros KU RO. exact (select_lsp_spec s KU RO l). Qed.
Print Assumptions C74_lsp.
Theorem C74_interface s i : keys_unique s -> refs_ok s -> In i (m_ifs s) ->
  exists v, select_interface s (format_interface s i) = Ok v /\
    si_source v = loc s i /\ si_name v = i_name (h_if s i) /\ si_dest v = rem s i /\ si_cid v = i_cid (h_if s i) /\
    shown_util s i (si_util v) /\ si_cost v = i_cost (h_if s i).
Proof. intros KU RO. exact (select_interface_spec s KU RO i). Qed.
Print Assumptions C74_interface.
Theorem C74_click s c i j e : In c (m_ckts s) -> c = (i, j) \/ c = (j, i) -> edge_for s c i e -> loc s i <> loc s j -> dash_free (loc s i) -> dash_free (loc s j) ->
  exists v, select_edge e = Ok v /\ si_source v = loc s i /\ si_name v = i_name (h_if s i) /\ si_dest v = loc s j /\
    (exists x, si_cid v = CStr x /\ shown_cid (i_cid (h_if s (fst c))) x) /\ shown_util s i (si_util v) /\ si_cost v = i_cost (h_if s i).
Proof. intros Hc Q. apply click_spec; auto; destruct Q as [-> | ->]; unfold end_of; auto. Qed.
Print Assumptions C74_click.
Theorem C74_node_interfaces s n : keys_unique s -> refs_ok s -> In n (m_nds s) ->
  interfaces_on_node s (nd_name s n) =
  Ok (match filter (fun i => String.eqb (loc s i) (nd_name s n)) (m_ifs s) with [] => [] | l => Clear :: map (fun i => Obj (format_interface s i)) l end).
Proof. intros KU RO. exact (node_options s KU RO n). Qed.
Print Assumptions C74_node_interfaces.
Theorem C74_lsps_on_interface s v i : keys_unique s -> refs_ok s -> In i (m_ifs s) -> (si_name v, si_source v) = if_key s i ->
  (forall l ifs c b, In l (m_lsps s) -> l_path (h_ls s l) = PRouted ifs c b -> forall j, In j ifs -> In j (m_ifs s)) ->
  (forall l, In l (m_lsps s) -> l_path (h_ls s l) <> PEmpty) -> NoDup (m_lsps s) ->
  exists os ls, on_interface s TLsp v = Ok os /\ said "no lsps on interface" os (map (lsp_key s) ls) /\ NoDup ls /\
    forall l, In l ls <-> In l (m_lsps s) /\ exists ifs c b, l_path (h_ls s l) = PRouted ifs c b /\ In i ifs.
Proof. intros KU RO. exact (on_interface_lsps s KU RO v i). Qed.
Print Assumptions C74_lsps_on_interface.
Theorem C74_demands_on_interface s v i : keys_unique s -> refs_ok s -> In i (m_ifs s) -> (si_name v, si_source v) = if_key s i ->
  (forall d, In d (m_dms s) -> d_path (h_dm s d) = DUnrouted \/ sound_paths s d) -> NoDup (m_dms s) ->
  exists os ds, on_interface s TDemand v = Ok os /\ said "no demands on interface" os (map (dmd_key s) ds) /\ NoDup ds /\
    forall d, In d ds <-> In d (m_dms s) /\ demand_over s d i.
Proof. intros KU RO. exact (on_interface_demands s KU RO v i). Qed.
Print Assumptions C74_demands_on_interface.
Theorem C74_demands_on_lsp s l : keys_unique s -> refs_ok s -> In l (m_lsps s) -> NoDup (m_dms s) ->
  exists os ds, on_lsp s (lsp_key s l) = Ok os /\ said "no demands on lsp" os (map (dmd_key s) ds) /\ NoDup ds /\
    forall d, In d ds <-> In d (m_dms s) /\ demand_rides s d l.
Proof. intros KU RO. exact (on_lsp_demands s KU RO l). Qed.
Print Assumptions C74_demands_on_lsp.
Theorem C74_of_demand s d : keys_unique s -> refs_ok s -> In d (m_dms s) -> sound_paths s d ->
  exists ios los ifs ls, demand_interfaces s (dmd_key s d) = Ok (ios, los) /\
    (ios = match ifs with [] => [] | _ => Clear :: map (fun i => Obj (format_interface s i)) ifs end) /\ NoDup ifs /\ (forall i, In i ifs <-> demand_over s d i) /\
    said "Demand does not take LSPs" los (map (lsp_key s) ls) /\ NoDup ls /\ (forall l, In l ls <-> demand_rides s d l).
Proof. intros KU RO. exact (demand_options s KU RO d). Qed.
Print Assumptions C74_of_demand.
Theorem C74_of_lsp s l ifs c b : keys_unique s -> refs_ok s -> In l (m_lsps s) -> l_path (h_ls s l) = PRouted ifs c b ->
  lsp_interface_options s (lsp_key s l) = Ok (match ifs with [] => [] | _ => Clear :: map (fun i => Obj (format_interface s i)) ifs end).
Proof. intros KU RO. exact (lsp_options s KU RO l ifs c b). Qed.
Print Assumptions C74_of_lsp.
Example C74_example : select_demand flex2 ("A", "D", "d2") = Ok (mkSel ("A", "D", "d2") false) /\ select_demand flex2 ("B", "A", "d1") = Ok (mkSel ("B", "A", "d1") true) /\
  on_interface flex2 TLsp (mkSeli "B" "ba1" "A" (CInt 1) None 1) = Ok [Clear; Obj ("B", "A", "l0"); Obj ("B", "A", "l1")] /\
  on_interface flex2 TDemand (mkSeli "C" "cb" "B" (CInt 3) None 1) = Ok [Text "no demands on interface"] /\
  on_lsp flex2 ("B", "A", "l1") = Ok [Clear; Obj ("B", "A", "d1")] /\
  map je_target (snd (create_elements flex2)) = ["midpoint-A-B"; "midpoint-A-B"; "midpoint-A-B"; "midpoint-A-B"; "midpoint-B-C"; "midpoint-B-C"; "midpoint-A-C"; "midpoint-A-C"].
Proof. vm_compute. repeat split; reflexivity. Qed.
(** before the first simulation an LSP counts as routed, and its display fails *)
Theorem C74_fresh_lsp_refuted :
  ~ (forall E s l b, env_ok E -> keys_unique s -> refs_ok s -> In l (m_lsps s) -> select_lsp s (lsp_key s l) = Ok b ->
       exists es, update_stylesheet E s [] None None (Some b) = Ok es).
Proof.
  intros H. destruct (H E0 flex1 0%nat (mkSel ("B", "A", "l0") true) E0_ok flex1_keys flex1_refs) as (es & X).
  - vm_compute. auto.
  - vm_compute. reflexivity.
  - vm_compute in X. discriminate X.
Qed.
Print Assumptions C74_fresh_lsp_refuted.
(** a click on an edge of a node with '-' in its name *)
Definition dash2 : st := fst (update_simulation E0 Flex dash1).
Lemma dash1_run : update_simulation E0 Flex dash1 = (dash2, Ok tt).
Proof. unfold dash2. apply run_split. vm_compute. reflexivity. Qed.
Theorem C74_click_dash_refuted :
  ~ (forall E s s' c i e v, env_ok E -> keys_unique s -> refs_ok s -> update_simulation E Flex s = (s', Ok tt) ->
       In c (m_ckts s') -> end_of c i -> edge_for s' c i e -> select_edge e = Ok v -> si_dest v = rem s' i).
Proof.
  intros H. assert (X : "A" = "B").
  { refine (H E0 dash1 dash2 (0, 1)%nat 0%nat (circuit_edge dash2 (0, 1)%nat 0%nat) (mkSeli "A-1" "ab" "A" (CStr "1") (Some (5000 # 100)%Q) 1) E0_ok _ _ dash1_run _ _ _ _); clear.
    - unfold keys_unique. repeat split; vm_compute; nodup_tac.
    - unfold refs_ok. split; [|split]; intros x H; vm_compute in H; in_tac; vm_compute; auto 10.
    - vm_compute. auto.
    - left. reflexivity.
    - destruct (edge_parts dash2 (0, 1)%nat) as (e1 & e2 & Q & A & B). injection Q as <- <-. exact A.
    - vm_compute. reflexivity. }
  discriminate X.
Qed.
Print Assumptions C74_click_dash_refuted.
