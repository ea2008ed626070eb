(** PropertiesShort.v - theorems about demands that use LSPs as IGP shortcuts. *)
From Verif Require Import Base Graph Objects Sim Api Build Spec SpecHist SpecCkt SpecMetric SpecSim SpecSig SpecFlow SpecShort Nets PropertiesRoute
  GraphProofs ResProofs CircuitProofs PathProofs RouteProofs IgpProofs ShortPaths ShortProofs ShortMore ShortFlow ShortTotal SpecQuery LspTraffic ShortLsp.

(** routes of concrete networks, by computation *)
Fixpoint hops (s : st) (u : string) (p : list nat) (v : string) : bool :=
  match p with
  | [] => String.eqb u v
  | i :: t => existsb (Nat.eqb i) (m_ifs s) && String.eqb u (loc s i) && negb (i_failed (h_if s i)) && Qleb 0 (reservable_bw s i) && hops s (rem s i) t v
  end.
Lemma hops_route s p : forall u v, hops s u p v = true -> route s (usable s) u p v.
Proof.
  induction p as [|i p IH]; intros u v H; cbn [hops] in H.
  - apply String.eqb_eq in H. subst. constructor.
  - rewrite !andb_true_iff in H. destruct H as [[[[H1 H2] H3] H4] H5]. apply String.eqb_eq in H2. subst u. apply existsb_exists in H1 as (j & Hj & H1). apply Nat.eqb_eq in H1. subst j.
    constructor; auto. split; [now apply negb_true_iff|]. now apply available_iff.
Qed.
Lemma route_step s ok u q v : route s ok u q v -> (q = [] /\ u = v) \/ exists i t, q = i :: t /\ u = loc s i /\ In i (m_ifs s) /\ route s ok (rem s i) t v.
Proof. intros H. destruct q as [|i q]; [left; split; auto; now apply route_nil_inv in H|]. right. apply route_cons_inv in H as (A & B & _ & D). exists i, q. auto. Qed.

(** ** C62 The paths of a demand with IGP shortcuts *)
Theorem C62_paths E s s' d ps : env_ok E -> well_posed s -> keys_unique s -> refs_ok s -> node_texts s ->
  update_simulation E Flex s = (s', Ok tt) -> same_failures s s' -> In d (m_dms s) -> no_lsp_for s' d -> d_path (h_dm s' d) = DPaths ps ->
  exists p0 gs, least_cost s' (usable s') (dmd_from s' d) p0 (dmd_to s' d) /\ picks s' (route_nodes s' (dmd_from s' d) p0) gs /\
    ps <> [] /\ NoDup ps /\
    forall q, In q ps <-> candidate s' (dmd_from s' d) (dmd_to s' d) gs q /\
      forall q', candidate s' (dmd_from s' d) (dmd_to s' d) gs q' -> q' = q \/ exists c c', path_cost s' q c /\ path_cost s' q' c' /\ c <= c'.
Proof.
  intros HE WP KU RO NT Up St Hd NL Pd. destruct (simulated_ex _ _ _ _ Up) as (s1 & s2 & s3 & s4 & Sm).
  exact (sm_shortcuts E HE s s1 s2 s3 s4 s' Sm WP Up St KU RO NT d ps Hd NL Pd).
Qed.
Print Assumptions C62_paths.

(** every path leads from the source to the destination of the demand, over usable
    interfaces and over routed LSPs of nodes with shortcuts, and leaves no node twice *)
Theorem C62_connected E s s' d ps q : env_ok E -> well_posed s -> keys_unique s -> refs_ok s -> node_texts s ->
  update_simulation E Flex s = (s', Ok tt) -> same_failures s s' -> In d (m_dms s) -> no_lsp_for s' d -> d_path (h_dm s' d) = DPaths ps -> In q ps ->
  leads s' (dmd_from s' d) q (dmd_to s' d) /\ NoDup (map (leaves s') q) /\
  (forall i, In (IIf i) q -> In i (m_ifs s') /\ usable s' i) /\
  (forall l, In (ILsp l) q -> In l (m_lsps s') /\ routed_lsp s' l /\ shortcut_node s' (lsp_from s' l)).
Proof.
  intros HE WP KU RO NT Up St Hd NL Pd Hq. destruct (simulated_ex _ _ _ _ Up) as (s1 & s2 & s3 & s4 & Sm).
  split; [exact (sc_leads E HE s s1 s2 s3 s4 s' Sm WP Up St KU RO NT d ps Hd NL Pd q Hq)|].
  split; [exact (sc_nodup E HE s s1 s2 s3 s4 s' Sm WP Up St KU RO NT d ps Hd NL Pd q Hq)|].
  split; intros x Hx; exact (sc_items E HE s s1 s2 s3 s4 s' Sm WP Up St KU RO NT d ps Hd NL Pd q _ Hq Hx).
Qed.
Print Assumptions C62_connected.

(** when all least-cost routes visit the same nodes: each of them, with an LSP
    of every group in place of its stretch *)
Theorem C62_one_route E s s' d ps ns : env_ok E -> well_posed s -> keys_unique s -> refs_ok s -> node_texts s ->
  update_simulation E Flex s = (s', Ok tt) -> same_failures s s' -> In d (m_dms s) -> no_lsp_for s' d -> d_path (h_dm s' d) = DPaths ps ->
  (forall p, least_cost s' (usable s') (dmd_from s' d) p (dmd_to s' d) -> route_nodes s' (dmd_from s' d) p = ns) ->
  exists gs, picks s' ns gs /\ ps <> [] /\ NoDup ps /\
    (forall q, In q ps <-> exists p, least_cost s' (usable s') (dmd_from s' d) p (dmd_to s' d) /\ rides s' p gs q) /\
    exists es, d_detail (h_dm s' d) = PDInfo es /\ map entry_path es = ps /\ (total es == d_traffic (h_dm s' d))%Q.
Proof.
  intros HE WP KU RO NT Up St Hd NL Pd One. destruct (simulated_ex _ _ _ _ Up) as (s1 & s2 & s3 & s4 & Sm).
  destruct (one_route E HE s s1 s2 s3 s4 s' Sm WP Up St KU RO NT d ps Hd NL Pd ns One) as (gs & A & B & C & D). exists gs.
  split; [exact A|]. split; [exact B|]. split; [exact C|]. split; [exact D|].
  exact (one_total E HE s s1 s2 s3 s4 s' Sm WP Up St KU RO NT d ps Hd NL Pd ns One).
Qed.
Print Assumptions C62_one_route.

(** path_detail: at every node of a path the traffic is divided by the number of
    interfaces and LSPs that leave the node on the paths of the demand *)
Theorem C62_entries E s s' d ps : env_ok E -> well_posed s -> keys_unique s -> refs_ok s -> node_texts s ->
  update_simulation E Flex s = (s', Ok tt) -> same_failures s s' -> In d (m_dms s) -> no_lsp_for s' d -> d_path (h_dm s' d) = DPaths ps ->
  exists es outs, d_detail (h_dm s' d) = PDInfo es /\ (forall n, next_items s' ps n (outs n)) /\
    Forall2 (fun q e => entry_path e = q /\ pi_items e = Some q /\ pi_splits e = Some (item_counts s' outs 1 q) /\
                        (pi_traffic e == item_divided s' outs (d_traffic (h_dm s' d)) q)%Q) ps es /\ (forall q, In q ps -> q <> []).
Proof.
  intros HE WP KU RO NT Up St Hd NL Pd. destruct (simulated_ex _ _ _ _ Up) as (s1 & s2 & s3 & s4 & Sm).
  exact (sc_detail E HE s s1 s2 s3 s4 s' Sm WP Up St KU RO NT d ps Hd NL Pd).
Qed.
Print Assumptions C62_entries.

(** ** C69 Interface traffic of a FlexModel with IGP shortcuts *)
Theorem C69_traffic E s s' i : env_ok E -> well_posed s -> keys_unique s -> refs_ok s -> node_texts s ->
  update_simulation E Flex s = (s', Ok tt) -> same_failures s s' -> In i (m_ifs s) ->
  if i_failed (h_if s' i) then i_traffic (h_if s' i) = TDown
  else exists q f, i_traffic (h_if s' i) = TNum q /\ (forall d, In d (m_dms s') -> demand_loads s' d i (f d)) /\ (q == Qsum (map f (m_dms s')))%Q.
Proof.
  intros HE WP KU RO NT Up St Hi. destruct (simulated_ex _ _ _ _ Up) as (s1 & s2 & s3 & s4 & Sm).
  exact (flex_loads E HE s s1 s2 s3 s4 s' Sm WP Up St KU RO NT i Hi).
Qed.
Print Assumptions C69_traffic.

(** A=B (two links), B=C, C=D; B has shortcuts and two LSPs to D; a demand from A
    to D *)
Definition ride1 : st := net
  [nd "A"; nd_sc "B"; nd "C"; nd "D"]
  [itf "ab1" 1 100 0 1 1; itf "ba1" 1 100 1 0 1; itf "ab2" 1 100 0 1 2; itf "ba2" 1 100 1 0 2;
   itf "bc" 1 100 1 2 3; itf "cb" 1 100 2 1 3; itf "cd" 1 100 2 3 4; itf "dc" 1 100 3 2 4]
  [dmd 0 3 13 "d"; dmd 0 2 7 "e"] [lsp_ 1 3 "l0"; lsp_ 1 3 "l1"] [].
Definition ride2 : st := fst (update_simulation E0 Flex ride1).
Ltac net_tac := unfold keys_unique; split; [vm_compute; nodup_tac|]; split; [vm_compute; nodup_tac|]; split; [vm_compute; nodup_tac|]; split; vm_compute; nodup_tac.
Ltac refs_tac := unfold refs_ok; split; [|split]; intros x H; vm_compute in H; in_tac; vm_compute; auto 20.
Ltac ntexts_tac := intros a b a' b' Ha Hb Ha' Hb'; vm_compute in Ha, Ha', Hb, Hb'; in_tac; vm_compute; intros X; try discriminate X; auto.
Ltac posed1_tac := split; [vm_compute; nodup_tac|]; split; [intros i X; vm_compute in X; in_tac; vm_compute; discriminate|]; texts_tac.
Lemma ride1_posed : well_posed ride1. Proof. posed1_tac. Qed.
Lemma ride1_keys : keys_unique ride1. Proof. net_tac. Qed.
Lemma ride1_refs : refs_ok ride1. Proof. refs_tac. Qed.
Lemma ride1_texts : node_texts ride1. Proof. ntexts_tac. Qed.
Lemma ride1_same : same_failures ride1 ride2. Proof. intros i H. vm_compute in H. in_tac; vm_compute; reflexivity. Qed.
Lemma ride1_run : update_simulation E0 Flex ride1 = (ride2, Ok tt). Proof. unfold ride2. apply run_split. vm_compute. reflexivity. Qed.
Lemma ride2_none : no_lsp_for ride2 0. Proof. intros l (H & A & _). vm_compute in H. in_tac; vm_compute in A; discriminate A. Qed.

(** every route of at most three hops from A to D visits the same nodes *)
Lemma ride2_one p : least_cost ride2 (usable ride2) (dmd_from ride2 0) p (dmd_to ride2 0) -> route_nodes ride2 (dmd_from ride2 0) p = ["A"; "B"; "C"; "D"]%string.
Proof.
  assert (R0 : route ride2 (usable ride2) (dmd_from ride2 0) [0%nat; 4%nat; 6%nat] (dmd_to ride2 0)) by (apply hops_route; vm_compute; reflexivity).
  intros [R M]. specialize (M _ R0). clear R0. assert (C0 : route_cost ride2 [0%nat; 4%nat; 6%nat] = 3) by (vm_compute; reflexivity). rewrite C0 in M. clear C0.
  assert (C1 : forall i, In i (m_ifs ride2) -> i_cost (h_if ride2 i) = 1) by (intros i Hi; vm_compute in Hi; in_tac; vm_compute; reflexivity).
  assert (NN : forall q u v, route ride2 (usable ride2) u q v -> route_cost ride2 q = Z.of_nat (List.length q)).
  { induction q as [|i q IH]; intros u v H; [reflexivity|]. apply route_cons_inv in H as (_ & Hi & _ & H). cbn [route_cost List.length]. rewrite (IH _ _ H), (C1 i Hi). lia. }
  rewrite (NN _ _ _ R) in M.
  assert (I8 : m_ifs ride2 = [0%nat; 1%nat; 2%nat; 3%nat; 4%nat; 5%nat; 6%nat; 7%nat]) by (vm_compute; reflexivity).
  assert (ST := route_step ride2 (usable ride2)). rewrite I8 in ST.
  clear C1 NN. replace (dmd_from ride2 0) with "A"%string in R |- * by (vm_compute; reflexivity). replace (dmd_to ride2 0) with "D"%string in R by (vm_compute; reflexivity).
  apply ST in R as [[_ X]|(a & p1 & -> & A1 & A2 & R)]; [discriminate X|].
  assert (Ra : rem ride2 a = "B"%string) by (clear - A1 A2; simpl in A2; in_tac; vm_compute in A1; try discriminate A1; vm_compute; reflexivity). rewrite Ra in R.
  apply ST in R as [[_ X]|(b & p2 & -> & B1 & B2 & R)]; [discriminate X|].
  assert (Rb : rem ride2 b = "A"%string \/ rem ride2 b = "C"%string) by (clear - B1 B2; simpl in B2; in_tac; vm_compute in B1; try discriminate B1; vm_compute; auto).
  apply ST in R as [[_ X]|(c & p3 & -> & D1 & D2 & R)]; [destruct Rb; congruence|].
  destruct p3; [|simpl in M; lia]. assert (Rc : rem ride2 c = "D"%string) by (apply route_nil_inv in R; exact R).
  assert (Lc : loc ride2 c = "C"%string) by (clear - Rc D2; simpl in D2; in_tac; vm_compute in Rc; try discriminate Rc; vm_compute; reflexivity).
  unfold route_nodes. cbn [map]. rewrite Ra, Rc, D1, Lc. reflexivity.
Qed.
Example C62_example : well_posed ride1 /\ keys_unique ride1 /\ refs_ok ride1 /\ node_texts ride1 /\ update_simulation E0 Flex ride1 = (ride2, Ok tt) /\ same_failures ride1 ride2 /\
  In 0%nat (m_dms ride1) /\ no_lsp_for ride2 0 /\
  d_path (h_dm ride2 0) = DPaths [[IIf 0; ILsp 0]; [IIf 0; ILsp 1]; [IIf 2; ILsp 0]; [IIf 2; ILsp 1]]%nat /\
  (forall p, least_cost ride2 (usable ride2) (dmd_from ride2 0) p (dmd_to ride2 0) -> route_nodes ride2 (dmd_from ride2 0) p = ["A"; "B"; "C"; "D"]%string).
Proof.
  split; [exact ride1_posed|]. split; [exact ride1_keys|]. split; [exact ride1_refs|]. split; [exact ride1_texts|]. split; [exact ride1_run|]. split; [exact ride1_same|].
  split; [vm_compute; auto|]. split; [exact ride2_none|]. split; [vm_compute; reflexivity|exact ride2_one].
Qed.
Example C69_example : In 4%nat (m_ifs ride1) /\ i_failed (h_if ride2 4) = false /\ match i_traffic (h_if ride2 4) with TNum q => q == 20 | TDown => False end%Q /\
  match d_detail (h_dm ride2 0) with PDInfo es => Qred (with_item (ILsp 0) es) = (13 # 2)%Q /\ Qred (with_item (IIf 0) es) = (13 # 2)%Q | PDInitial => False end.
Proof. split; [vm_compute; auto 10|]. split; [vm_compute; reflexivity|]. split; vm_compute; auto. Qed.

(** An LSP is not compared with the IGP cost of the stretch it replaces (the
    docstring of find_igp_shortcuts, step 4, says it is): A-B-C-D with a single LSP
    from B to D of metric 100. *)
Definition dear1 : st := net
  [nd "A"; nd_sc "B"; nd "C"; nd "D"]
  [itf "ab" 1 100 0 1 1; itf "ba" 1 100 1 0 1; itf "bc" 1 100 1 2 2; itf "cb" 1 100 2 1 2; itf "cd" 1 100 2 3 3; itf "dc" 1 100 3 2 3]
  [dmd 0 3 10 "d"] [mkLsp 1 3 "l" PInit RInit RInit None None (Some 100)] [].
Definition dear2 : st := fst (update_simulation E0 Flex dear1).
Lemma dear1_run : update_simulation E0 Flex dear1 = (dear2, Ok tt). Proof. unfold dear2. apply run_split. vm_compute. reflexivity. Qed.
Theorem C62_metric_refuted :
  ~ (forall E s s' d ps q l m p, env_ok E -> well_posed s -> keys_unique s -> refs_ok s -> node_texts s ->
       update_simulation E Flex s = (s', Ok tt) -> same_failures s s' -> In d (m_dms s) -> no_lsp_for s' d -> d_path (h_dm s' d) = DPaths ps ->
       In q ps -> In (ILsp l) q -> metric s' l (Some m) -> route s' (usable s') (lsp_from s' l) p (lsp_to s' l) -> m <= route_cost s' p).
Proof.
  intros H. pose proof dear1_run as R.
  assert (P : well_posed dear1) by (clear; posed1_tac). assert (K : keys_unique dear1) by (clear; net_tac). assert (RF : refs_ok dear1) by (clear; refs_tac).
  assert (NT : node_texts dear1) by (clear; ntexts_tac).
  assert (S : same_failures dear1 dear2) by (clear; intros i Hi; vm_compute in Hi; in_tac; vm_compute; reflexivity).
  assert (A : no_lsp_for dear2 0) by (clear; intros l (X & F & _); vm_compute in X; in_tac; vm_compute in F; discriminate F).
  assert (D : d_path (h_dm dear2 0) = DPaths [[IIf 0; ILsp 0]]%nat) by (vm_compute; reflexivity).
  assert (M : metric dear2 0 (Some 100)) by (vm_compute; reflexivity).
  assert (W : route dear2 (usable dear2) (lsp_from dear2 0) [2%nat; 4%nat] (lsp_to dear2 0)) by (apply hops_route; vm_compute; reflexivity).
  specialize (H E0 dear1 dear2 0%nat _ _ 0%nat 100 [2%nat; 4%nat] E0_ok P K RF NT R S (or_introl eq_refl) A D (or_introl eq_refl) (or_intror (or_introl eq_refl)) M W).
  assert (C : route_cost dear2 [2%nat; 4%nat] = 2) by (vm_compute; reflexivity). rewrite C in H. lia.
Qed.
Print Assumptions C62_metric_refuted.

(** Only the LSPs found on the last of the least-cost node sequences are used:
    A-B-C-Z and A-D-E-Z cost the same and B and D have shortcuts and an LSP to Z. *)
Definition two1 : st := net
  [nd "A"; nd_sc "B"; nd "C"; nd_sc "D"; nd "E"; nd "Z"]
  [itf "ab" 1 100 0 1 1; itf "ba" 1 100 1 0 1; itf "bc" 1 100 1 2 2; itf "cb" 1 100 2 1 2; itf "cz" 1 100 2 5 3; itf "zc" 1 100 5 2 3;
   itf "ad" 1 100 0 3 4; itf "da" 1 100 3 0 4; itf "de" 1 100 3 4 5; itf "ed" 1 100 4 3 5; itf "ez" 1 100 4 5 6; itf "ze" 1 100 5 4 6]
  [dmd 0 5 10 "d"] [mkLsp 1 5 "l" PInit RInit RInit None None (Some 2); mkLsp 3 5 "m" PInit RInit RInit None None (Some 2)] [].
Definition two2 : st := fst (update_simulation E0 Flex two1).
Lemma two1_run : update_simulation E0 Flex two1 = (two2, Ok tt). Proof. unfold two2. apply run_split. vm_compute. reflexivity. Qed.
Lemma two2_metric : metric two2 0 (Some 2). Proof. vm_compute. reflexivity. Qed.
Lemma two2_lsps : m_lsps two2 = [0%nat; 1%nat]. Proof. vm_compute. reflexivity. Qed.
Lemma two2_from0 : lsp_from two2 0 = "B"%string. Proof. vm_compute. reflexivity. Qed.
Lemma two2_from1 : lsp_from two2 1 = "D"%string. Proof. vm_compute. reflexivity. Qed.
Lemma two2_to0 : lsp_to two2 0 = "Z"%string. Proof. vm_compute. reflexivity. Qed.
Lemma two2_routed : routed_lsp two2 0. Proof. exists [2%nat; 4%nat]. eexists. eexists. vm_compute. reflexivity. Qed.
Lemma two2_least l : In l [0%nat] <-> least_metric two2 "B" "Z" l.
Proof.
  assert (O : forall l', (In l' (m_lsps two2) /\ lsp_from two2 l' = "B"%string /\ lsp_to two2 l' = "Z"%string) -> l' = 0%nat).
  { intros l' (H & F & _). rewrite two2_lsps in H. destruct H as [<-|[<-|[]]]; [reflexivity|]. rewrite two2_from1 in F. discriminate F. }
  split.
  - intros [<-|[]]. unfold least_metric. split; [rewrite two2_lsps, two2_from0, two2_to0; split; [left; reflexivity|split; reflexivity]|]. split; [exact two2_routed|].
    exists (Some 2). split; [exact two2_metric|]. intros l' H _. rewrite (O _ H). exists (Some 2). split; [exact two2_metric|]. apply Z.le_refl.
  - intros (H & _). left. symmetry. exact (O _ H).
Qed.
(** A lower bound for the cost of routes: a potential that falls by at most the
    cost of each interface *)
Lemma potential s ok (h : string -> Z) p : (forall i, In i (m_ifs s) -> h (loc s i) <= i_cost (h_if s i) + h (rem s i)) ->
  forall u v, route s ok u p v -> h u <= route_cost s p + h v.
Proof.
  intros P. induction p as [|i p IH]; intros u v R; [apply route_nil_inv in R; subst; reflexivity|].
  apply route_cons_inv in R as (-> & Hi & _ & R). cbn [route_cost]. specialize (IH _ _ R). specialize (P i Hi). lia.
Qed.
Lemma two2_shortest : least_cost two2 (usable two2) "A" [0%nat; 2%nat; 4%nat] "Z".
Proof.
  split; [apply hops_route; vm_compute; reflexivity|]. intros q R.
  apply (potential _ _ (fun n => if String.eqb n "A" then 3 else if String.eqb n "B" || String.eqb n "D" then 2 else if String.eqb n "Z" then 0 else 1)) in R.
  - assert (C : route_cost two2 [0%nat; 2%nat; 4%nat] = 3) by (vm_compute; reflexivity). rewrite C. clear C. generalize dependent (route_cost two2 q). clear. intros c R. simpl in R. lia.
  - clear. intros i H. vm_compute in H. in_tac; vm_compute; intros X; discriminate X.
Qed.
Lemma two2_A : ~ shortcut_node two2 "A".
Proof. intros (x & Hx & N & S). vm_compute in Hx. in_tac; vm_compute in N, S; congruence. Qed.
Lemma two2_picks : picks two2 ["A"; "B"; "C"; "Z"]%string [[0%nat]].
Proof.
  apply picks_step; [intros S; destruct (two2_A S)|].
  apply (picks_jump two2 "B" ["C"%string] "Z" [] [0%nat] []).
  - exists 1%nat. split; [vm_compute; auto 10|]. split; vm_compute; reflexivity.
  - exists 0%nat. rewrite two2_lsps, two2_from0, two2_to0. split; [left; reflexivity|]. split; [reflexivity|]. split; [reflexivity|]. exact two2_routed.
  - intros x [].
  - discriminate.
  - repeat constructor; auto.
  - exact two2_least.
  - constructor.
Qed.
Theorem C62_each_route_refuted :
  ~ (forall E s s' d ps p gs q c, env_ok E -> well_posed s -> keys_unique s -> refs_ok s -> node_texts s ->
       update_simulation E Flex s = (s', Ok tt) -> same_failures s s' -> In d (m_dms s) -> no_lsp_for s' d -> d_path (h_dm s' d) = DPaths ps ->
       least_cost s' (usable s') (dmd_from s' d) p (dmd_to s' d) -> picks s' (route_nodes s' (dmd_from s' d) p) gs ->
       rides s' p gs q -> path_cost s' q c -> c <= route_cost s' p -> In q ps).
Proof.
  intros H. pose proof two1_run as R.
  assert (P : well_posed two1) by (clear; posed1_tac). assert (K : keys_unique two1) by (clear; net_tac). assert (RF : refs_ok two1) by (clear; refs_tac).
  assert (NT : node_texts two1) by (clear; ntexts_tac).
  assert (S : same_failures two1 two2) by (clear; intros i Hi; vm_compute in Hi; in_tac; vm_compute; reflexivity).
  assert (A : no_lsp_for two2 0) by (clear; intros l (X & F & _); vm_compute in X; in_tac; vm_compute in F; discriminate F).
  assert (D : d_path (h_dm two2 0) = DPaths [[IIf 0; IIf 2; IIf 4]; [IIf 6; ILsp 1]]%nat) by (vm_compute; reflexivity).
  assert (U : dmd_from two2 0 = "A"%string) by (vm_compute; reflexivity). assert (V : dmd_to two2 0 = "Z"%string) by (vm_compute; reflexivity).
  assert (N : route_nodes two2 "A" [0; 2; 4]%nat = ["A"; "B"; "C"; "Z"]%string) by (vm_compute; reflexivity).
  pose proof two2_shortest as L. pose proof two2_picks as Pk. rewrite <- N in Pk.
  assert (L2 : loc two2 2 = "B"%string) by (vm_compute; reflexivity). assert (R4 : rem two2 4 = "Z"%string) by (vm_compute; reflexivity).
  assert (Rd : rides two2 [0; 2; 4]%nat [[0%nat]] [IIf 0; ILsp 0]%nat).
  { apply rides_if. apply (rides_lsp two2 2 [4%nat] 4 [] [0%nat] 0 []); [now rewrite two2_from0|reflexivity|now rewrite two2_to0|left; reflexivity|constructor]. }
  assert (Pc : path_cost two2 [IIf 0; ILsp 0]%nat (i_cost (h_if two2 0) + (2 + 0))) by (apply pc_if; apply pc_lsp; [exact two2_metric|apply pc_nil]).
  assert (Cc : i_cost (h_if two2 0) + (2 + 0) = 3) by (vm_compute; reflexivity). rewrite Cc in Pc.
  assert (C : route_cost two2 [0%nat; 2%nat; 4%nat] = 3) by (vm_compute; reflexivity).
  specialize (H E0 two1 two2 0%nat _ [0; 2; 4]%nat [[0%nat]] [IIf 0; ILsp 0]%nat 3 E0_ok P K RF NT R S (or_introl eq_refl) A D). rewrite U, V, C in H.
  specialize (H L Pk Rd Pc (Z.le_refl 3)). clear - H. destruct H as [X|[X|[]]]; discriminate X.
Qed.
Print Assumptions C62_each_route_refuted.

(** ** C75 traffic_on_lsp of a FlexModel with IGP shortcuts *)
Theorem C75_lsp_traffic E s s' l s'' q : env_ok E -> well_posed s -> keys_unique s -> refs_ok s -> node_texts s ->
  update_simulation E Flex s = (s', Ok tt) -> same_failures s s' -> In l (m_lsps s) ->
  traffic_on_lsp E Flex l s' = (s'', Ok q) -> (q == on_item s' (ILsp l))%Q.
Proof.
  intros HE WP KU RO NT Up St Hl. destruct (simulated_ex _ _ _ _ Up) as (s1 & s2 & s3 & s4 & Sm).
  exact (tol_flex E HE s s1 s2 s3 s4 s' Sm WP Up St KU RO NT l s'' q Hl).
Qed.
Print Assumptions C75_lsp_traffic.
(** it returns if all routed LSPs between the end nodes have a positive metric *)
Theorem C75_returns E s s' l : env_ok E -> well_posed s -> keys_unique s -> refs_ok s -> node_texts s ->
  update_simulation E Flex s = (s', Ok tt) -> same_failures s s' -> In l (m_lsps s) -> routed_lsp s' l ->
  (forall m, In m (m_lsps s') -> lsp_from s' m = lsp_from s' l -> lsp_to s' m = lsp_to s' l -> routed_lsp s' m -> exists c, 0 < c /\ metric s' m (Some c)) ->
  exists s'' q, traffic_on_lsp E Flex l s' = (s'', Ok q).
Proof.
  intros HE WP KU RO NT Up St Hl Rl PM. destruct (simulated_ex _ _ _ _ Up) as (s1 & s2 & s3 & s4 & Sm).
  apply (tol_flex_returns E HE s s1 s2 s3 s4 s' Sm WP Up St KU RO NT l Hl Rl). intros m Hm. unfold lsps_of in Hm. rewrite filter_In, andb_true_iff, !String.eqb_eq in Hm.
  apply PM; apply Hm.
Qed.
Print Assumptions C75_returns.
(** Interface traffic is the traffic put on the interface directly plus that of the
    LSPs over it; of every demand and LSP the amount is rounded to one decimal *)
Theorem C75_interface E s s' i f : env_ok E -> well_posed s -> keys_unique s -> refs_ok s -> node_texts s ->
  update_simulation E Flex s = (s', Ok tt) -> same_failures s s' -> In i (m_ifs s) -> i_failed (h_if s' i) = false ->
  (forall l, In l (m_lsps s) -> routed_lsp s' l -> exists s'', traffic_on_lsp E Flex l s' = (s'', Ok (f l))) ->
  exists q, i_traffic (h_if s' i) = TNum q /\
    (Qabs (q - (on_item s' (IIf i) + Qsum (map (fun l => inject_Z (Z.of_nat (crossings s' i [ILsp l])) * f l) (m_lsps s')))) <=
       (1 # 20) * inject_Z (Z.of_nat (List.length (m_dms s'))) * lsp_crossings s' i)%Q.
Proof.
  intros HE WP KU RO NT Up St Hi F Hf. destruct (simulated_ex _ _ _ _ Up) as (s1 & s2 & s3 & s4 & Sm).
  destruct (interface_close E HE s s1 s2 s3 s4 s' Sm WP Up St KU RO NT i Hi F) as (q & T & B). exists q. split; [exact T|].
  assert (X : (Qsum (map (fun l => inject_Z (Z.of_nat (crossings s' i [ILsp l])) * f l) (m_lsps s')) ==
    Qsum (map (fun l => inject_Z (Z.of_nat (crossings s' i [ILsp l])) * on_item s' (ILsp l)) (m_lsps s')))%Q).
  { apply (Ecmp.sumq_ext (fun l => inject_Z (Z.of_nat (crossings s' i [ILsp l])) * f l)%Q (fun l => inject_Z (Z.of_nat (crossings s' i [ILsp l])) * on_item s' (ILsp l))%Q).
    intros l Hl. rewrite (proj1 (done_lsps E Flex HE s s' WP Up)) in Hl. destruct (l_path (h_ls s' l)) eqn:P.
    4:{ destruct (Hf l Hl) as (s'' & R); [unfold routed_lsp; eauto|]. rewrite (C75_lsp_traffic E s s' l s'' (f l) HE WP KU RO NT Up St Hl R). reflexivity. }
    all: unfold crossings; simpl; rewrite P; change (inject_Z (Z.of_nat (0 + 0))) with 0%Q; ring. }
  rewrite X. exact B.
Qed.
Print Assumptions C75_interface.
Example C75_example : In 0%nat (m_lsps ride1) /\ routed_lsp ride2 0 /\ routed_lsp ride2 1 /\
  match snd (traffic_on_lsp E0 Flex 0 ride2) with Ok q => (q == 13 # 2)%Q | _ => False end /\
  match snd (traffic_on_lsp E0 Flex 1 ride2) with Ok q => (q == 13 # 2)%Q | _ => False end /\
  (on_item ride2 (IIf 4) == 7)%Q /\ (lsp_crossings ride2 4 == 2)%Q /\ i_failed (h_if ride2 4) = false.
Proof.
  split; [vm_compute; auto|]. split; [unfold routed_lsp; vm_compute; eauto|]. split; [unfold routed_lsp; vm_compute; eauto|].
  split; [vm_compute; reflexivity|]. split; [vm_compute; reflexivity|]. split; [vm_compute; reflexivity|]. split; vm_compute; reflexivity.
Qed.
(** The two sides are not equal: a demand of 1 on three LSPs *)
Definition third1 : st := net
  [nd "A"; nd_sc "B"; nd "C"]
  [itf "ab" 1 100 0 1 1; itf "ba" 1 100 1 0 1; itf "bc" 1 100 1 2 2; itf "cb" 1 100 2 1 2]
  [dmd 0 2 1 "d"] [lsp_ 1 2 "l0"; lsp_ 1 2 "l1"; lsp_ 1 2 "l2"] [].
Definition third2 : st := fst (update_simulation E0 Flex third1).
Lemma third1_run : update_simulation E0 Flex third1 = (third2, Ok tt). Proof. unfold third2. apply run_split. vm_compute. reflexivity. Qed.
Lemma third1_posed : well_posed third1. Proof. posed1_tac. Qed.
Lemma third1_keys : keys_unique third1. Proof. net_tac. Qed.
Lemma third1_refs : refs_ok third1. Proof. refs_tac. Qed.
Lemma third1_texts : node_texts third1. Proof. ntexts_tac. Qed.
Lemma third1_same : same_failures third1 third2. Proof. intros i H. vm_compute in H. in_tac; vm_compute; reflexivity. Qed.
Theorem C75_exact_refuted :
  ~ (forall E s s' i f, env_ok E -> well_posed s -> keys_unique s -> refs_ok s -> node_texts s ->
       update_simulation E Flex s = (s', Ok tt) -> same_failures s s' -> In i (m_ifs s) -> i_failed (h_if s' i) = false ->
       (forall l, In l (m_lsps s) -> routed_lsp s' l -> exists s'', traffic_on_lsp E Flex l s' = (s'', Ok (f l))) ->
       exists q, i_traffic (h_if s' i) = TNum q /\
         (q == on_item s' (IIf i) + Qsum (map (fun l => inject_Z (Z.of_nat (crossings s' i [ILsp l])) * f l) (m_lsps s')))%Q).
Proof.
  intros H.
  assert (T : exists a b c, (forall l, In l (m_lsps third1) -> exists s'', traffic_on_lsp E0 Flex l third2 = (s'', Ok (nth l [a; b; c] 0%Q))) /\ (a == 1 # 3)%Q /\ (b == 1 # 3)%Q /\ (c == 1 # 3)%Q).
  { assert (V : forall l, In l [0; 1; 2]%nat -> exists q, snd (traffic_on_lsp E0 Flex l third2) = Ok q /\ (q == 1 # 3)%Q).
    { intros l Hl. simpl in Hl. in_tac; (eexists; split; [vm_compute; reflexivity|vm_compute; reflexivity]). }
    destruct (V 0%nat) as (a & A1 & A2); [simpl; auto|]. destruct (V 1%nat) as (b & B1 & B2); [simpl; auto|]. destruct (V 2%nat) as (c & D1 & D2); [simpl; auto|].
    exists a, b, c. split; [|auto]. assert (I3 : m_lsps third1 = [0; 1; 2]%nat) by (vm_compute; reflexivity). rewrite I3. clear - A1 B1 D1. intros l Hl. simpl in Hl.
    in_tac; cbn [nth]; eexists; apply run_split; assumption. }
  destruct T as (a & b & c & T & A & B & C).
  destruct (H E0 third1 third2 2%nat (fun l => nth l [a; b; c] 0%Q) E0_ok third1_posed third1_keys third1_refs third1_texts third1_run third1_same) as (q & Q1 & Q2).
  - vm_compute. auto.
  - vm_compute. reflexivity.
  - intros l Hl _. exact (T l Hl).
  - clear H T. assert (O : (on_item third2 (IIf 2) == 0)%Q) by (vm_compute; reflexivity).
    assert (I3 : m_lsps third2 = [0; 1; 2]%nat) by (vm_compute; reflexivity). 
    assert (X0 : crossings third2 2 [ILsp 0%nat] = 1%nat) by (vm_compute; reflexivity). assert (X1 : crossings third2 2 [ILsp 1%nat] = 1%nat) by (vm_compute; reflexivity).
    assert (X2 : crossings third2 2 [ILsp 2%nat] = 1%nat) by (vm_compute; reflexivity).
    assert (Tq : match i_traffic (h_if third2 2) with TNum x => (x == 9 # 10)%Q | _ => False end) by (vm_compute; reflexivity).
    rewrite Q1 in Tq. rewrite O, I3, Tq in Q2. cbn [map] in Q2. rewrite X0, X1, X2 in Q2. cbn [nth Qsum fold_right] in Q2.
    rewrite A, B, C in Q2. vm_compute in Q2. discriminate Q2.
Qed.
Print Assumptions C75_exact_refuted.
