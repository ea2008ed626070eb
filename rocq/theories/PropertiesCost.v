(** PropertiesCost.v - changes of interface costs (C106), paths in the two directions of a
    network (C107), and paths from and to the nodes on the way (C108). *)
From Verif Require Import Base Graph Objects Sim Api Build Spec SpecHist SpecCkt SpecSim SpecMetric SpecFlow SpecOrder SpecFail SpecWhatIf SpecCost Nets GraphProofs RoundProofs
  PropertiesValidate PropertiesRoute PropertiesFail PropertiesOrder OrderProofs RepairProofs WhatIf WhatIfMore WhatIfApi PropertiesWhatIf WhatCost MirrorProofs.
From Coq Require Import Lqa.

(** ** C106 Changed costs *)
(** Costs that rise on interfaces a demand does not use leave its paths and what it puts on
    every interface as they are. *)
Theorem C106_raised E E' k s t s' t' d : env_ok E -> env_ok E' -> plain k s -> plain k t -> repriced s t -> no_cheaper s t ->
  update_simulation E k s = (s', Ok tt) -> update_simulation E' k t = (t', Ok tt) -> In d (m_dms s) ->
  (forall i, on_a_path s' d i -> i_cost (h_if t i) = i_cost (h_if s i)) ->
  same_paths (d_path (h_dm s' d)) (d_path (h_dm t' d)) /\ forall i x y, adds k s' d i x -> adds k t' d i y -> (x == y)%Q.
Proof.
  intros HE HE' P P' R N U U' Hd H. exact (dearer_same s t R (proj1 (proj1 (proj2 P))) (proj1 (proj2 (proj1 (proj2 P)))) E E' k s' t' HE HE' P P' U U' d Hd N H).
Qed.
Print Assumptions C106_raised.
(** So does a lower cost of an interface that all paths of the demand use. *)
Theorem C106_lowered E E' k s t s' t' d i : env_ok E -> env_ok E' -> plain k s -> plain k t -> repriced s t -> only_cost_of i s t -> i_cost (h_if t i) <= i_cost (h_if s i) ->
  update_simulation E k s = (s', Ok tt) -> update_simulation E' k t = (t', Ok tt) -> In d (m_dms s) -> on_every_path s' d i ->
  same_paths (d_path (h_dm s' d)) (d_path (h_dm t' d)) /\ forall j x y, adds k s' d j x -> adds k t' d j y -> (x == y)%Q.
Proof.
  intros HE HE' P P' R O C U U' Hd H.
  exact (cheaper_same s t R (proj1 (proj1 (proj2 P))) (proj1 (proj1 (proj2 P'))) (proj1 (proj2 (proj1 (proj2 P)))) (proj1 (proj2 (proj1 (proj2 P')))) E E' k s' t' HE HE' P P' U U' d i Hd O C H).
Qed.
Print Assumptions C106_lowered.
(** Whatever costs become, the same demands are routed; when none is lower, no path is cheaper. *)
Theorem C106_routed E E' k s t s' t' d : env_ok E -> env_ok E' -> plain k s -> plain k t -> repriced s t ->
  update_simulation E k s = (s', Ok tt) -> update_simulation E' k t = (t', Ok tt) -> In d (m_dms s) ->
  (d_path (h_dm s' d) = DUnrouted <-> d_path (h_dm t' d) = DUnrouted) /\
  (no_cheaper s t -> forall p q, takes s' d p -> takes t' d q -> route_cost s p <= route_cost t q).
Proof.
  intros HE HE' P P' R U U' Hd. split.
  - exact (price_unrouted s t R (proj1 (proj1 (proj2 P))) (proj1 (proj1 (proj2 P'))) (proj1 (proj2 (proj1 (proj2 P)))) (proj1 (proj2 (proj1 (proj2 P')))) E E' k s' t' HE HE' P P' U U' d Hd).
  - intros N p q. exact (price_costs s t R E E' k s' t' HE HE' P P' U U' d p q Hd N).
Qed.
Print Assumptions C106_routed.
(** The traffic of an interface does not grow when its own cost rises, and does not shrink when
    its own cost falls (read from t to s). *)
Theorem C106_own_traffic E E' s t s' t' i : env_ok E -> env_ok E' -> plain Flex s -> plain Flex t -> repriced s t -> only_cost_of i s t -> i_cost (h_if s i) < i_cost (h_if t i) ->
  update_simulation E Flex s = (s', Ok tt) -> update_simulation E' Flex t = (t', Ok tt) ->
  (forall d, In d (m_dms s) -> (0 <= d_traffic (h_dm s d))%Q) -> In i (m_ifs s) ->
  if i_failed (h_if s i) then i_traffic (h_if s' i) = TDown /\ i_traffic (h_if t' i) = TDown
  else exists q r, i_traffic (h_if s' i) = TNum q /\ i_traffic (h_if t' i) = TNum r /\ (r <= q)%Q.
Proof. intros HE HE' P P' R O C U U' Pos Hi. exact (own_traffic E E' s t s' t' i HE HE' R P P' U U' O C Pos Hi). Qed.
Print Assumptions C106_own_traffic.
(** The same for the assignment to Interface.cost and a second simulation: results stay if every
    demand avoids the interface that becomes dearer, or has it on all paths when it becomes
    cheaper, or is unrouted. *)
Theorem C106_set_cost E k s s' i c : env_ok E -> sound_net k s -> update_simulation E k s = (s', Ok tt) -> In i (m_ifs s) -> 1 <= c ->
  (forall d, In d (m_dms s) -> (i_cost (h_if s i) <= c /\ ~ on_a_path s' d i) \/ (c <= i_cost (h_if s i) /\ on_every_path s' d i) \/ d_path (h_dm s' d) = DUnrouted) ->
  exists s1 t1, iface_set_cost i c s' = (s1, Ok tt) /\ update_simulation E k s1 = (t1, Ok tt) /\
    (forall d, In d (m_dms s) -> same_paths (d_path (h_dm s' d)) (d_path (h_dm t1 d))) /\
    (forall x, In x (m_ifs s) -> same_traffic (i_traffic (h_if s' x)) (i_traffic (h_if t1 x))).
Proof. intros HE S U _ Hc. exact (set_cost_same E k s s' i c HE S U Hc). Qed.
Print Assumptions C106_set_cost.

(** [cnet]: A=B, B=C, A=C, D isolated *)
Definition cnet (cab cbc cac : Z) (ds : list demand) : st := net [nd "A"; nd "B"; nd "C"; nd "D"]
  [itf "ab" cab 100 0 1 1; itf "ba" cab 100 1 0 1; itf "bc" cbc 100 1 2 2; itf "cb" cbc 100 2 1 2; itf "ac" cac 100 0 2 3; itf "ca" cac 100 2 0 3] ds [] [].
Ltac clink_tac := intros i H; vm_compute in H; in_tac; [wpair_tac 1%nat|wpair_tac 0%nat|wpair_tac 3%nat|wpair_tac 2%nat|wpair_tac 5%nat|wpair_tac 4%nat].
Ltac csound_tac := split; [reflexivity|]; split; [posed0_tac|]; split; [wf_tac; clink_tac|]; split;
  [split; [|split]; [intros i H (g & G & _); vm_compute in H; in_tac; vm_compute in G; destruct G
    |intros n H (g & G & _); vm_compute in H; in_tac; vm_compute in G; destruct G
    |intros i j Hi Hj _ g; vm_compute in Hi, Hj; in_tac; vm_compute; tauto]
  |split; [intros i H _; vm_compute in H; in_tac; up_tac|agree_tac]].
Definition c1 : st := cnet 2 3 9 [dmd 0 2 12 "d0"; dmd 0 3 3 "d1"].
Lemma c1_sound : sound_net Flex c1.
Proof. csound_tac. Qed.
Definition c2 : st := fst (update_simulation E0 Flex c1).
Lemma c1_run : update_simulation E0 Flex c1 = (c2, Ok tt).
Proof. unfold c2. apply run_split. vm_compute. reflexivity. Qed.
(** A=C on no path: it may become dearer; B=C on the path: it may become cheaper *)
Example C106_example : sound_net Flex c1 /\ d_path (h_dm c2 0) = DPaths [[IIf 0; IIf 2]]%nat /\
  (forall d, In d (m_dms c1) -> ~ on_a_path c2 d 4%nat) /\ (forall d, In d (m_dms c1) -> on_every_path c2 d 2%nat \/ d_path (h_dm c2 d) = DUnrouted).
Proof.
  split; [exact c1_sound|]. split; [vm_compute; reflexivity|]. split.
  - intros d Hd (ps & p & H & Hp & Hi). vm_compute in Hd. destruct Hd as [<-|[<-|[]]].
    + vm_compute (d_path _) in H. injection H as <-. destruct Hp as [<-|[]]. simpl in Hi. destruct Hi as [X|[X|[]]]; discriminate X.
    + vm_compute (d_path _) in H. discriminate H.
  - intros d Hd. vm_compute in Hd. destruct Hd as [<-|[<-|[]]]; [left|right; vm_compute; reflexivity].
    exists [[IIf 0; IIf 2]]%nat. split; [vm_compute; reflexivity|]. intros p [<-|[]]. simpl. auto.
Qed.
(** B=C at the cost that makes both ways equal: its traffic falls from 12 to 6 *)
Definition c3 : st := upd_if 2 (if_cost 7) c1.
Definition c4 : st := fst (update_simulation E0 Flex c3).
Lemma c3_run : update_simulation E0 Flex c3 = (c4, Ok tt).
Proof. unfold c4. apply run_split. vm_compute. reflexivity. Qed.
Example C106_own_example : plain Flex c1 /\ plain Flex c3 /\ repriced c1 c3 /\ only_cost_of 2 c1 c3 /\ i_cost (h_if c1 2) < i_cost (h_if c3 2) /\ no_cheaper c1 c3 /\
  i_traffic (h_if c2 2) = TNum 12 /\ i_traffic (h_if c4 2) = TNum (12 # 2) /\ takes c2 0 [0; 2]%nat /\ takes c4 0 [4%nat].
Proof.
  assert (P := sound_plain _ _ c1_sound). split; [exact P|]. split; [apply sc_plain; [lia|exact P]|]. split; [apply setter_repriced|]. split; [apply setter_only|]. split; [vm_compute; reflexivity|].
  split; [intros i H; vm_compute in H; in_tac; vm_compute; discriminate|]. split; [vm_compute; reflexivity|]. split; [vm_compute; reflexivity|].
  split; [exists [[IIf 0; IIf 2]]%nat|exists [[IIf 0; IIf 2]; [IIf 4]]%nat]; (split; [vm_compute; reflexivity|simpl; auto]).
Qed.
(** A lower cost of an interface on some of the paths takes the other paths away. *)
Definition c5 : st := cnet 2 3 5 [dmd 0 2 12 "d0"].
Lemma c5_sound : sound_net Flex c5.
Proof. csound_tac. Qed.
Definition c6 : st := fst (update_simulation E0 Flex c5).
Lemma c5_run : update_simulation E0 Flex c5 = (c6, Ok tt).
Proof. unfold c6. apply run_split. vm_compute. reflexivity. Qed.
Definition c7 : st := upd_if 2 (if_cost 2) c5.
Definition c8 : st := fst (update_simulation E0 Flex c7).
Lemma c7_run : update_simulation E0 Flex c7 = (c8, Ok tt).
Proof. unfold c8. apply run_split. vm_compute. reflexivity. Qed.
Theorem C106_lowered_refuted :
  ~ (forall E s t s' t' d i, env_ok E -> plain Flex s -> plain Flex t -> repriced s t -> only_cost_of i s t -> i_cost (h_if t i) <= i_cost (h_if s i) ->
       update_simulation E Flex s = (s', Ok tt) -> update_simulation E Flex t = (t', Ok tt) -> In d (m_dms s) -> on_a_path s' d i ->
       same_paths (d_path (h_dm s' d)) (d_path (h_dm t' d))).
Proof.
  intros C. assert (P := sound_plain _ _ c5_sound). assert (P' : plain Flex c7) by (apply sc_plain; [lia|exact P]).
  assert (Z := C E0 c5 c7 c6 c8 0%nat 2%nat E0_ok P P' (setter_repriced _ _ _) (setter_only _ _ _) ltac:(vm_compute; discriminate) c5_run c7_run ltac:(vm_compute; auto)).
  assert (A : on_a_path c6 0 2). { clear. exists [[IIf 0; IIf 2]; [IIf 4]]%nat, [IIf 0; IIf 2]%nat. split; [vm_compute; reflexivity|]. simpl. auto. }
  specialize (Z A). clear - Z. vm_compute in Z. destruct (proj1 (Z [IIf 4%nat])); [auto|discriminate H|destruct H].
Qed.
Print Assumptions C106_lowered_refuted.

(** ** C107 The two directions *)
Theorem C107_opposite E k s s' d e : env_ok E -> well_posed s -> update_simulation E k s = (s', Ok tt) -> same_failures s s' -> even_links k s' ->
  igp_demand k s' d -> igp_demand k s' e -> dmd_from s' e = dmd_to s' d -> dmd_to s' e = dmd_from s' d ->
  opposite_paths k s' (d_path (h_dm s' d)) (d_path (h_dm s' e)).
Proof. intros HE WP U SF Ev. exact (mirror_paths E k s s' HE WP U SF d e Ev). Qed.
Print Assumptions C107_opposite.
(** Without LSPs it can be seen before the simulation. *)
Theorem C107_even E k s s' : env_ok E -> plain k s -> update_simulation E k s = (s', Ok tt) -> even_config k s -> even_links k s'.
Proof. exact (even_run E k s s'). Qed.
Print Assumptions C107_even.
(** [dia]: A=X, A=Y, X=Z, and twice Y=Z *)
Definition dia (ds : list demand) : st := net [nd "A"; nd "X"; nd "Y"; nd "Z"]
  [itf "ax" 1 100 0 1 1; itf "xa" 1 100 1 0 1; itf "ay" 1 100 0 2 2; itf "ya" 1 100 2 0 2; itf "xz" 1 100 1 3 3; itf "zx" 1 100 3 1 3;
   itf "yz" 1 100 2 3 4; itf "zy" 1 100 3 2 4; itf "yz2" 1 100 2 3 5; itf "zy2" 1 100 3 2 5] ds [] [].
Definition dia1 : st := dia [dmd 0 3 12 "there"; dmd 3 0 12 "back"; dmd 2 3 1 "rest"; dmd 0 2 1 "start"].
Definition dia2 : st := fst (update_simulation E0 Flex dia1).
Lemma dia1_run : update_simulation E0 Flex dia1 = (dia2, Ok tt).
Proof. unfold dia2. apply run_split. vm_compute. reflexivity. Qed.
Lemma dia1_plain : plain Flex dia1.
Proof.
  split; [reflexivity|]. split; [posed0_tac|]. split; [known_tac|]. split; [intros _ i H; vm_compute in H; in_tac; vm_compute; discriminate|].
  split; [agree_tac|]. vm_compute. nodup_tac.
Qed.
Lemma dia1_even : even_config Flex dia1.
Proof.
  intros i j Hi Hj _. split.
  - vm_compute in Hi, Hj. in_tac; vm_compute; reflexivity.
  - intros _. set (h := h_if (unreserved dia1) j). exists (roundd 10 (i_cap h * i_pct h / 100 - roundd 10 (i_res h))%Q). unfold h. clear h. split.
    + unfold reservable, reserved. assert (X : i_rsvp (h_if (unreserved dia1) j) = true) by (vm_compute in Hj; in_tac; vm_compute; reflexivity). rewrite X.
      eexists. split; apply roundd_rounds.
    + vm_compute in Hj. in_tac; vm_compute; discriminate.
Qed.
Lemma dia_igp d : In d (m_dms dia2) -> igp_demand Flex dia2 d.
Proof.
  intros H. split; [exact H|]. split.
  - intros l (A & _). vm_compute in A. destruct A.
  - intros _ p a n b m l _ X SC. vm_compute in X. exfalso. in_tac; vm_compute in SC; discriminate SC.
Qed.
Example C107_example : well_posed dia1 /\ even_links Flex dia2 /\ same_failures dia1 dia2 /\ igp_demand Flex dia2 0 /\ igp_demand Flex dia2 1 /\
  dmd_from dia2 1 = dmd_to dia2 0 /\ dmd_to dia2 1 = dmd_from dia2 0 /\
  d_path (h_dm dia2 0) = DPaths (map if_path [[0; 4]; [2; 6]; [2; 8]])%nat /\ d_path (h_dm dia2 1) = DPaths (map if_path [[5; 1]; [7; 3]; [9; 3]])%nat.
Proof.
  split; [apply dia1_plain|]. split; [exact (C107_even E0 Flex dia1 dia2 E0_ok dia1_plain dia1_run dia1_even)|].
  split; [exact (run_fail E0 Flex dia1 dia2 E0_ok dia1_plain dia1_run)|]. split; [apply dia_igp; vm_compute; auto|]. split; [apply dia_igp; vm_compute; auto|].
  split; [vm_compute; reflexivity|]. split; [vm_compute; reflexivity|]. split; vm_compute; reflexivity.
Qed.
(** The amounts differ: traffic is divided at the forks, and these are not the same in the two
    directions.  Half of the traffic from A goes by Y, two thirds of that from Z. *)
Theorem C107_traffic_refuted :
  ~ (forall E s s' d e i j x y, env_ok E -> plain Flex s -> even_config Flex s -> update_simulation E Flex s = (s', Ok tt) -> In d (m_dms s) -> In e (m_dms s) ->
       dmd_from s' e = dmd_to s' d -> dmd_to s' e = dmd_from s' d -> d_traffic (h_dm s e) = d_traffic (h_dm s d) -> is_reverse Flex s i j ->
       adds Flex s' d i x -> adds Flex s' e j y -> (x == y)%Q).
Proof.
  intros C. assert (Z := C E0 dia1 dia2 0%nat 1%nat 2%nat 3%nat (demand_on dia2 0 2) (demand_on dia2 1 3) E0_ok dia1_plain dia1_even dia1_run ltac:(vm_compute; auto) ltac:(vm_compute; auto)
    ltac:(vm_compute; reflexivity) ltac:(vm_compute; reflexivity) ltac:(vm_compute; reflexivity) ltac:(vm_compute; auto) ltac:(apply Qeq_refl) ltac:(apply Qeq_refl)).
  clear - Z. vm_compute in Z. discriminate Z.
Qed.
Print Assumptions C107_traffic_refuted.

(** ** C108 From and to the nodes on the way *)
(** A demand from a node on a path of another, to the same destination, takes just the rests of
    the paths that come the same way; *)
Theorem C108_rest E k s s' d e x y z : env_ok E -> well_posed s -> update_simulation E k s = (s', Ok tt) -> same_failures s s' -> igp_demand k s' d -> igp_demand k s' e ->
  takes s' d (x ++ y) -> dmd_from s' e = ends_at s' (dmd_from s' d) x -> dmd_to s' e = dmd_to s' d ->
  (takes s' e z <-> takes s' d (x ++ z)).
Proof. intros HE WP U SF Hd He T Fr To. exact (rest_paths E k s s' HE WP U SF d e x y z Hd He T To Fr). Qed.
Print Assumptions C108_rest.
(** and a demand to such a node from the same source takes just the starts of the paths. *)
Theorem C108_start E k s s' d e x y z : env_ok E -> well_posed s -> update_simulation E k s = (s', Ok tt) -> same_failures s s' -> igp_demand k s' d -> igp_demand k s' e ->
  takes s' d (x ++ y) -> dmd_from s' e = dmd_from s' d -> dmd_to s' e = ends_at s' (dmd_from s' d) x ->
  (takes s' e z <-> takes s' d (z ++ y)).
Proof. intros HE WP U SF Hd He T Fr To. exact (start_paths E k s s' HE WP U SF d e x y z Hd He T Fr To). Qed.
Print Assumptions C108_start.
(** If a demand to a node and one from there are routed, so is the one all the way, and it costs
    no more than the two. *)
Theorem C108_triangle E k s s' d e f p q : env_ok E -> well_posed s -> update_simulation E k s = (s', Ok tt) -> same_failures s s' ->
  igp_demand k s' d -> igp_demand k s' e -> igp_demand k s' f -> dmd_from s' e = dmd_from s' d -> dmd_to s' e = dmd_from s' f -> dmd_to s' f = dmd_to s' d ->
  takes s' e p -> takes s' f q -> (exists r, takes s' d r) /\ forall r, takes s' d r -> route_cost s' r <= route_cost s' p + route_cost s' q.
Proof. intros HE WP U SF. exact (triangle E k s s' HE WP U SF d e f p q). Qed.
Print Assumptions C108_triangle.
Example C108_example : igp_demand Flex dia2 2 /\ igp_demand Flex dia2 3 /\ takes dia2 0 ([2] ++ [6])%nat /\ dmd_from dia2 2 = ends_at dia2 (dmd_from dia2 0) [2%nat] /\ dmd_to dia2 2 = dmd_to dia2 0 /\
  dmd_from dia2 3 = dmd_from dia2 0 /\ dmd_to dia2 3 = ends_at dia2 (dmd_from dia2 0) [2%nat] /\ takes dia2 2 [6%nat] /\ takes dia2 2 [8%nat] /\ takes dia2 3 [2%nat].
Proof.
  split; [apply dia_igp; vm_compute; auto|]. split; [apply dia_igp; vm_compute; auto|]. split; [exists (map if_path [[0; 4]; [2; 6]; [2; 8]])%nat; split; [vm_compute; reflexivity|simpl; auto]|].
  split; [vm_compute; reflexivity|]. split; [vm_compute; reflexivity|]. split; [vm_compute; reflexivity|]. split; [vm_compute; reflexivity|].
  split; [exists (map if_path [[6]; [8]])%nat; split; [vm_compute; reflexivity|simpl; auto]|]. split; [exists (map if_path [[6]; [8]])%nat; split; [vm_compute; reflexivity|simpl; auto]|].
  exists (map if_path [[2]])%nat; split; [vm_compute; reflexivity|simpl; auto].
Qed.
