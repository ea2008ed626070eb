(** PropertiesWorld.v - several models in one program (C86, C87). *)
From Verif Require Import Base Graph Objects Sim Api Build Spec SpecOwn World SpecWorld WorldProofs Nets.

(** ** C86 *)
(** Whatever is done with other models, a model with its own sets holds the same
    objects, and the objects that no other model can reach stay the same. *)
Theorem C86_separate E h0 h a o : let w := wrun E h0 start_world in let w' := wrun E h w in
  own_sets w a o -> (forall x, In x h -> not_on a x) ->
  nth_error (w_models w') a = Some o /\ same_holdings o w w' /\ spared_objects h a w w'.
Proof. apply separate. Qed.
Print Assumptions C86_separate.

(** A model made with new sets holds exactly what it was given, and has its own
    sets ever after. *)
Theorem C86_own_sets E h0 h k ifs nds dms lsps : let w := wrun E h0 start_world in let a := List.length (w_models w) in
  (exists o, nth_error (w_models (wstep E (WWith k ifs nds dms lsps) w)) a = Some o /\
     m_ifs (view (wstep E (WWith k ifs nds dms lsps) w) o) = ifs /\ m_nds (view (wstep E (WWith k ifs nds dms lsps) w) o) = nds /\
     m_dms (view (wstep E (WWith k ifs nds dms lsps) w) o) = dms /\ m_lsps (view (wstep E (WWith k ifs nds dms lsps) w) o) = lsps) /\
  exists o, own_sets (wrun E h (wstep E (WWith k ifs nds dms lsps) w)) a o.
Proof.
  intros w a. destruct (own_new E h0 k ifs nds dms lsps) as (o & O & V). fold w in O, V. split.
  - exists o. split; [apply O|]. rewrite V. repeat split.
  - destruct (wf_run E h0 _ _ wf_start) as [f W]. fold w in W. destruct (wf_step E f (WWith k ifs nds dms lsps) w W) as [f' W']. exact (own_run E h f' _ a o W' O).
Qed.
Print Assumptions C86_own_sets.

(** A program with one model is what the other theorems speak about. *)
Theorem C86_single E k l : exists o, nth_error (w_models (wrun E (WNew k :: map (WCall 0) l) start_world)) 0 = Some o /\
  view (wrun E (WNew k :: map (WCall 0) l) start_world) o = run_ops E k l init_st.
Proof.
  destruct (wf_step E _ (WNew k) _ wf_start) as [f W]. destruct (single_run E 0 l f _ (mkModel k (default_sets k) (S (default_sets k)) (S (S (default_sets k))) (S (S (S (default_sets k)))) [] [] []) W eq_refl) as (o & H & V).
  exists o. split; [exact H|]. exact V.
Qed.
Print Assumptions C86_single.

Definition ab_list : list if_info := [mkInfo "ab" 1 100 "A" "B" (CInt 1); mkInfo "ba" 1 100 "B" "A" (CInt 1)].
(** two models; the second takes its node "A" down *)
Definition two_before : list wop := [WWith Flex [] [] [] []; WCall 0 (OpAddInterfaces ab_list); WCall 0 (OpAddDemand "A" "B" 10 "d"); WCall 0 OpUpdate; WNew Flex].
Definition two_after : list wop := [WCall 1 (OpAddInterfaces ab_list); WCall 1 (OpAddDemand "B" "A" 3 "e"); WCall 1 (OpFailNode "A"); WCall 1 OpUpdate; WNew Flex; WCall 2 OpUpdate].
Definition two_w : world := wrun E0 two_before start_world.
Definition first_of (w : world) : model := match nth_error (w_models w) 0 with Some o => o | None => mkModel Flex 0 0 0 0 [] [] [] end.
Example C86_example : own_sets two_w 0 (first_of two_w) /\ (forall x, In x two_after -> not_on 0 x) /\
  List.length (m_ifs (view two_w (first_of two_w))) = 2%nat /\
  (forall i, In i (m_ifs (view two_w (first_of two_w))) -> (i < w_next two_w)%nat /\ ~ other_if two_w 0 i /\ ~ In i (flat_map wgiven_ifs two_after)) /\
  List.length (w_models (wrun E0 two_after two_w)) = 3%nat /\ w_next (wrun E0 two_after two_w) <> w_next two_w.
Proof.
  assert (M : forall b o, nth_error (w_models two_w) b = Some o -> b = 0%nat \/ b = 1%nat /\ o_ifs o = 0%nat /\ o_nds o = 1%nat /\ o_dms o = 2%nat /\ o_lsps o = 3%nat).
  { intros [|[|[|b]]] o H; auto; [|vm_compute in H; discriminate H|vm_compute in H; discriminate H]. right. vm_compute in H. injection H as <-. auto. }
  split; [split; [vm_compute; reflexivity|split]|].
  - intros r H. vm_compute in H. in_tac; lia.
  - intros b o' r Nb H Hr Hr'. destruct (M b o' H) as [->|(-> & A1 & A2 & A3 & A4)]; [congruence|]. unfold refs in Hr'. rewrite A1, A2, A3, A4 in Hr'. vm_compute in Hr. simpl in Hr'. lia.
  - split; [intros x H; simpl in H; in_tac; simpl; auto; lia|]. split; [vm_compute; reflexivity|]. split; [|split; vm_compute; [reflexivity|discriminate]].
    intros i H. vm_compute in H. split; [vm_compute; in_tac; lia|]. split; [|vm_compute; tauto]. intros [(b & o & Nb & Hb & Hi)|Hd].
    + destruct (M b o Hb) as [->|(-> & A1 & _)]; [congruence|]. rewrite A1 in Hi. vm_compute in Hi. exact Hi.
    + vm_compute in Hd. tauto.
Qed.

(** ** C87 *)
(** Models made without arguments hold the same demands and LSPs for ever, and the
    same interfaces and nodes until add_network_interfaces_from_list is called on
    one of them. *)
Theorem C87_shared E h0 h1 h2 k : let w0 := wrun E h0 start_world in let w1 := wrun E h1 (wstep E (WNew k) w0) in let w2 := wrun E h2 (wstep E (WNew k) w1) in
  let a := List.length (w_models w0) in let b := List.length (w_models w1) in
  exists oa ob, nth_error (w_models w2) a = Some oa /\ nth_error (w_models w2) b = Some ob /\ a <> b /\
    m_dms (view w2 oa) = m_dms (view w2 ob) /\ m_lsps (view w2 oa) = m_lsps (view w2 ob) /\
    ((forall x, In x (h1 ++ h2) -> not_listing a x /\ not_listing b x) ->
       m_ifs (view w2 oa) = m_ifs (view w2 ob) /\ m_nds (view w2 oa) = m_nds (view w2 ob)).
Proof.
  intros w0 w1 w2 a b. set (d := mkModel k (default_sets k) (S (default_sets k)) (S (S (default_sets k))) (S (S (S (default_sets k)))) [] [] []).
  assert (A0 : nth_error (w_models (wstep E (WNew k) w0)) a = Some d) by (simpl; rewrite nth_error_app2, Nat.sub_diag; auto).
  destruct (run_refs E h1 _ a d A0) as (d1 & A1 & K1 & M1 & L1 & I1). fold w1 in A1.
  assert (A2 : nth_error (w_models (wstep E (WNew k) w1)) a = Some d1) by (simpl; rewrite nth_error_app1; auto; eapply nth_len; eauto).
  destruct (run_refs E h2 _ a d1 A2) as (d2 & A3 & K2 & M2 & L2 & I2). fold w2 in A3.
  assert (B0 : nth_error (w_models (wstep E (WNew k) w1)) b = Some d) by (simpl; rewrite nth_error_app2, Nat.sub_diag; auto).
  destruct (run_refs E h2 _ b d B0) as (e2 & B1 & K3 & M3 & L3 & I3). fold w2 in B1.
  exists d2, e2. split; [exact A3|]. split; [exact B1|]. split; [apply nth_len in A1; fold b in A1; lia|].
  unfold view. cbn [m_dms m_lsps m_ifs m_nds]. rewrite M2, M1, M3, L2, L1, L3. split; [reflexivity|]. split; [reflexivity|]. intros N.
  destruct I1 as [I1 I1']; [intros x Hx; apply N; apply in_or_app; now left|]. destruct I2 as [I2 I2']; [intros x Hx; apply N; apply in_or_app; now right|].
  destruct I3 as [I3 I3']; [intros x Hx; apply N; apply in_or_app; now right|]. now rewrite I2, I2', I1, I1', I3, I3'.
Qed.
Print Assumptions C87_shared.

(** The first model of its class made without arguments is empty. *)
Theorem C87_first E h k : (forall x, In x h -> x <> WNew k) -> let w := wrun E h start_world in
  exists o, nth_error (w_models (wstep E (WNew k) w)) (List.length (w_models w)) = Some o /\
    m_ifs (view (wstep E (WNew k) w) o) = [] /\ m_nds (view (wstep E (WNew k) w) o) = [] /\
    m_dms (view (wstep E (WNew k) w) o) = [] /\ m_lsps (view (wstep E (WNew k) w) o) = [].
Proof.
  intros N w. pose proof (default_empty E k h _ _ wf_start N) as X.
  assert (X' : forall r, class_sets k r -> w_sets w r = []) by (apply X; [intros [|b] o r H; discriminate H|auto]).
  eexists. split; [simpl; rewrite nth_error_app2, Nat.sub_diag by auto; reflexivity|]. simpl. repeat split; apply X'; unfold class_sets; lia.
Qed.
Print Assumptions C87_first.

(** A FlexModel() made later is not empty in general ... *)
Definition first_calls : list op := [OpAddInterfaces ab_list; OpAddDemand "A" "B" 10 "d"; OpUpdate].
Theorem C87_empty_refuted :
  ~ (forall E h k o, env_ok E -> let w := wstep E (WNew k) (wrun E h start_world) in
       nth_error (w_models w) (List.length (w_models (wrun E h start_world))) = Some o -> m_dms (view w o) = []).
Proof.
  intros C. specialize (C E0 (WNew Flex :: map (WCall 0) first_calls) Flex (mkModel Flex 0 1 2 3 [] [] []) E0_ok eq_refl). vm_compute in C. discriminate C.
Qed.
Print Assumptions C87_empty_refuted.

(** ... and what is done with another model changes its simulation: in a second
    FlexModel() with the same two interfaces and no demand they carry traffic. *)
Theorem C87_simulation_refuted :
  ~ (forall E k l0 l o, env_ok E -> let w := wrun E (map (WCall 1) l) (wstep E (WNew k) (wrun E (WNew k :: map (WCall 0) l0) start_world)) in
       nth_error (w_models w) 1 = Some o -> let s := run_ops E k l init_st in
       map (fun i => (i_name (h_if (view w o) i), i_traffic (h_if (view w o) i))) (m_ifs (view w o)) = map (fun i => (i_name (h_if s i), i_traffic (h_if s i))) (m_ifs s)).
Proof.
  intros C. pose proof (C E0 Flex first_calls [OpAddInterfaces ab_list; OpUpdate]) as X. clear C.
  set (w := wrun E0 (map (WCall 1) [OpAddInterfaces ab_list; OpUpdate]) (wstep E0 (WNew Flex) (wrun E0 (WNew Flex :: map (WCall 0) first_calls) start_world))) in *.
  destruct (nth_error (w_models w) 1) as [o|] eqn:O; [|vm_compute in O; discriminate O]. specialize (X o E0_ok O). cbv zeta in X.
  vm_compute in O. injection O as <-. vm_compute in X. discriminate X.
Qed.
Print Assumptions C87_simulation_refuted.

Example C87_example : exists oa ob, let w := wrun E0 [WNew Flex; WCall 0 (OpNewNode "A"); WCall 0 (OpNewNode "B"); WCall 0 (OpAddNode 0); WCall 0 (OpAddNode 1); WNew Flex; WCall 1 (OpAddCircuit 0 1 "ab" "ba" 1 1 100 (CInt 1)); WCall 0 (OpAddDemand "A" "B" 5 "d")] start_world in
  nth_error (w_models w) 0 = Some oa /\ nth_error (w_models w) 1 = Some ob /\ List.length (m_ifs (view w oa)) = 2%nat /\ List.length (m_dms (view w ob)) = 1%nat.
Proof. eexists. eexists. cbv zeta. split; [vm_compute; reflexivity|]. split; [vm_compute; reflexivity|]. split; vm_compute; reflexivity. Qed.
