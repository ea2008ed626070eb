(** PropertiesSteer.v - changes of the manual metric of an LSP (C118). *)
From Verif Require Import Base Graph Objects Sim Api Build Spec SpecHist SpecCkt SpecSim SpecMetric SpecFlow SpecOrder SpecFail SpecSame SpecSig SpecWhatIf SpecTotal SpecMore SpecCost Nets GraphProofs RoundProofs
  PropertiesValidate PropertiesRoute PropertiesTraffic PropertiesFail PropertiesOrder OrderProofs WhatIf PropertiesWhatIf LspTotal SigTotal LspExact PropertiesTotal PropertiesSignal MoreLsps PropertiesMore PropertiesSame SpecSteer SteerLsps.
From Coq Require Import Lqa.

(** ** C118 Steering demands with manual_metric *)
(** The metric of an LSP has no effect on the LSPs, itself included, and on what is delivered. *)
Theorem C118_lsps E E' k l0 s t s' t' : env_ok E -> env_ok E' -> with_room k s -> with_room k t -> remetriced l0 s t ->
  update_simulation E k s = (s', Ok tt) -> update_simulation E' k t = (t', Ok tt) ->
  (forall l, In l (m_lsps s) -> same_fate (l_path (h_ls s' l)) (l_path (h_ls t' l)) /\ same_amount (l_setup (h_ls s' l)) (l_setup (h_ls t' l)) /\ same_amount (l_res (h_ls s' l)) (l_res (h_ls t' l)) /\
     (sole_road s l -> same_way (l_path (h_ls s' l)) (l_path (h_ls t' l)))) /\
  (forall d, In d (m_dms s) -> (d_path (h_dm t' d) = DUnrouted <-> d_path (h_dm s' d) = DUnrouted)) /\ (routed_total t' == routed_total s')%Q.
Proof.
  intros HE HE' Rs Rt W U U'. split; [|split].
  - intros l Hl. exact (st_lsp E E' k HE HE' l0 s t s' t' W Rs Rt U U' l Hl).
  - intros d Hd. exact (st_unrouted E E' k HE HE' l0 s t s' t' W Rs Rt U U' d Hd).
  - exact (st_delivered E E' k HE HE' l0 s t s' t' W Rs Rt U U').
Qed.
Print Assumptions C118_lsps.
(** A demand with other end nodes keeps its paths, and its load if its LSPs have no second best way. *)
Theorem C118_others E E' k l0 s t s' t' d : env_ok E -> env_ok E' -> with_room k s -> with_room k t -> remetriced l0 s t ->
  update_simulation E k s = (s', Ok tt) -> update_simulation E' k t = (t', Ok tt) -> In d (m_dms s) -> ~ lsp_of s' d l0 ->
  same_paths (d_path (h_dm s' d)) (d_path (h_dm t' d)) /\
  ((forall l, preferred s' d l -> sole_road s l) -> forall i x y, adds k s' d i x -> adds k t' d i y -> (x == y)%Q).
Proof.
  intros HE HE' Rs Rt W U U' Hd N. split; [exact (st_paths E E' k HE HE' l0 s t s' t' W Rs Rt U U' d Hd N)|]. intros So i x y. exact (st_adds E E' k HE HE' l0 s t s' t' W Rs Rt U U' d Hd i x y N So).
Qed.
Print Assumptions C118_others.
(** With a metric below those of the other routed LSPs between its ends, the LSP takes the whole demand; ... *)
Theorem C118_lowest E E' k l0 s t s' t' d v : env_ok E -> env_ok E' -> with_room k s -> with_room k t -> remetriced l0 s t ->
  update_simulation E k s = (s', Ok tt) -> update_simulation E' k t = (t', Ok tt) -> In d (m_dms s) -> reads_metric t l0 v ->
  lsp_of s' d l0 -> routed_lsp s' l0 -> others_above s' d l0 v -> d_path (h_dm t' d) = DPaths [[ILsp l0]].
Proof. intros HE HE' Rs Rt W U U' Hd Rv. exact (st_lowest E E' k HE HE' l0 s t s' t' W Rs Rt U U' d Hd v Rv). Qed.
Print Assumptions C118_lowest.
(** ... with one above that of another routed LSP it carries nothing of it. *)
Theorem C118_higher E E' k l0 s t s' t' d v l y ps : env_ok E -> env_ok E' -> with_room k s -> with_room k t -> remetriced l0 s t ->
  update_simulation E k s = (s', Ok tt) -> update_simulation E' k t = (t', Ok tt) -> In d (m_dms s) -> In l0 (m_lsps s) -> reads_metric t l0 v ->
  lsp_of s' d l -> routed_lsp s' l -> l <> l0 -> metric s' l (Some y) -> y < v -> d_path (h_dm t' d) = DPaths ps -> ~ In [ILsp l0] ps.
Proof. intros HE HE' Rs Rt W U U' Hd H0 Rv A B N M L. exact (st_higher E E' k HE HE' l0 s t s' t' W Rs Rt U U' d Hd v Rv l y A B N M L H0 ps). Qed.
Print Assumptions C118_higher.
(** Assigning manual_metric on a simulated model, to an LSP whose configured metric has been taken over or that has none, gives such
    a model, and update_simulation succeeds on it. *)
Theorem C118_set_metric E k s s' l0 v w : env_ok E -> with_room k s -> update_simulation E k s = (s', Ok tt) -> 0 < v -> mstate_of (h_ls s' l0) = Current w ->
  exists s1 t1, set_manual_metric l0 v s' = (s1, Ok tt) /\ update_simulation E k s1 = (t1, Ok tt) /\ with_room k s1 /\ remetriced l0 s s1 /\ reads_metric s1 l0 v.
Proof. intros HE R U. exact (set_metric_lsps E k s s' HE R U l0 v w). Qed.
Print Assumptions C118_set_metric.

(** Two LSPs from A to C share a demand; with metric 1 LSP 0 takes all of it, with metric 9 LSP 1 does. The demand from B to A stays on its path. *)
Definition z1 : st := net [nd "A"; nd "B"; nd "C"]
  [itf "ab" 2 100 0 1 1; itf "ba" 2 100 1 0 1; itf "bc" 3 100 1 2 2; itf "cb" 3 100 2 1 2] [dmd 0 2 60 "d0"; dmd 1 0 6 "d1"] [lsp_ 0 2 "l0"; lsp_ 0 2 "l1"] [].
Definition z2 : st := fst (update_simulation E0 Flex z1).
Definition z3 (v : Z) : st := fst (set_manual_metric 0 v z2).
Definition z4 (v : Z) : st := fst (update_simulation E0 Flex (z3 v)).
Lemma z1_run : update_simulation E0 Flex z1 = (z2, Ok tt). Proof. unfold z2. apply run_split. vm_compute. reflexivity. Qed.
Lemma z1_room : with_room Flex z1. Proof. room_tac. Qed.
Lemma z2_current : mstate_of (h_ls z2 0) = Current None. Proof. vm_compute. reflexivity. Qed.
Lemma z2_routed l : In l [0; 1]%nat -> routed_lsp z2 l. Proof. intros [<-|[<-|[]]]; eexists _, _, _; vm_compute; reflexivity. Qed.
Lemma z2_of l : In l [0; 1]%nat -> lsp_of z2 0 l. Proof. intros [<-|[<-|[]]]; (split; [vm_compute; auto|split; vm_compute; reflexivity]). Qed.
Lemma z2_not : ~ lsp_of z2 1 0. Proof. assert (X : lsp_from z2 0 <> dmd_from z2 1) by (vm_compute; discriminate). intros (_ & A & _). exact (X A). Qed.
Lemma z_paths : d_path (h_dm z2 0) = DPaths [[ILsp 0]; [ILsp 1]]%nat /\ d_path (h_dm (z4 1) 0) = DPaths [[ILsp 0]]%nat /\ d_path (h_dm (z4 9) 0) = DPaths [[ILsp 1]]%nat /\ d_path (h_dm z2 1) = d_path (h_dm (z4 1) 1).
Proof. split; [|split; [|split]]; vm_compute; reflexivity. Qed.
Lemma z_lsps : m_lsps z2 = [0; 1]%nat. Proof. vm_compute. reflexivity. Qed.
Lemma z_metric m : metric z2 1 m -> exists y, m = Some y /\ 1 < y.
Proof.
  (* the other LSP has no manual metric, and every interface costs at least 2 *)
  assert (Z : mstate_of (h_ls z2 1) = Current None) by (vm_compute; reflexivity). unfold metric. rewrite Z. destruct m as [c|].
  - intros (p & [Rp _] & ->). eexists. split; [reflexivity|]. assert (F : lsp_from z2 1 = "A") by (vm_compute; reflexivity). assert (T : lsp_to z2 1 = "C") by (vm_compute; reflexivity). rewrite F, T in Rp. clear -Rp.
    assert (Co : forall i, In i (m_ifs z2) -> 2 <= i_cost (h_if z2 i)) by (assert (X : m_ifs z2 = [0; 1; 2; 3]%nat) by (vm_compute; reflexivity); intros i; rewrite X; clear X; intros [<-|[<-|[<-|[<-|[]]]]]; vm_compute; discriminate).
    assert (Pos : forall u q v, route z2 (usable z2) u q v -> 0 <= route_cost z2 q) by (induction 1 as [|i q v Hi _ _ IH]; cbn [route_cost]; [lia|]; assert (Y := Co i Hi); lia).
    remember "A" as a eqn:Ea. remember "C" as b eqn:Eb. destruct Rp as [n|i q v Hi Ui R]; [congruence|]. cbn [route_cost]. assert (Y := Co i Hi). assert (Q := Pos _ _ _ R). lia.
  - intros N. destruct (z2_routed 1) as (p & c & b & P); [simpl; auto|]. exfalso.
    destruct (placed E0 Flex E0_ok z1 z2 (rm_posed _ _ z1_room) (rm_usual _ _ z1_room) (rm_known _ _ z1_room) z1_run 1 (rm_ample _ _ z1_room)) as [(q & b1 & r & Q & B & _)|(Q & _)]; [vm_compute; auto| |congruence].
    apply (N q). destruct (OrderLsps.fin_ls E0 Flex z1 z2 z1_run 1) as [-> ->]. apply (OrderLsps.like_route _ _ _ _ _ _ _ (OrderLsps.fin_like E0 Flex E0_ok z1 z2 (rm_posed _ _ z1_room) (rm_known _ _ z1_room) (rm_cids _ _ z1_room) (rm_usual _ _ z1_room) (rm_ample _ _ z1_room) (rm_agree _ _ z1_room) z1_run)). apply B.
Qed.
Example C118_example : env_ok E0 /\ with_room Flex z1 /\ update_simulation E0 Flex z1 = (z2, Ok tt) /\ mstate_of (h_ls z2 0) = Current None /\ In 0%nat (m_dms z1) /\ lsp_of z2 0 0 /\ routed_lsp z2 0 /\ others_above z2 0 0 1 /\ ~ lsp_of z2 1 0 /\
  d_path (h_dm z2 0) = DPaths [[ILsp 0]; [ILsp 1]]%nat /\ d_path (h_dm (z4 1) 0) = DPaths [[ILsp 0]]%nat /\ d_path (h_dm (z4 9) 0) = DPaths [[ILsp 1]]%nat /\ d_path (h_dm z2 1) = d_path (h_dm (z4 1) 1).
Proof.
  split; [exact E0_ok|]. split; [exact z1_room|]. split; [exact z1_run|]. split; [exact z2_current|]. split; [vm_compute; auto|]. split; [apply z2_of; simpl; auto|]. split; [apply z2_routed; simpl; auto|]. split; [|split; [exact z2_not|exact z_paths]].
  intros l m (Hl & _) _ N M. rewrite z_lsps in Hl. destruct Hl as [<-|[<-|[]]]; [congruence|]. exact (z_metric m M).
Qed.
