(** PropertiesLspCost.v - changes of interface costs in models with LSPs (C116). *)
From Verif Require Import Base Graph Objects Sim Api Build Spec SpecHist SpecCkt SpecSim SpecMetric SpecFlow SpecOrder SpecFail SpecSame SpecSig SpecWhatIf SpecTotal SpecMore SpecCost SpecLspCost Nets GraphProofs RoundProofs
  PropertiesValidate PropertiesRoute PropertiesFail PropertiesOrder OrderProofs WhatIf PropertiesWhatIf LspTotal SigTotal LspExact PropertiesTotal PropertiesSignal MoreLsps PropertiesMore PropertiesSame CostLsps.
From Coq Require Import Lqa.

(** ** C116 Changes of interface costs, with LSPs *)
(** Whatever the costs, the same LSPs are routed with the same bandwidth, and the same demands. *)
Theorem C116_routed E E' k s t s' t' : env_ok E -> env_ok E' -> with_room k s -> with_room k t -> repriced_lsps s t ->
  update_simulation E k s = (s', Ok tt) -> update_simulation E' k t = (t', Ok tt) ->
  (forall l, In l (m_lsps s) -> (routed_lsp t' l <-> routed_lsp s' l) /\ same_amount (l_setup (h_ls s' l)) (l_setup (h_ls t' l)) /\ same_amount (l_res (h_ls s' l)) (l_res (h_ls t' l))) /\
  (forall d, In d (m_dms s) -> (d_path (h_dm t' d) = DUnrouted <-> d_path (h_dm s' d) = DUnrouted)) /\ (routed_total t' == routed_total s')%Q.
Proof.
  intros HE HE' Rs Rt W U U'. split; [|split].
  - intros l Hl. split; [exact (up_routed E E' k HE HE' s t s' t' W Rs Rt U U' l Hl)|]. split; [exact (up_setup E E' k HE HE' s t s' t' W Rs Rt U U' l Hl)|exact (up_res E E' k HE HE' s t s' t' W Rs Rt U U' l Hl)].
  - intros d Hd. exact (up_unrouted E E' k HE HE' s t s' t' W Rs Rt U U' d Hd).
  - exact (up_delivered E E' k HE HE' s t s' t' W Rs Rt U U').
Qed.
Print Assumptions C116_routed.
(** If no cost is lower, no LSP is cheaper; an LSP over none of the dearer interfaces keeps its cost, and its path if no
    other was as good. *)
Theorem C116_raised_lsp E E' k s t s' t' l p c b : env_ok E -> env_ok E' -> with_room k s -> with_room k t -> repriced_lsps s t -> no_cheaper s t ->
  update_simulation E k s = (s', Ok tt) -> update_simulation E' k t = (t', Ok tt) -> In l (m_lsps s) -> l_path (h_ls s' l) = PRouted p c b ->
  exists q c' b', l_path (h_ls t' l) = PRouted q c' b' /\ c <= c' /\
    ((forall i, In i p -> i_cost (h_if t i) = i_cost (h_if s i)) -> c' = c /\ best_road t l p /\ (sole_road s l -> q = p)).
Proof.
  intros HE HE' Rs Rt W N U U' Hl P. destruct (proj2 (up_routed E E' k HE HE' s t s' t' W Rs Rt U U' l Hl) (ex_intro _ p (ex_intro _ c (ex_intro _ b P)))) as (q & c' & b' & Q).
  exists q, c', b'. split; [exact Q|]. split; [exact (up_cost E E' k HE HE' s t s' t' W Rs Rt U U' N l p c b q c' b' Hl P Q)|]. intros K.
  assert (Kl : lsp_unpriced s s' t l) by (intros p0 c0 b0 i P0 Hi; rewrite P in P0; injection P0 as <- _ _; exact (K i Hi)).
  destruct (up_kept_lsp E E' k HE HE' s t s' t' W Rs Rt U U' N l p c b Hl P Kl) as (q1 & b1 & Q1 & B & So). rewrite Q in Q1. injection Q1 as -> -> _. auto.
Qed.
Print Assumptions C116_raised_lsp.
(** A demand whose paths and LSPs use none of the dearer interfaces keeps its paths. *)
Theorem C116_raised E E' k s t s' t' d : env_ok E -> env_ok E' -> with_room k s -> with_room k t -> repriced_lsps s t -> no_cheaper s t ->
  update_simulation E k s = (s', Ok tt) -> update_simulation E' k t = (t', Ok tt) -> In d (m_dms s) -> demand_unpriced s s' t d ->
  same_paths (d_path (h_dm s' d)) (d_path (h_dm t' d)) /\
  ((forall l, preferred s' d l -> sole_road s l) -> forall i x y, adds k s' d i x -> adds k t' d i y -> (x == y)%Q).
Proof.
  intros HE HE' Rs Rt W N U U' Hd Kd. split; [exact (up_paths E E' k HE HE' s t s' t' W Rs Rt U U' N d Hd Kd)|]. intros So i x y. exact (up_adds E E' k HE HE' s t s' t' W Rs Rt U U' N d Hd Kd i x y So).
Qed.
Print Assumptions C116_raised.
Theorem C116_traffic E E' k s t s' t' : env_ok E -> env_ok E' -> with_room k s -> with_room k t -> repriced_lsps s t -> no_cheaper s t ->
  update_simulation E k s = (s', Ok tt) -> update_simulation E' k t = (t', Ok tt) -> (forall d, In d (m_dms s) -> demand_unpriced s s' t d) -> (forall d l, In d (m_dms s) -> preferred s' d l -> sole_road s l) ->
  forall i, In i (m_ifs s) -> same_traffic (i_traffic (h_if s' i)) (i_traffic (h_if t' i)).
Proof. intros HE HE' Rs Rt W N U U' Kd So i Hi. exact (up_traffic E E' k HE HE' s t s' t' W Rs Rt U U' N i Hi Kd So). Qed.
Print Assumptions C116_traffic.
(** An LSP with the interface on every cheapest way gets cheaper with it and keeps its path if no other was as good. *)
Theorem C116_lowered_lsp E E' k s t s' t' l p c b i : env_ok E -> env_ok E' -> with_room k s -> with_room k t -> repriced_lsps s t -> only_cost_of i s t -> i_cost (h_if t i) <= i_cost (h_if s i) ->
  update_simulation E k s = (s', Ok tt) -> update_simulation E' k t = (t', Ok tt) -> In l (m_lsps s) -> l_path (h_ls s' l) = PRouted p c b -> on_every_road s l i ->
  exists q b', l_path (h_ls t' l) = PRouted q (c - (i_cost (h_if s i) - i_cost (h_if t i))) b' /\ best_road s l q /\ (sole_road s l -> q = p).
Proof. exact (low_lsp E E' k s t s' t' l p c b i). Qed.
Print Assumptions C116_lowered_lsp.
(** Assigning interface.cost on a simulated model gives such a model, and update_simulation succeeds on it. *)
Theorem C116_set_cost E k s s' i c : env_ok E -> with_room k s -> update_simulation E k s = (s', Ok tt) -> 1 <= c ->
  exists s1 t1, iface_set_cost i c s' = (s1, Ok tt) /\ update_simulation E k s1 = (t1, Ok tt) /\ with_room k s1 /\ repriced_lsps s s1 /\ i_cost (h_if s1 i) = c /\ only_cost_of i s s1.
Proof. intros HE R U Hc. exact (set_cost_lsps E k s s' HE R U i c Hc). Qed.
Print Assumptions C116_set_cost.
(** If it makes an interface dearer that no LSP and no demand uses, nothing changes. *)
Theorem C116_unused E k s s' i c : env_ok E -> with_room k s -> update_simulation E k s = (s', Ok tt) -> In i (m_ifs s) -> i_cost (h_if s i) <= c ->
  (forall l p x b, In l (m_lsps s) -> l_path (h_ls s' l) = PRouted p x b -> ~ In i p) ->
  (forall d ps p, In d (m_dms s) -> d_path (h_dm s' d) = DPaths ps -> In p ps -> crossings s' i p = 0%nat) ->
  exists s1 t1, iface_set_cost i c s' = (s1, Ok tt) /\ update_simulation E k s1 = (t1, Ok tt) /\
    (forall l, In l (m_lsps s) -> same_fate (l_path (h_ls s' l)) (l_path (h_ls t1 l)) /\ same_amount (l_res (h_ls s' l)) (l_res (h_ls t1 l)) /\
       (sole_road s l -> same_way (l_path (h_ls s' l)) (l_path (h_ls t1 l)))) /\
    (forall d, In d (m_dms s) -> same_paths (d_path (h_dm s' d)) (d_path (h_dm t1 d))) /\
    ((forall d l, In d (m_dms s) -> preferred s' d l -> sole_road s l) -> forall x, In x (m_ifs s) -> same_traffic (i_traffic (h_if s' x)) (i_traffic (h_if t1 x))).
Proof.
  intros HE R U Hi Hc Nl Nd. assert (H1 : 1 <= c) by (assert (X := proj1 (proj2 (rm_posed _ _ R)) i Hi); lia).
  destruct (C116_set_cost E k s s' i c HE R U H1) as (s1 & t1 & A & U1 & R1 & W & C1 & O). exists s1, t1. split; [exact A|]. split; [exact U1|].
  assert (N : no_cheaper s s1) by (intros j Hj; destruct (Nat.eq_dec j i) as [->|Ne]; [rewrite C1; exact Hc|rewrite (O j Hj Ne); lia]).
  assert (In_road : forall l p x b, In l (m_lsps s) -> l_path (h_ls s' l) = PRouted p x b -> forall j, In j p -> In j (m_ifs s)).
  { intros l p x b Hl P j Hj. destruct (placed E k HE s s' (rm_posed _ _ R) (rm_usual _ _ R) (rm_known _ _ R) U l (rm_ample _ _ R) Hl) as [(q & b1 & r & Q & B & _)|(Q & _)]; [|congruence].
    rewrite P in Q. injection Q as -> _ _. exact (proj1 (IgpProofs.route_all _ _ _ _ _ j (proj1 (proj1 B)) Hj)). }
  assert (Kd : forall d, In d (m_dms s) -> demand_unpriced s s' s1 d).
  { intros d Hd ps p j P Hp Hj. destruct (Nat.eq_dec j i) as [->|Ne]; [rewrite (Nd d ps p Hd P Hp) in Hj; inversion Hj|]. apply O; [|exact Ne]. exact (crossed_in E k HE s s' R U d ps p j Hd P Hp Hj). }
  split; [|split; [intros d Hd; exact (proj1 (C116_raised E E k s s1 s' t1 d HE HE R R1 W N U U1 Hd (Kd d Hd)))|intros So; exact (C116_traffic E E k s s1 s' t1 HE HE R R1 W N U U1 Kd So)]].
  intros l Hl. destruct (proj1 (C116_routed E E k s s1 s' t1 HE HE R R1 W U U1) l Hl) as (Ro & _ & Re). destruct (l_path (h_ls s' l)) as [| | |p x b] eqn:P.
  - exfalso. destruct (placed E k HE s s' (rm_posed _ _ R) (rm_usual _ _ R) (rm_known _ _ R) U l (rm_ample _ _ R) Hl) as [(q & b1 & r & Q & _)|(Q & _)]; congruence.
  - destruct (placed E k HE s1 t1 (rm_posed _ _ R1) (rm_usual _ _ R1) (rm_known _ _ R1) U1 l (rm_ample _ _ R1)) as [(q & b1 & r & Q & _)|(Q & _)]; [now rewrite (rq_lsps _ _ W)| |].
    + destruct (proj1 Ro (ex_intro _ _ (ex_intro _ _ (ex_intro _ _ Q)))) as (? & ? & ? & Z). congruence.
    + rewrite Q. split; [exact I|]. split; [exact Re|]. intros _. exact I.
  - exfalso. destruct (placed E k HE s s' (rm_posed _ _ R) (rm_usual _ _ R) (rm_known _ _ R) U l (rm_ample _ _ R) Hl) as [(q & b1 & r & Q & _)|(Q & _)]; congruence.
  - destruct (C116_raised_lsp E E k s s1 s' t1 l p x b HE HE R R1 W N U U1 Hl P) as (q & c' & b' & Q & _ & K).
    destruct K as (-> & _ & So); [intros j Hj; apply O; [exact (In_road l p x b Hl P j Hj)|intros ->; exact (Nl l p x b Hl P Hj)]|]. rewrite Q. split; [reflexivity|]. split; [exact Re|]. intros S. split; [now rewrite (So S)|reflexivity].
Qed.
Print Assumptions C116_unused.

(** A=B and B=C cost 2 and 3, A=C costs 9; an LSP from A to C, and demands from A to C, from B to A and to the isolated D *)
Definition pnet (cac : Z) : st := net [nd "A"; nd "B"; nd "C"; nd "D"]
  [itf "ab" 2 100 0 1 1; itf "ba" 2 100 1 0 1; itf "bc" 3 100 1 2 2; itf "cb" 3 100 2 1 2; itf "ac" cac 100 0 2 3; itf "ca" cac 100 2 0 3] [dmd 0 2 30 "d0"; dmd 1 0 6 "d1"; dmd 0 3 3 "d2"] [lsp_ 0 2 "l0"] [].
Definition p1 : st := pnet 9.
Definition p2 : st := fst (update_simulation E0 Flex p1).
Lemma p1_run : update_simulation E0 Flex p1 = (p2, Ok tt). Proof. unfold p2. apply run_split. vm_compute. reflexivity. Qed.
Lemma p1_room : with_room Flex p1. Proof. room_tac. Qed.
Lemma p1_sole : forall l, In l (m_lsps p1) -> sole_road p1 l.
Proof.
  assert (S : sole_roads p1) by (apply sole_by; [once_tac|intros i H; vm_compute in H; in_tac; vm_compute; discriminate|vm_compute; reflexivity]).
  intros l Hl p q. exact (S l p q Hl).
Qed.
Lemma p2_lsp : exists b, l_path (h_ls p2 0) = PRouted [0; 2]%nat 5 b. Proof. eexists. vm_compute. reflexivity. Qed.
Lemma p2_dms : d_path (h_dm p2 0) = DPaths [[ILsp 0]]%nat /\ d_path (h_dm p2 1) = DPaths [[IIf 1]]%nat /\ d_path (h_dm p2 2) = DUnrouted.
Proof. split; [|split]; vm_compute; reflexivity. Qed.
Example C116_example : env_ok E0 /\ with_room Flex p1 /\ update_simulation E0 Flex p1 = (p2, Ok tt) /\ In 4%nat (m_ifs p1) /\ i_cost (h_if p1 4) <= 50 /\
  (forall l p x b, In l (m_lsps p1) -> l_path (h_ls p2 l) = PRouted p x b -> ~ In 4%nat p) /\
  (forall d ps p, In d (m_dms p1) -> d_path (h_dm p2 d) = DPaths ps -> In p ps -> crossings p2 4 p = 0%nat) /\
  (forall l, In l (m_lsps p1) -> sole_road p1 l) /\
  (exists b, l_path (h_ls p2 0) = PRouted [0; 2]%nat 5 b) /\ d_path (h_dm p2 0) = DPaths [[ILsp 0]]%nat /\ d_path (h_dm p2 1) = DPaths [[IIf 1]]%nat.
Proof.
  split; [exact E0_ok|]. split; [exact p1_room|]. split; [exact p1_run|]. split; [vm_compute; tauto|]. split; [vm_compute; discriminate|]. destruct p2_lsp as [b P]. destruct p2_dms as (D0 & D1 & D2). split; [|split; [|split; [exact p1_sole|split; [eauto|split; [exact D0|exact D1]]]]].
  - intros l p x b' Hl Q. change (m_lsps p1) with [0%nat] in Hl. destruct Hl as [<-|[]]. rewrite P in Q. injection Q as <- _ _. intros [H|[H|[]]]; discriminate H.
  - intros d ps p Hd Q Hp. change (m_dms p1) with [0; 1; 2]%nat in Hd. destruct Hd as [<-|[<-|[<-|[]]]].
    + rewrite D0 in Q. injection Q as <-. destruct Hp as [<-|[]]. unfold crossings, item_crossings. cbn [map fold_right]. rewrite P. reflexivity.
    + rewrite D1 in Q. injection Q as <-. destruct Hp as [<-|[]]. reflexivity.
    + rewrite D2 in Q. discriminate Q.
Qed.
(** Interface 2, from B to C, is on every cheapest way of the LSP: the one way without it costs 9, and [0; 2] costs 5. *)
Definition p3 : st := upd_if 2 (if_cost 1) p1.
Definition p4 : st := fst (update_simulation E0 Flex p3).
Lemma p3_run : update_simulation E0 Flex p3 = (p4, Ok tt). Proof. unfold p4. apply run_split. vm_compute. reflexivity. Qed.
Lemma p3_room : with_room Flex p3. Proof. apply cost_room; [lia|exact p1_room]. Qed.
Example C116_lowered_example : iface_set_cost 2 1 p1 = (p3, Ok tt) /\ with_room Flex p3 /\ update_simulation E0 Flex p3 = (p4, Ok tt) /\ only_cost_of 2 p1 p3 /\ on_every_road p1 0 2 /\
  (exists b, l_path (h_ls p4 0) = PRouted [0; 2]%nat 3 b).
Proof.
  split; [reflexivity|]. split; [exact p3_room|]. split; [exact p3_run|]. split; [intros j _ Ne; unfold p3; rewrite WhatCost.sc_cost; destruct (Nat.eqb_spec j 2); [congruence|reflexivity]|]. split; [|eexists; vm_compute; reflexivity].
  intros p [Rp Bp]. destruct (in_dec Nat.eq_dec 2%nat p) as [|N]; [assumption|exfalso].
  assert (Rq : route p1 (rsvp_up p1) "A" [0; 2]%nat "C").
  { assert (X : route p1 (rsvp_up p1) (loc p1 2%nat) [2%nat] "C") by (constructor; [vm_compute; tauto|split; reflexivity|constructor]).
    assert (Y : route p1 (rsvp_up p1) (loc p1 0%nat) [0; 2]%nat "C") by (constructor; [vm_compute; tauto|split; reflexivity|exact X]). exact Y. }
  assert (Z := Bp _ Rq). change (route_cost p1 [0; 2]%nat) with 5 in Z.
  assert (Y : forall u q v, route p1 (rsvp_up p1) u q v -> ~ In 2%nat q -> v = "C" -> u <> "C" -> 9 <= route_cost p1 q).
  { clear. assert (Pos : forall q, 0 <= route_cost p1 q \/ exists i, In i q /\ ~ In i (m_ifs p1)).
    { induction q as [|i q IH]; [left; simpl; lia|]. destruct IH as [IH|(j & Hj & Nj)]; [|right; exists j; split; [now right|exact Nj]]. destruct (in_dec Nat.eq_dec i (m_ifs p1)) as [H|H]; [left|right; exists i; split; [now left|exact H]].
      cbn [route_cost]. change (m_ifs p1) with [0; 1; 2; 3; 4; 5]%nat in H. cbn [In] in H. assert (1 <= i_cost (h_if p1 i)) by (in_tac; vm_compute; discriminate). lia. }
    induction 1 as [|i q v Hi Ho Rt IH]; intros N Ev Eu; [congruence|]. assert (Nq : ~ In 2%nat q) by (intros H; apply N; now right). assert (Ni : i <> 2%nat) by (intros ->; apply N; now left).
    cbn [route_cost]. destruct (Pos q) as [Pq|(j & Hj & Nj)]; [|destruct Nj; exact (proj1 (IgpProofs.route_all _ _ _ _ _ j Rt Hj))].
    change (m_ifs p1) with [0; 1; 2; 3; 4; 5]%nat in Hi. cbn [In] in Hi. destruct Hi as [<-|[<-|[<-|[<-|[<-|[<-|[]]]]]]].
    - assert (A := IH Nq Ev ltac:(vm_compute; discriminate)). change (i_cost (h_if p1 0)) with 2. lia.
    - assert (A := IH Nq Ev ltac:(vm_compute; discriminate)). change (i_cost (h_if p1 1)) with 2. lia.
    - congruence.
    - destruct Eu. reflexivity.
    - change (i_cost (h_if p1 4)) with 9. lia.
    - destruct Eu. reflexivity. }
  assert (Q := Y _ _ _ Rp N eq_refl ltac:(vm_compute; discriminate)). lia.
Qed.

(** Without room for all LSPs, making one interface dearer can cost an LSP that does not use it its path: in [t1n]
    the LSP of 30 units from A moves from A=D to C=D, where the LSP of 60 units from B no longer fits. *)
Definition t1n : st := net [nd "A"; nd "B"; nd "C"; nd "D"]
  [itf "ad" 10 30 0 3 1; itf "da" 10 30 3 0 1; itf "bc" 1 60 1 2 2; itf "cb" 1 60 2 1 2; itf "cd" 1 60 2 3 3; itf "dc" 1 60 3 2 3; itf "ac" 20 30 0 2 4; itf "ca" 20 30 2 0 4] [dmd 0 3 30 "d0"; dmd 1 3 60 "d1"] [lsp_ 0 3 "l0"; lsp_ 1 3 "l1"] [].
Definition t2n : st := fst (update_simulation E0 Flex t1n).
Definition t3n : st := fst (iface_set_cost 0 30 t1n).
Definition t4n : st := fst (update_simulation E0 Flex t3n).
Lemma t1n_run : update_simulation E0 Flex t1n = (t2n, Ok tt). Proof. unfold t2n. apply run_split. vm_compute. reflexivity. Qed.
Lemma t1n_set : iface_set_cost 0 30 t1n = (t3n, Ok tt). Proof. reflexivity. Qed.
Lemma t3n_run : update_simulation E0 Flex t3n = (t4n, Ok tt). Proof. unfold t4n. apply run_split. vm_compute. reflexivity. Qed.
Theorem C116_room_refuted :
  ~ (forall E k s i c t s' t' l p x y, env_ok E -> well_posed s -> ends_known s -> cids_set k s -> lsps_usual k s -> ends_agree k s -> shortcuts_off s ->
       In i (m_ifs s) -> i_cost (h_if s i) <= c -> iface_set_cost i c s = (t, Ok tt) -> update_simulation E k s = (s', Ok tt) -> update_simulation E k t = (t', Ok tt) -> In l (m_lsps s) ->
       l_path (h_ls s' l) = PRouted p x y -> ~ In i p -> l_path (h_ls t' l) <> PUnrouted).
Proof.
  intros H. assert (X : exists y, l_path (h_ls t2n 1) = PRouted [2; 4]%nat 2 y) by (clear; eexists; vm_compute; reflexivity). destruct X as (y & X).
  assert (P : well_posed t1n) by (clear; posed_vm). assert (K : ends_known t1n) by (clear; known_tac). assert (C : cids_set Flex t1n) by (clear; cids_tac).
  assert (U : lsps_usual Flex t1n) by (clear; usual_vm). assert (EA : ends_agree Flex t1n) by (clear; agree_tac).
  assert (SO : shortcuts_off t1n) by (clear; intros n H; vm_compute in H; in_tac; reflexivity). assert (Hl : In 1%nat (m_lsps t1n)) by (clear; vm_compute; auto).
  assert (Hi : In 0%nat (m_ifs t1n)) by (clear; vm_compute; auto). assert (Hc : i_cost (h_if t1n 0) <= 30) by (clear; vm_compute; discriminate). assert (N : ~ In 0%nat [2; 4]%nat) by (clear; intros [H|[H|[]]]; discriminate H).
  apply (H E0 Flex t1n _ _ _ _ _ 1%nat _ 2 y E0_ok P K C U EA SO Hi Hc t1n_set t1n_run t3n_run Hl X N). clear. vm_compute. reflexivity.
Qed.
Print Assumptions C116_room_refuted.
