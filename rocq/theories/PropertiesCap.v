(** PropertiesCap.v - changes of interface capacities in models with LSPs (C117). *)
From Verif Require Import Base Graph Objects Sim Api Build Spec SpecHist SpecCkt SpecSim SpecMetric SpecFlow SpecOrder SpecFail SpecSame SpecSig SpecWhatIf SpecTotal SpecMore SpecCost SpecLspCost Nets GraphProofs RoundProofs
  PropertiesValidate PropertiesRoute PropertiesTraffic PropertiesFail PropertiesOrder OrderProofs WhatIf PropertiesWhatIf LspTotal SigTotal LspExact PropertiesTotal PropertiesSignal MoreLsps PropertiesMore PropertiesSame CostLsps PropertiesLspCost SpecCap CapLsps.
From Coq Require Import Lqa.

(** ** C117 Changes of interface capacities, with LSPs *)
(** With room for all LSPs before and after, LSPs keep their bandwidth and cost, and their path if no other was as good. *)
Theorem C117_lsps E E' k s t s' t' l : env_ok E -> env_ok E' -> with_room k s -> with_room k t -> recapped s t ->
  update_simulation E k s = (s', Ok tt) -> update_simulation E' k t = (t', Ok tt) -> In l (m_lsps s) ->
  same_fate (l_path (h_ls s' l)) (l_path (h_ls t' l)) /\ same_amount (l_setup (h_ls s' l)) (l_setup (h_ls t' l)) /\ same_amount (l_res (h_ls s' l)) (l_res (h_ls t' l)) /\
  (sole_road s l -> same_way (l_path (h_ls s' l)) (l_path (h_ls t' l))).
Proof.
  intros HE HE' Rs Rt W0 U U' Hl. assert (W := recapped_repriced _ _ W0). assert (N := recapped_costs _ _ W0). destruct (proj1 (C116_routed E E' k s t s' t' HE HE' Rs Rt W U U') l Hl) as (Ro & Se & Re).
  destruct (placed E k HE s s' (rm_posed _ _ Rs) (rm_usual _ _ Rs) (rm_known _ _ Rs) U l (rm_ample _ _ Rs) Hl) as [(p & b & r & P & B & _)|(P & _)].
  - destruct (C116_raised_lsp E E' k s t s' t' l p _ b HE HE' Rs Rt W N U U' Hl P) as (q & c' & b' & Q & _ & K).
    destruct K as (-> & _ & So); [intros i Hi; exact (proj1 (proj2 (proj2 (ra_if _ _ W0 i (proj1 (IgpProofs.route_all _ _ _ _ _ i (proj1 (proj1 B)) Hi))))))|]. rewrite P, Q. split; [reflexivity|]. split; [exact Se|]. split; [exact Re|]. intros S. split; [now rewrite (So S)|reflexivity].
  - destruct (placed E' k HE' t t' (rm_posed _ _ Rt) (rm_usual _ _ Rt) (rm_known _ _ Rt) U' l (rm_ample _ _ Rt)) as [(q & b1 & r & Q & _)|(Q & _)]; [now rewrite (ra_lsps _ _ W0)| |].
    + destruct (proj1 Ro (ex_intro _ _ (ex_intro _ _ (ex_intro _ _ Q)))) as (? & ? & ? & Z). congruence.
    + rewrite P, Q. split; [exact I|]. split; [exact Se|]. split; [exact Re|]. intros _. exact I.
Qed.
Print Assumptions C117_lsps.
Lemma unpriced E k s t s' : env_ok E -> with_room k s -> recapped s t -> update_simulation E k s = (s', Ok tt) -> forall d, In d (m_dms s) -> demand_unpriced s s' t d.
Proof. intros HE R W U d Hd ps p i P Hp Hi. exact (proj1 (proj2 (proj2 (ra_if _ _ W i (crossed_in E k HE s s' R U d ps p i Hd P Hp Hi))))). Qed.
(** Demands keep their paths. *)
Theorem C117_paths E E' k s t s' t' d : env_ok E -> env_ok E' -> with_room k s -> with_room k t -> recapped s t ->
  update_simulation E k s = (s', Ok tt) -> update_simulation E' k t = (t', Ok tt) -> In d (m_dms s) -> same_paths (d_path (h_dm s' d)) (d_path (h_dm t' d)).
Proof.
  intros HE HE' Rs Rt W U U' Hd. exact (proj1 (C116_raised E E' k s t s' t' d HE HE' Rs Rt (recapped_repriced _ _ W) (recapped_costs _ _ W) U U' Hd (unpriced E k s t s' HE Rs W U d Hd))).
Qed.
Print Assumptions C117_paths.
(** If the LSPs that demands ride have no second best way, traffic stays and utilization is the same traffic over the new capacity. *)
Theorem C117_traffic E E' k s t s' t' : env_ok E -> env_ok E' -> with_room k s -> with_room k t -> recapped s t ->
  update_simulation E k s = (s', Ok tt) -> update_simulation E' k t = (t', Ok tt) -> (forall d l, In d (m_dms s) -> preferred s' d l -> sole_road s l) ->
  forall i, In i (m_ifs s) -> same_traffic (i_traffic (h_if s' i)) (i_traffic (h_if t' i)) /\
    match i_traffic (h_if s' i) with
    | TDown => utilization t' i = None
    | TNum x => exists q, utilization t' i = Some q /\ rounds 100 (x / i_cap (h_if t i) * 100) q
    end.
Proof.
  intros HE HE' Rs Rt W U U' So i Hi. assert (T := C116_traffic E E' k s t s' t' HE HE' Rs Rt (recapped_repriced _ _ W) (recapped_costs _ _ W) U U' (unpriced E k s t s' HE Rs W U) So i Hi). split; [exact T|].
  assert (V := C55_utilization t' i). rewrite (again_cap E' k t t' U') in V. destruct (i_traffic (h_if s' i)) as [|x], (i_traffic (h_if t' i)) as [|y]; try contradiction; [exact V|].
  destruct V as (q & Q & B). exists q. split; [exact Q|]. simpl in T. refine (rounds_compat 100 _ _ q q _ (Qeq_refl q) B). now rewrite T.
Qed.
Print Assumptions C117_traffic.
(** Assigning interface.capacity at both ends of a link of a simulated model gives such a model, and update_simulation succeeds on it. *)
Theorem C117_set_capacity E k s s' i j c : env_ok E -> with_room k s -> update_simulation E k s = (s', Ok tt) -> two_ends k s i j -> fits_all s i c -> fits_all s j c ->
  exists s1 s2 t, iface_set_capacity i c s' = (s1, Ok tt) /\ iface_set_capacity j c s1 = (s2, Ok tt) /\ update_simulation E k s2 = (t, Ok tt) /\ with_room k s2 /\ recapped s s2 /\
    (forall x, i_cap (h_if s2 x) = if (Nat.eqb x i || Nat.eqb x j)%bool then c else i_cap (h_if s x)).
Proof. intros HE R U. exact (set_caps E k s s' HE R U i j c). Qed.
Print Assumptions C117_set_capacity.
(** Assigning another capacity at one end only makes update_simulation raise. *)
Theorem C117_one_end E k s s' i j c : env_ok E -> with_room k s -> update_simulation E k s = (s', Ok tt) ->
  In i (m_ifs s) -> In j (m_ifs s) -> i <> j -> is_reverse k s i j -> i_rsvp (h_if s i) = true -> fits_all s i c -> ~ (c == i_cap (h_if s j))%Q ->
  exists s1 t e, iface_set_capacity i c s' = (s1, Ok tt) /\ update_simulation E k s1 = (t, Err e).
Proof.
  intros HE R U Hi Hj Ne V Op F N. destruct (set_one_cap E k s s' HE R U i j c Hi Hj Ne V Op F N) as (s1 & A & B). destruct (update_simulation E k s1) as [t [[]|e]] eqn:X; [destruct (B t eq_refl)|]. eauto.
Qed.
Print Assumptions C117_one_end.

(** The network of C116: the link A=B of capacity 100 gets 60, which still has room for the LSP of 30. *)
Example C117_example : env_ok E0 /\ with_room Flex p1 /\ update_simulation E0 Flex p1 = (p2, Ok tt) /\ two_ends Flex p1 0 1 /\ fits_all p1 0 60 /\ fits_all p1 1 60 /\ ~ (60 == i_cap (h_if p1 1))%Q /\
  i_rsvp (h_if p1 0) = true /\ (forall l, In l (m_lsps p1) -> sole_road p1 l) /\ (exists b, l_path (h_ls p2 0) = PRouted [0; 2]%nat 5 b).
Proof.
  split; [exact E0_ok|]. split; [exact p1_room|]. split; [exact p1_run|]. split; [|split; [|split; [|split; [|split; [|split; [exact p1_sole|exact p2_lsp]]]]]].
  - split; [vm_compute; auto|]. split; [vm_compute; auto|]. split; [split; [reflexivity|split; [reflexivity|right; reflexivity]]|].
    intros x Hx. change (m_ifs p1) with [0; 1; 2; 3; 4; 5]%nat in Hx. unfold is_reverse. cbn [In] in Hx. in_tac; split; intros (A & B & _); try reflexivity; vm_compute in A, B; discriminate.
  - split; [exists 600; vm_compute; reflexivity|]. split; [vm_compute; reflexivity|vm_compute; discriminate].
  - split; [exists 600; vm_compute; reflexivity|]. split; [vm_compute; reflexivity|vm_compute; discriminate].
  - vm_compute. discriminate.
  - reflexivity.
Qed.

(** Without room for all LSPs, more capacity can cost an LSP its path: the LSP of 30 units from A moves from A=D to the
    cheaper way over C once A=C has room for it, and the LSP of 60 units from B no longer fits on C=D. *)
Definition y1n : st := net [nd "A"; nd "B"; nd "C"; nd "D"]
  [itf "ad" 10 30 0 3 1; itf "da" 10 30 3 0 1; itf "bc" 1 60 1 2 2; itf "cb" 1 60 2 1 2; itf "cd" 1 60 2 3 3; itf "dc" 1 60 3 2 3; itf "ac" 1 10 0 2 4; itf "ca" 1 10 2 0 4] [dmd 0 3 30 "d0"; dmd 1 3 60 "d1"] [lsp_ 0 3 "l0"; lsp_ 1 3 "l1"] [].
Definition y2n : st := fst (update_simulation E0 Flex y1n).
Definition y3n : st := fst (iface_set_capacity 6 30 y1n).
Definition y4n : st := fst (iface_set_capacity 7 30 y3n).
Definition y5n : st := fst (update_simulation E0 Flex y4n).
Lemma y1n_run : update_simulation E0 Flex y1n = (y2n, Ok tt). Proof. unfold y2n. apply run_split. vm_compute. reflexivity. Qed.
Lemma y1n_set : iface_set_capacity 6 30 y1n = (y3n, Ok tt). Proof. reflexivity. Qed.
Lemma y3n_set : iface_set_capacity 7 30 y3n = (y4n, Ok tt). Proof. reflexivity. Qed.
Lemma y4n_run : update_simulation E0 Flex y4n = (y5n, Ok tt). Proof. unfold y5n. apply run_split. vm_compute. reflexivity. Qed.
Lemma y1n_ends : two_ends Flex y1n 6 7.
Proof.
  split; [vm_compute; tauto|]. split; [vm_compute; tauto|]. split; [split; [reflexivity|split; [reflexivity|right; reflexivity]]|].
  intros x Hx. change (m_ifs y1n) with [0; 1; 2; 3; 4; 5; 6; 7]%nat in Hx. unfold is_reverse. cbn [In] in Hx. in_tac; split; intros (A & B & _); try reflexivity; vm_compute in A, B; discriminate.
Qed.
Theorem C117_room_refuted :
  ~ (forall E k s i j c s1 t s' t' l p x y, env_ok E -> well_posed s -> ends_known s -> cids_set k s -> lsps_usual k s -> ends_agree k s -> shortcuts_off s ->
       two_ends k s i j -> (i_cap (h_if s i) <= c)%Q -> (i_cap (h_if s j) <= c)%Q -> iface_set_capacity i c s = (s1, Ok tt) -> iface_set_capacity j c s1 = (t, Ok tt) ->
       update_simulation E k s = (s', Ok tt) -> update_simulation E k t = (t', Ok tt) -> In l (m_lsps s) ->
       l_path (h_ls s' l) = PRouted p x y -> l_path (h_ls t' l) <> PUnrouted).
Proof.
  intros H. assert (X : exists y, l_path (h_ls y2n 1) = PRouted [2; 4]%nat 2 y) by (clear; eexists; vm_compute; reflexivity). destruct X as (y & X).
  assert (P : well_posed y1n) by (clear; posed_vm). assert (K : ends_known y1n) by (clear; known_tac). assert (C : cids_set Flex y1n) by (clear; cids_tac).
  assert (U : lsps_usual Flex y1n) by (clear; usual_vm). assert (EA : ends_agree Flex y1n) by (clear; agree_tac).
  assert (SO : shortcuts_off y1n) by (clear; intros n H; vm_compute in H; in_tac; reflexivity). assert (Hl : In 1%nat (m_lsps y1n)) by (clear; vm_compute; auto).
  assert (C1 : (i_cap (h_if y1n 6) <= 30)%Q) by (clear; vm_compute; discriminate). assert (C2 : (i_cap (h_if y1n 7) <= 30)%Q) by (clear; vm_compute; discriminate).
  apply (H E0 Flex y1n _ _ _ _ _ _ _ 1%nat _ 2 y E0_ok P K C U EA SO y1n_ends C1 C2 y1n_set y3n_set y1n_run y4n_run Hl X). clear. vm_compute. reflexivity.
Qed.
Print Assumptions C117_room_refuted.
