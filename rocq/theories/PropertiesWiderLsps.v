(** PropertiesWiderLsps.v - links added to a model with LSPs (C115). *)
From Verif Require Import Base Graph Objects Sim Api Build Spec SpecHist SpecCkt SpecSim SpecMetric SpecFlow SpecOrder SpecFail SpecSame SpecSig SpecWhatIf SpecTotal SpecMore SpecCost SpecExn SpecWider Nets GraphProofs RoundProofs
  PropertiesValidate PropertiesRoute PropertiesFail PropertiesOrder OrderProofs RepairProofs WhatIf PropertiesWhatIf LspTotal SigTotal LspSucceeds LspExact PropertiesTotal PropertiesSignal MoreLsps PropertiesMore PropertiesSame WiderLsps LaidProofs.
From Coq Require Import Lqa.

(** ** C115 Added links, with LSPs *)
(** A routed LSP stays routed, gets no dearer and reserves the same. *)
Theorem C115_lsps E E' k s t s' t' l : env_ok E -> env_ok E' -> with_room k s -> with_room k t -> wider_lsps s t ->
  update_simulation E k s = (s', Ok tt) -> update_simulation E' k t = (t', Ok tt) -> In l (m_lsps s) ->
  same_amount (l_setup (h_ls s' l)) (l_setup (h_ls t' l)) /\
  forall p c b, l_path (h_ls s' l) = PRouted p c b -> exists q c' b', l_path (h_ls t' l) = PRouted q c' b' /\ c' <= c /\ same_amount (l_res (h_ls s' l)) (l_res (h_ls t' l)).
Proof.
  intros HE HE' Rs Rt W U U' Hl. split; [exact (up_setup E' E k HE' HE s t s' t' W Rt Rs U' U l Hl)|]. intros p c b P.
  destruct (up_routed E' E k HE' HE s t s' t' W Rt Rs U' U l Hl (ex_intro _ p (ex_intro _ c (ex_intro _ b P)))) as (q & c' & b' & Q). exists q, c', b'. split; [exact Q|].
  exact (up_cost E' E k HE' HE s t s' t' W Rt Rs U' U l q c' b' p c b Hl Q P).
Qed.
Print Assumptions C115_lsps.
(** An LSP whose new path uses nothing new had the same cost and bandwidth before; its path then was the
    same if no other was as good. *)
Theorem C115_kept_lsp E E' k s t s' t' l p c b : env_ok E -> env_ok E' -> with_room k s -> with_room k t -> wider_lsps s t ->
  update_simulation E k s = (s', Ok tt) -> update_simulation E' k t = (t', Ok tt) -> In l (m_lsps s) ->
  l_path (h_ls t' l) = PRouted p c b -> (forall i, In i p -> ~ is_new s t i) ->
  exists q b', l_path (h_ls s' l) = PRouted q c b' /\ same_amount (l_res (h_ls s' l)) (l_res (h_ls t' l)) /\ best_road s l p /\ (sole_road s l -> q = p).
Proof.
  intros HE HE' Rs Rt W U U' Hl P N. apply (up_kept_lsp E' E k HE' HE s t s' t' W Rt Rs U' U l p c b Hl P). intros p' c' b' i P' Hi. rewrite P in P'. injection P' as <- _ _.
  destruct (in_dec Nat.eq_dec i (m_ifs s)) as [|No]; [assumption|exfalso]. apply (N i Hi). split; [|exact No].
  destruct (placed E' k HE' t t' (rm_posed _ _ Rt) (rm_usual _ _ Rt) (rm_known _ _ Rt) U' l (rm_ample _ _ Rt)) as [(q & b1 & r & Q & B & _)|(Q & _)]; [now rewrite (wl_lsps _ _ W)| |congruence].
  rewrite P in Q. injection Q as -> _ _. exact (proj1 (IgpProofs.route_all _ _ _ _ _ i (proj1 (proj1 B)) Hi)).
Qed.
Print Assumptions C115_kept_lsp.
(** A routed demand stays routed, and no traffic is lost. *)
Theorem C115_routed E E' k s t s' t' d : env_ok E -> env_ok E' -> with_room k s -> with_room k t -> wider_lsps s t ->
  update_simulation E k s = (s', Ok tt) -> update_simulation E' k t = (t', Ok tt) -> In d (m_dms s) -> d_path (h_dm s' d) <> DUnrouted -> d_path (h_dm t' d) <> DUnrouted.
Proof. intros HE HE' Rs Rt W U U' Hd X Y. apply X. exact (up_unrouted E' E k HE' HE s t s' t' W Rt Rs U' U d Hd Y). Qed.
Print Assumptions C115_routed.
Theorem C115_delivered E E' k s t s' t' : env_ok E -> env_ok E' -> with_room k s -> with_room k t -> wider_lsps s t ->
  update_simulation E k s = (s', Ok tt) -> update_simulation E' k t = (t', Ok tt) -> (routed_total s' <= routed_total t')%Q.
Proof. intros HE HE' Rs Rt W U U'. exact (up_delivered E' E k HE' HE s t s' t' W Rt Rs U' U). Qed.
Print Assumptions C115_delivered.
(** A demand whose paths and LSPs use nothing new had the same paths before. *)
Theorem C115_kept E E' k s t s' t' d : env_ok E -> env_ok E' -> with_room k s -> with_room k t -> wider_lsps s t ->
  update_simulation E k s = (s', Ok tt) -> update_simulation E' k t = (t', Ok tt) -> In d (m_dms s) -> demand_keeps s t' d ->
  same_paths (d_path (h_dm s' d)) (d_path (h_dm t' d)) /\
  ((forall l, preferred s' d l -> sole_road s l) -> forall i x y, adds k s' d i x -> adds k t' d i y -> (x == y)%Q).
Proof.
  intros HE HE' Rs Rt W U U' Hd Kd. split; [exact (up_paths E' E k HE' HE s t s' t' W Rt Rs U' U d Hd Kd)|]. intros So i x y. exact (up_adds E' E k HE' HE s t s' t' W Rt Rs U' U d Hd Kd i x y So).
Qed.
Print Assumptions C115_kept.
(** An LSP over an added link takes it once, and goes cheapest ways of the old model before and after it. *)
Theorem C115_through E E' k s t s' t' i j u v l x y c b : env_ok E -> env_ok E' -> with_room k s -> with_room k t -> wider_lsps s t -> one_link s t i j u v ->
  update_simulation E k s = (s', Ok tt) -> update_simulation E' k t = (t', Ok tt) -> In l (m_lsps s) -> l_path (h_ls t' l) = PRouted (x ++ i :: y) c b ->
  best_rsvp_way s (lsp_from s l) x u /\ best_rsvp_way s v y (lsp_to s l) /\ c = route_cost s x + i_cost (h_if t i) + route_cost s y.
Proof.
  intros HE HE' Rs Rt W OL U U' Hl P. assert (Hl' : In l (m_lsps t)) by now rewrite (wl_lsps _ _ W).
  destruct (placed E' k HE' t t' (rm_posed _ _ Rt) (rm_usual _ _ Rt) (rm_known _ _ Rt) U' l (rm_ample _ _ Rt) Hl') as [(q & b1 & r & Q & [B _] & _)|(Q & _)]; [|congruence].
  rewrite P in Q. injection Q as <- -> _. rewrite (wi_from _ _ W l Hl), (wi_to _ _ W l Hl) in B. exact (rl_through s t W (proj1 (proj2 (rm_posed _ _ Rt))) i j u v _ x y _ OL B).
Qed.
Print Assumptions C115_through.
(** Conversely, a way over an added link that is up routes the LSP, at no greater cost. *)
Theorem C115_least E E' k s t s' t' i j u v l x y : env_ok E -> env_ok E' -> with_room k s -> with_room k t -> wider_lsps s t -> one_link s t i j u v ->
  update_simulation E k s = (s', Ok tt) -> update_simulation E' k t = (t', Ok tt) -> In l (m_lsps s) -> rsvp_up t i ->
  rsvp_way s (lsp_from s l) x u -> rsvp_way s v y (lsp_to s l) ->
  exists p c b, l_path (h_ls t' l) = PRouted p c b /\ c <= route_cost s x + i_cost (h_if t i) + route_cost s y.
Proof.
  intros HE HE' Rs Rt W OL U U' Hl Ri Wx Wy. assert (Hl' : In l (m_lsps t)) by now rewrite (wl_lsps _ _ W). assert (Hi : In i (m_ifs t)) by (apply (proj2 (ol_new _ _ _ _ _ _ OL i)); now left).
  destruct (rl_fore s t W _ _ _ Wx) as [Tx Cx], (rl_fore s t W _ _ _ Wy) as [Ty Cy]. assert (J := rl_join s t i j u v _ x y _ OL Tx Ty Hi Ri).
  destruct (placed E' k HE' t t' (rm_posed _ _ Rt) (rm_usual _ _ Rt) (rm_known _ _ Rt) U' l (rm_ample _ _ Rt) Hl') as [(q & b1 & r & Q & [B _] & _)|(_ & _ & N)].
  - exists q, (route_cost t q), b1. split; [exact Q|]. rewrite (wi_from _ _ W l Hl), (wi_to _ _ W l Hl) in B. assert (Z := proj2 B _ J). rewrite (rl_mid t) in Z. lia.
  - exfalso. apply (N (x ++ i :: y)). unfold road. rewrite (wi_from _ _ W l Hl), (wi_to _ _ W l Hl). exact J.
Qed.
Print Assumptions C115_least.
(** A link that in both directions costs more than some way there is changes nothing and carries nothing. *)
Theorem C115_dear E E' k s t s' t' i j u v : env_ok E -> env_ok E' -> with_room k s -> with_room k t -> wider_lsps s t -> one_link s t i j u v ->
  update_simulation E k s = (s', Ok tt) -> update_simulation E' k t = (t', Ok tt) ->
  (exists r, rsvp_way s u r v /\ route_cost s r < i_cost (h_if t i)) -> (exists r, rsvp_way s v r u /\ route_cost s r < i_cost (h_if t j)) ->
  (forall l, In l (m_lsps s) -> same_fate (l_path (h_ls s' l)) (l_path (h_ls t' l)) /\ same_amount (l_res (h_ls s' l)) (l_res (h_ls t' l)) /\
     (sole_road s l -> same_way (l_path (h_ls s' l)) (l_path (h_ls t' l)))) /\
  (forall d, In d (m_dms s) -> same_paths (d_path (h_dm s' d)) (d_path (h_dm t' d))) /\
  ((forall d l, In d (m_dms s) -> preferred s' d l -> sole_road s l) -> forall x, In x (m_ifs s) -> same_traffic (i_traffic (h_if s' x)) (i_traffic (h_if t' x))) /\
  (forall x, x = i \/ x = j -> if i_failed (h_if t x) then i_traffic (h_if t' x) = TDown else exists q, i_traffic (h_if t' x) = TNum q /\ (q == 0)%Q).
Proof.
  intros HE HE' Rs Rt W OL U U' C1 C2. assert (Old := rl_unused s t W i j u v OL C1 C2).
  assert (Kd : forall d, In d (m_dms s) -> demand_keeps s t' d) by exact (up_old_demand E' E k HE' s t s' t' W Rt U' U Old).
  split; [exact (up_same_fate E' E k HE' HE s t s' t' W Rt Rs U' U Old)|]. split; [intros d Hd; exact (up_paths E' E k HE' HE s t s' t' W Rt Rs U' U d Hd (Kd d Hd))|].
  split; [intros So x Hx; exact (up_traffic E' E k HE' HE s t s' t' W Rt Rs U' U x Hx Kd So)|]. intros x Hx. apply (up_new_zero E' k HE' s t t' W Rt U' x); [now apply (ol_new _ _ _ _ _ _ OL)|exact Kd].
Qed.
Print Assumptions C115_dear.
(** add_circuit with a capacity that has room for all LSPs makes such a model, and update_simulation succeeds
    on it if it did before. *)
Theorem C115_add_circuit E k a b na nb ca cb cap c s t : env_ok E -> allocated s -> with_room k s -> In a (m_nds s) -> In b (m_nds s) -> fits k s (nd_name s a) (nd_name s b) ->
  tenths cap -> (Qsum (map (fun l => wanted s l (equal_share s l)) (m_lsps s)) <= cap)%Q -> add_circuit E k a b na nb ca cb cap c s = (t, Ok tt) ->
  exists i j, wider_lsps s t /\ one_link s t i j (nd_name s a) (nd_name s b) /\ i_cost (h_if t i) = ca /\ i_cost (h_if t j) = cb /\ rsvp_up t i /\ rsvp_up t j /\ m_ifs t = (m_ifs s ++ [i; j])%list /\ with_room k t /\
    forall E' E'' s', env_ok E' -> env_ok E'' -> update_simulation E' k s = (s', Ok tt) -> exists t', update_simulation E'' k t = (t', Ok tt).
Proof.
  intros HE Al Rs Ha Hb Ft Tc Rc R. assert (WP := rm_posed _ _ Rs). destruct (add_circuit_laid E k a b na nb ca cb cap c s t HE Al (proj1 WP) (rm_cids _ _ Rs) (rm_agree _ _ Rs) Ft R) as (i & j & L).
  assert (Rt := ld_room _ _ _ _ _ _ _ _ _ _ _ _ L (proj1 WP) Ft Ha Hb Tc Rc Rs). exists i, j. split; [exact (ld_wider_lsps _ _ _ _ _ _ _ _ _ _ _ _ L)|]. split; [exact (ld_link _ _ _ _ _ _ _ _ _ _ _ _ L)|].
  split; [apply (ld_new_i _ _ _ _ _ _ _ _ _ _ _ _ L)|]. split; [apply (ld_new_j _ _ _ _ _ _ _ _ _ _ _ _ L)|].
  split; [split; apply (ld_new _ _ _ _ _ _ _ _ _ _ _ _ L); auto|]. split; [split; apply (ld_new _ _ _ _ _ _ _ _ _ _ _ _ L); auto|].
  split; [exact (ld_ifs _ _ _ _ _ _ _ _ _ _ _ _ L)|]. split; [exact Rt|]. intros E' E'' s' HE' HE'' U.
  destruct (proj1 (C88_room_for_all E' k s HE' WP (rm_known _ _ Rs) (rm_cids _ _ Rs) (rm_usual _ _ Rs) (rm_ample _ _ Rs)) (ex_intro _ s' U)) as (D & F & G).
  apply (C88_room_for_all E'' k t HE'' (rm_posed _ _ Rt) (rm_known _ _ Rt) (rm_cids _ _ Rt) (rm_usual _ _ Rt) (rm_ample _ _ Rt)).
  split; [exact (ld_demands _ _ _ _ _ _ _ _ _ _ _ _ L D)|]. split; [exact (ld_lfine _ _ _ _ _ _ _ _ _ _ _ _ L F)|exact (ld_fit _ _ _ _ _ _ _ _ _ _ _ _ L Ft G)].
Qed.
Print Assumptions C115_add_circuit.

(** A=B costs 10, B=C costs 1, with an LSP from A to C and one from A to B; A=C is added at cost [c]. *)
Definition wbase : st := net [nd "A"; nd "B"; nd "C"; nd "D"]
  [itf "ab" 10 100 0 1 1; itf "ba" 10 100 1 0 1; itf "bc" 1 100 1 2 2; itf "cb" 1 100 2 1 2] [dmd 0 2 30 "d0"; dmd 0 1 6 "d1"; dmd 1 2 5 "d2"; dmd 0 3 1 "d3"] [lsp_ 0 2 "l0"; lsp_ 0 1 "l1"] [].
Definition wbase2 : st := fst (update_simulation E0 Flex wbase).
Definition wmore (c : Z) : st := fst (add_circuit E0 Flex 0 2 "ac" "ca" c c 60 (CInt 9) wbase).
Definition wmore2 (c : Z) : st := fst (update_simulation E0 Flex (wmore c)).
Lemma wbase_run : update_simulation E0 Flex wbase = (wbase2, Ok tt). Proof. unfold wbase2. apply run_split. vm_compute. reflexivity. Qed.
Lemma wmore_add c : c = 1 \/ c = 20 -> add_circuit E0 Flex 0 2 "ac" "ca" c c 60 (CInt 9) wbase = (wmore c, Ok tt). Proof. intros [-> | ->]; unfold wmore; apply run_split; vm_compute; reflexivity. Qed.
Lemma wmore_run c : c = 1 \/ c = 20 -> update_simulation E0 Flex (wmore c) = (wmore2 c, Ok tt). Proof. intros [-> | ->]; unfold wmore2; apply run_split; vm_compute; reflexivity. Qed.
Lemma wbase_room : with_room Flex wbase. Proof. room_tac. Qed.
Lemma wbase_alloc : allocated wbase. Proof. unfold allocated. apply refs_below; vm_compute; reflexivity. Qed.
Lemma wbase_fits : fits Flex wbase "A" "C". Proof. split; [discriminate|intros H; discriminate H]. Qed.
Lemma rsvp_from s i p v : In i (m_ifs s) -> rsvp_up s i -> rsvp_way s (rem s i) p v -> rsvp_way s (loc s i) (i :: p) v.
Proof. intros Hi H R. unfold rsvp_way in *. now constructor. Qed.
Lemma wbase_sole : forall l, In l (m_lsps wbase) -> sole_road wbase l.
Proof.
  assert (S : sole_roads wbase) by (apply sole_by; [once_tac|intros i H; vm_compute in H; in_tac; vm_compute; discriminate|vm_compute; reflexivity]).
  intros l Hl p q. exact (S l p q Hl).
Qed.
Lemma wbase_sum : (Qsum (map (fun l => wanted wbase l (equal_share wbase l)) (m_lsps wbase)) <= 60)%Q. Proof. vm_compute. discriminate. Qed.
Lemma wmore_wider c : c = 1 \/ c = 20 -> exists i j, wider_lsps wbase (wmore c) /\ one_link wbase (wmore c) i j "A" "C" /\ i_cost (h_if (wmore c) i) = c /\ i_cost (h_if (wmore c) j) = c /\ rsvp_up (wmore c) i /\ with_room Flex (wmore c).
Proof.
  intros Hc. assert (A : In 0%nat (m_nds wbase)) by (vm_compute; auto). assert (B : In 2%nat (m_nds wbase)) by (vm_compute; auto). assert (T : tenths 60) by tenths_vm.
  destruct (C115_add_circuit E0 Flex 0 2 "ac" "ca" c c 60 (CInt 9) wbase (wmore c) E0_ok wbase_alloc wbase_room A B wbase_fits T wbase_sum (wmore_add c Hc)) as (i & j & X1 & X2 & X3 & X4 & X5 & X6 & X7 & X8 & _).
  exists i, j. repeat (split; [assumption|]). assumption.
Qed.
Example C115_example : env_ok E0 /\ allocated wbase /\ with_room Flex wbase /\ fits Flex wbase "A" "C" /\ tenths 60 /\ (Qsum (map (fun l => wanted wbase l (equal_share wbase l)) (m_lsps wbase)) <= 60)%Q /\
  (forall c, c = 1 \/ c = 20 -> add_circuit E0 Flex 0 2 "ac" "ca" c c 60 (CInt 9) wbase = (wmore c, Ok tt) /\ update_simulation E0 Flex (wmore c) = (wmore2 c, Ok tt) /\
    exists i j, wider_lsps wbase (wmore c) /\ one_link wbase (wmore c) i j "A" "C" /\ i_cost (h_if (wmore c) i) = c /\ i_cost (h_if (wmore c) j) = c /\ rsvp_up (wmore c) i /\ with_room Flex (wmore c)) /\
  update_simulation E0 Flex wbase = (wbase2, Ok tt) /\ (forall l, In l (m_lsps wbase) -> sole_road wbase l) /\
  (exists b, l_path (h_ls wbase2 0) = PRouted [0; 2]%nat 11 b) /\ (exists b, l_path (h_ls (wmore2 1) 0) = PRouted [100]%nat 1 b) /\ (exists b, l_path (h_ls (wmore2 20) 0) = PRouted [0; 2]%nat 11 b) /\
  (exists b, l_path (h_ls (wmore2 1) 1) = PRouted [100; 3]%nat 2 b) /\
  (exists r, rsvp_way wbase "A" r "C" /\ route_cost wbase r < 20) /\ (exists r, rsvp_way wbase "C" r "A" /\ route_cost wbase r < 20).
Proof.
  split; [exact E0_ok|]. split; [exact wbase_alloc|]. split; [exact wbase_room|]. split; [exact wbase_fits|]. split; [tenths_vm|]. split; [exact wbase_sum|].
  split; [intros c Hc; split; [exact (wmore_add c Hc)|split; [exact (wmore_run c Hc)|exact (wmore_wider c Hc)]]|]. split; [exact wbase_run|]. split; [exact wbase_sole|].
  split; [eexists; vm_compute; reflexivity|]. split; [eexists; vm_compute; reflexivity|]. split; [eexists; vm_compute; reflexivity|]. split; [eexists; vm_compute; reflexivity|].
  split; [exists [0; 2]%nat|exists [3; 1]%nat]; (split; [|vm_compute; reflexivity]).
  - apply (rsvp_from wbase 0%nat [2%nat]); [vm_compute; auto|vm_compute; auto|]. apply (rsvp_from wbase 2%nat []); [vm_compute; auto|vm_compute; auto|constructor].
  - apply (rsvp_from wbase 3%nat [1%nat]); [vm_compute; auto|vm_compute; auto|]. apply (rsvp_from wbase 1%nat []); [vm_compute; auto|vm_compute; auto|constructor].
Qed.

(** Without room for all LSPs an added link can cost an LSP its path: [tight1] has an LSP of 30 units from A to D over
    the link A=D and one of 60 from B over C to D; with the new link A=C the first takes half of C=D. *)
Definition tight1 : st := net [nd "A"; nd "B"; nd "C"; nd "D"]
  [itf "ad" 10 30 0 3 1; itf "da" 10 30 3 0 1; itf "bc" 1 60 1 2 2; itf "cb" 1 60 2 1 2; itf "cd" 1 60 2 3 3; itf "dc" 1 60 3 2 3] [dmd 0 3 30 "d0"; dmd 1 3 60 "d1"] [lsp_ 0 3 "l0"; lsp_ 1 3 "l1"] [].
Definition tight2 : st := fst (update_simulation E0 Flex tight1).
Definition tight3 : st := fst (add_circuit E0 Flex 0 2 "ac" "ca" 1 1 30 (CInt 9) tight1).
Definition tight4 : st := fst (update_simulation E0 Flex tight3).
Lemma tight1_run : update_simulation E0 Flex tight1 = (tight2, Ok tt). Proof. unfold tight2. apply run_split. vm_compute. reflexivity. Qed.
Lemma tight1_add : add_circuit E0 Flex 0 2 "ac" "ca" 1 1 30 (CInt 9) tight1 = (tight3, Ok tt). Proof. unfold tight3. apply run_split. vm_compute. reflexivity. Qed.
Lemma tight3_run : update_simulation E0 Flex tight3 = (tight4, Ok tt). Proof. unfold tight4. apply run_split. vm_compute. reflexivity. Qed.
Theorem C115_room_refuted :
  ~ (forall E k s a b na nb ca cb cap c t s' t' l p x y, env_ok E -> well_posed s -> ends_known s -> cids_set k s -> lsps_usual k s -> ends_agree k s -> shortcuts_off s ->
       add_circuit E k a b na nb ca cb cap c s = (t, Ok tt) -> update_simulation E k s = (s', Ok tt) -> update_simulation E k t = (t', Ok tt) -> In l (m_lsps s) ->
       l_path (h_ls s' l) = PRouted p x y -> l_path (h_ls t' l) <> PUnrouted).
Proof.
  intros H. assert (X : exists p x y, l_path (h_ls tight2 1) = PRouted p x y) by (clear; do 3 eexists; vm_compute; reflexivity). destruct X as (p & x & y & X).
  assert (P : well_posed tight1) by (clear; posed_vm). assert (K : ends_known tight1) by (clear; known_tac). assert (C : cids_set Flex tight1) by (clear; cids_tac).
  assert (U : lsps_usual Flex tight1) by (clear; usual_vm). assert (EA : ends_agree Flex tight1) by (clear; agree_tac).
  assert (SO : shortcuts_off tight1) by (clear; intros n H; vm_compute in H; in_tac; reflexivity). assert (Hl : In 1%nat (m_lsps tight1)) by (clear; vm_compute; auto).
  apply (H E0 Flex tight1 _ _ _ _ _ _ _ _ _ _ _ 1%nat p x y E0_ok P K C U EA SO tight1_add tight1_run tight3_run Hl X). clear. vm_compute. reflexivity.
Qed.
Print Assumptions C115_room_refuted.
