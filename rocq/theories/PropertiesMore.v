(** PropertiesMore.v - failures (C91) and added demands and LSPs (C92) in models
    with room for all LSPs. *)
From Verif Require Import Base Graph Objects Sim Api Build Spec SpecHist SpecCkt SpecSim SpecMetric SpecSig SpecFlow SpecOrder SpecShort SpecTotal SpecSame SpecFail SpecWhatIf SpecMore Nets
  PropertiesApi PropertiesRoute PropertiesFail PropertiesOrder PropertiesTotal PropertiesShort PropertiesWhatIf PropertiesSame MoreLsps DownLsps GrownLsps.

(** ** C91 What-if failures with LSPs *)
(** Failures route no further LSP and never make an LSP's path cheaper. *)
Theorem C91_lsps E E' k s t s' t' l : env_ok E -> env_ok E' -> with_room k s -> worse k s t -> ends_agree k t ->
  update_simulation E k s = (s', Ok tt) -> update_simulation E' k t = (t', Ok tt) -> In l (m_lsps s) ->
  (l_path (h_ls s' l) = PUnrouted -> l_path (h_ls t' l) = PUnrouted) /\
  (forall p c b p' c' b', l_path (h_ls s' l) = PRouted p c b -> l_path (h_ls t' l) = PRouted p' c' b' -> c <= c').
Proof.
  intros HE HE' R W EA U U' Hl. split; [exact (down_lost E E' k HE HE' s t s' t' R W EA U U' l Hl)|].
  intros p c b p' c' b'. exact (down_cost E E' k HE HE' s t s' t' R W EA U U' l p c b p' c' b' Hl).
Qed.
Print Assumptions C91_lsps.

(** An LSP whose path is spared keeps its cost and its bandwidth, and its path when no
    other way is as good. *)
Theorem C91_spared_lsp E E' k s t s' t' l p c b : env_ok E -> env_ok E' -> with_room k s -> worse k s t -> ends_agree k t ->
  update_simulation E k s = (s', Ok tt) -> update_simulation E' k t = (t', Ok tt) -> In l (m_lsps s) ->
  l_path (h_ls s' l) = PRouted p c b -> lsp_spared s' t l ->
  exists q b', l_path (h_ls t' l) = PRouted q c b' /\ same_amount (l_res (h_ls s' l)) (l_res (h_ls t' l)) /\ best_road s l q /\ (sole_road s l -> q = p).
Proof. intros HE HE' R W EA U U'. exact (down_spared_lsp E E' k HE HE' s t s' t' R W EA U U' l p c b). Qed.
Print Assumptions C91_spared_lsp.

(** A demand whose paths are spared keeps them, and keeps putting the same traffic on
    each interface when the LSPs it rides have no other ways as good. *)
Theorem C91_spared E E' k s t s' t' d : env_ok E -> env_ok E' -> with_room k s -> worse k s t -> ends_agree k t ->
  update_simulation E k s = (s', Ok tt) -> update_simulation E' k t = (t', Ok tt) -> In d (m_dms s) -> demand_spared s' t d ->
  same_paths (d_path (h_dm s' d)) (d_path (h_dm t' d)) /\
  ((forall l, preferred s' d l -> sole_road s l) -> forall i x y, adds k s' d i x -> adds k t' d i y -> (x == y)%Q).
Proof.
  intros HE HE' R W EA U U' Hd Sp. split; [exact (down_paths E E' k HE HE' s t s' t' R W EA U U' d Hd Sp)|].
  intros So i x y. exact (down_adds E E' k HE HE' s t s' t' R W EA U U' d Hd Sp i x y So).
Qed.
Print Assumptions C91_spared.

(** Failures route no further demand and never increase the total that is routed. *)
Theorem C91_unrouted E E' k s t s' t' d : env_ok E -> env_ok E' -> with_room k s -> worse k s t -> ends_agree k t ->
  update_simulation E k s = (s', Ok tt) -> update_simulation E' k t = (t', Ok tt) -> In d (m_dms s) ->
  d_path (h_dm s' d) = DUnrouted -> d_path (h_dm t' d) = DUnrouted.
Proof. intros HE HE' R W EA U U' Hd. exact (down_unrouted E E' k HE HE' s t s' t' R W EA U U' d Hd). Qed.
Print Assumptions C91_unrouted.
Theorem C91_delivered E E' k s t s' t' : env_ok E -> env_ok E' -> with_room k s -> worse k s t -> ends_agree k t ->
  update_simulation E k s = (s', Ok tt) -> update_simulation E' k t = (t', Ok tt) -> (routed_total t' <= routed_total s')%Q.
Proof. intros HE HE' R W EA U U'. exact (down_delivered E E' k HE HE' s t s' t' R W EA U U'). Qed.
Print Assumptions C91_delivered.

(** When no demand loses a path nothing changes but the traffic of the failed
    interfaces, which is "Down". *)
Theorem C91_traffic E E' k s t s' t' i : env_ok E -> env_ok E' -> with_room k s -> worse k s t -> ends_agree k t ->
  update_simulation E k s = (s', Ok tt) -> update_simulation E' k t = (t', Ok tt) -> In i (m_ifs s) ->
  (forall d, In d (m_dms s) -> demand_spared s' t d) -> (forall d l, In d (m_dms s) -> preferred s' d l -> sole_road s l) ->
  if i_failed (h_if t i) then i_traffic (h_if t' i) = TDown else same_traffic (i_traffic (h_if s' i)) (i_traffic (h_if t' i)).
Proof. intros HE HE' R W EA U U'. exact (down_traffic E E' k HE HE' s t s' t' R W EA U U' i). Qed.
Print Assumptions C91_traffic.

(** Calls that take things down lead to such models, and update_simulation succeeds
    after them iff it does before. *)
Theorem C91_calls E k s l : env_ok E -> with_room k s -> wf_net k s -> srlg_sound k s -> consistent k s -> (forall o, In o l -> failing_op s o) ->
  let t := run_ops E k l s in worse k s t /\ ends_agree k t /\
    ((exists s', update_simulation E k s = (s', Ok tt)) <-> (exists t', update_simulation E k t = (t', Ok tt))).
Proof. exact (down_calls E k s l). Qed.
Print Assumptions C91_calls.

(** ** C92 Added demands and LSPs *)
(** LSPs that were there keep their cost, their path when no other is as good, and
    their bandwidth unless it is shared out anew. *)
Theorem C92_lsps E E' k s t s' t' D L l : env_ok E -> env_ok E' -> with_room k s -> with_room k t -> grown s t D L ->
  update_simulation E k s = (s', Ok tt) -> update_simulation E' k t = (t', Ok tt) -> In l (m_lsps s) ->
  same_fate (l_path (h_ls s' l)) (l_path (h_ls t' l)) /\
  (sole_road s l -> same_way (l_path (h_ls s' l)) (l_path (h_ls t' l))) /\
  (l_cfg (h_ls s l) <> None \/ (no_new_demand t D (lsp_from s l) (lsp_to s l) /\ no_new_lsp t L (lsp_from s l) (lsp_to s l)) ->
   same_amount (l_res (h_ls s' l)) (l_res (h_ls t' l))).
Proof.
  intros HE HE' R R' G U U' Hl. destruct (gr_fate E E' k HE HE' s t s' t' D L R R' G U U' l Hl) as [A B]. split; [exact A|]. split; [exact B|].
  exact (gr_amount E E' k HE HE' s t s' t' D L R R' G U U' l Hl).
Qed.
Print Assumptions C92_lsps.

(** Demands that were there stay routed or Unrouted; without a new LSP between their
    ends they keep their paths. *)
Theorem C92_demands E E' k s t s' t' D L d : env_ok E -> env_ok E' -> with_room k s -> with_room k t -> grown s t D L ->
  update_simulation E k s = (s', Ok tt) -> update_simulation E' k t = (t', Ok tt) -> In d (m_dms s) ->
  (d_path (h_dm s' d) = DUnrouted <-> d_path (h_dm t' d) = DUnrouted) /\
  (no_new_lsp t L (dmd_from s d) (dmd_to s d) ->
   same_paths (d_path (h_dm s' d)) (d_path (h_dm t' d)) /\
   ((forall l, preferred s' d l -> sole_road s l) -> forall i x y, adds k s' d i x -> adds k t' d i y -> (x == y)%Q)).
Proof.
  intros HE HE' R R' G U U' Hd. split; [exact (gr_unrouted E E' k HE HE' s t s' t' D L R R' G U U' d Hd)|]. intros NL.
  split; [exact (gr_paths E E' k HE HE' s t s' t' D L R R' G U U' d Hd NL)|]. intros So i x y. exact (gr_adds E E' k HE HE' s t s' t' D L R R' G U U' d Hd NL i x y So).
Qed.
Print Assumptions C92_demands.

(** and each interface carries its old traffic and what the new demands add. *)
Theorem C92_traffic E E' k s t s' t' D L i : env_ok E -> env_ok E' -> with_room k s -> with_room k t -> grown s t D L ->
  update_simulation E k s = (s', Ok tt) -> update_simulation E' k t = (t', Ok tt) -> In i (m_ifs s) ->
  (forall d, In d (m_dms s) -> no_new_lsp t L (dmd_from s d) (dmd_to s d)) -> (forall d l, In d (m_dms s) -> preferred s' d l -> sole_road s l) ->
  if i_failed (h_if s i) then i_traffic (h_if s' i) = TDown /\ i_traffic (h_if t' i) = TDown
  else exists q r f, i_traffic (h_if s' i) = TNum q /\ i_traffic (h_if t' i) = TNum r /\ (forall d, In d D -> adds k t' d i (f d)) /\ (r == q + Qsum (map f D))%Q.
Proof. intros HE HE' R R' G U U'. exact (gr_traffic E E' k HE HE' s t s' t' D L R R' G U U' i). Qed.
Print Assumptions C92_traffic.

(** add_rsvp_lsp and add_demand lead to such models. *)
Theorem C92_calls E k s t : env_ok E -> allocated s -> with_room k s ->
  (forall src dst name, add_rsvp_lsp E k src dst name s = (t, Ok tt) ->
     exists l, ~ In l (m_lsps s) /\ grown s t [] [l] /\ lsp_from t l = src /\ lsp_to t l = dst /\ l_cfg (h_ls t l) = None) /\
  (forall src dst x name, add_demand E k src dst x name s = (t, Ok tt) ->
     exists d, ~ In d (m_dms s) /\ grown s t [d] [] /\ dmd_from t d = src /\ dmd_to t d = dst /\ d_traffic (h_dm t d) = x).
Proof.
  intros HE Al R. split; [intros src dst name; exact (add_lsp_grown E k src dst name s t HE Al R)|intros src dst x name; exact (add_demand_grown E k src dst x name s t HE Al R)].
Qed.
Print Assumptions C92_calls.

(** ** Examples *)
(** The ring A-B-C-D of C89 with links A-C (dearer) and its three LSPs *)
Definition r1 : st := ring false.
Ltac tenths_vm := first [exists 100%Z; vm_compute; reflexivity|exists 30%Z; vm_compute; reflexivity|exists 50%Z; vm_compute; reflexivity|exists 60%Z; vm_compute; reflexivity|exists 300%Z; vm_compute; reflexivity
  |exists 800%Z; vm_compute; reflexivity|exists 600%Z; vm_compute; reflexivity|exists 1000%Z; vm_compute; reflexivity].
Ltac usual_vm := apply Build_lsps_usual;
  [once_tac|once_tac|intros d H; vm_compute in H; in_tac; vm_compute; discriminate
  |intros l c H Hc; vm_compute in H; in_tac; vm_compute in Hc; first [discriminate Hc|injection Hc as <-; vm_compute; discriminate]
  |intros l H; vm_compute in H; in_tac; tenths_vm
  |intros i H; vm_compute in H; in_tac; (split; [tenths_vm|split; [|split]; vm_compute; discriminate])
  |intros l c H Hc; vm_compute in H; in_tac; vm_compute in Hc; first [discriminate Hc|injection Hc as <-; reflexivity]
  |intros Hk; try discriminate Hk; intros Hn; exfalso; clear - Hn; destruct Hn as (n & Hn & Hs); vm_compute in Hn; in_tac; vm_compute in Hs; discriminate Hs].
(** a check for clashes of "source-dest" texts *)
Definition texts_ok (s : st) : bool :=
  forallb (fun a => forallb (fun a' => forallb (fun b => forallb (fun b' =>
    (negb (String.eqb (ends_text a b) (ends_text a' b')) || (String.eqb a a' && String.eqb b b'))%bool) (to_names s)) (to_names s)) (from_names s)) (from_names s).
Lemma texts_by s : texts_ok s = true -> texts_distinct s.
Proof.
  intros H a a' b b' Ha Ha' Hb Hb' X. unfold texts_ok in H. rewrite forallb_forall in H. specialize (H a Ha). rewrite forallb_forall in H. specialize (H a' Ha'). rewrite forallb_forall in H.
  specialize (H b Hb). rewrite forallb_forall in H. specialize (H b' Hb'). rewrite X, String.eqb_refl in H. simpl in H. apply andb_prop in H as [A B]. now apply String.eqb_eq in A, B.
Qed.
Ltac room_tac := constructor;
  [split; [vm_compute; nodup_tac|]; split; [intros i X; vm_compute in X; in_tac; vm_compute; discriminate|apply texts_by; vm_compute; reflexivity]|known_tac|cids_tac|usual_vm
  |intros i H F R; vm_compute in H; in_tac; vm_compute; discriminate|agree_tac|intros n H; vm_compute in H; in_tac; vm_compute; reflexivity].
Lemma r1_room k : with_room k r1.
Proof. destruct k; room_tac. Qed.
Lemma r1_sole : forall l, In l (m_lsps r1) -> sole_road r1 l.
Proof.
  assert (S : sole_roads r1) by (apply sole_by; [once_tac|intros i H; vm_compute in H; in_tac; vm_compute; discriminate|vm_compute; reflexivity]).
  intros l Hl p q. exact (S l p q Hl).
Qed.
Lemma r1_wf : wf_net Flex r1 /\ srlg_sound Flex r1 /\ consistent Flex r1.
Proof.
  split; [wf_tac; wlink_tac|]. split;
  [split; [|split]; [intros i H (g & G & _); vm_compute in H; in_tac; vm_compute in G; destruct G
    |intros n H (g & G & _); vm_compute in H; in_tac; vm_compute in G; destruct G
    |intros i j Hi Hj _ g; vm_compute in Hi, Hj; in_tac; vm_compute; tauto]
  |split; [intros i H _; vm_compute in H; in_tac; up_tac|agree_tac]].
Qed.
Definition r2 : st := fst (update_simulation E0 Flex r1).
Lemma r1_run : update_simulation E0 Flex r1 = (r2, Ok tt).
Proof. unfold r2. apply run_split. vm_compute. reflexivity. Qed.
(** D and the link A-C fail: the LSP and the demands of D are lost, those from A to C
    are spared. *)
Definition r_ops : list op := [OpUpdate; OpFailNode "D"; OpFailIf "ac" "A"].
Definition r3 : st := run_ops E0 Flex r_ops r1.
Definition r4 : st := fst (update_simulation E0 Flex r3).
Lemma r3_run : update_simulation E0 Flex r3 = (r4, Ok tt).
Proof. unfold r4. apply run_split. vm_compute. reflexivity. Qed.
Example C91_example : with_room Flex r1 /\ wf_net Flex r1 /\ srlg_sound Flex r1 /\ consistent Flex r1 /\ (forall o, In o r_ops -> failing_op r1 o) /\
  update_simulation E0 Flex r1 = (r2, Ok tt) /\ update_simulation E0 Flex r3 = (r4, Ok tt) /\
  (forall l, In l (m_lsps r1) -> sole_road r1 l) /\ demand_spared r2 r3 0 /\ lsp_spared r2 r3 0 /\
  d_path (h_dm r2 0) = DPaths [[ILsp 0]; [ILsp 1]]%nat /\ d_path (h_dm r2 2) = DPaths [[ILsp 2]]%nat /\ d_path (h_dm r4 2) = DUnrouted /\
  l_path (h_ls r2 0) = l_path (h_ls r4 0) /\ l_path (h_ls r4 2) = PUnrouted /\ (routed_total r2 == 22)%Q /\ (routed_total r4 == 10)%Q.
Proof.
  split; [exact (r1_room Flex)|]. destruct r1_wf as (A & B & C). split; [exact A|]. split; [exact B|]. split; [exact C|].
  split; [intros o H; simpl in H; in_tac; exact I|]. split; [exact r1_run|]. split; [exact r3_run|]. split; [exact r1_sole|].
  split.
  { intros ps p i. assert (X : d_path (h_dm r2 0) = DPaths [[ILsp 0]; [ILsp 1]]%nat) by (vm_compute; reflexivity). rewrite X. intros H. injection H as <-.
    assert (Y : forall l, In l [0; 1]%nat -> (0 < crossings r2 i [ILsp l])%nat -> In i [0; 2]%nat).
    { clear. intros l Hl. assert (Z : exists c b, l_path (h_ls r2 l) = PRouted [0; 2]%nat c b) by (simpl in Hl; in_tac; do 2 eexists; vm_compute; reflexivity).
      destruct Z as (c & b & Z). rewrite (MoreLsps.crossings_lsp _ i l _ _ _ Z). apply (count_occ_In Nat.eq_dec). }
    intros Hp Hc. assert (Hi : In i [0; 2]%nat). { simpl in Hp. destruct Hp as [<-|[<-|[]]]; [apply (Y 0%nat)|apply (Y 1%nat)]; simpl; auto. }
    clear -Hi. simpl in Hi. in_tac; vm_compute; reflexivity. }
  split.
  { intros p c b i P Hi. vm_compute in P. injection P as <- _ _. clear -Hi. simpl in Hi. in_tac; vm_compute; reflexivity. }
  split; [vm_compute; reflexivity|]. split; [vm_compute; reflexivity|]. split; [vm_compute; reflexivity|]. split; [vm_compute; reflexivity|].
  split; [vm_compute; reflexivity|]. split; vm_compute; reflexivity.
Qed.

(** An LSP from A to D and a demand from A to B are added. *)
Definition r5 : st := fst (add_rsvp_lsp E0 Flex "A" "D" "new" r1).
Lemma r5_add : add_rsvp_lsp E0 Flex "A" "D" "new" r1 = (r5, Ok tt).
Proof. unfold r5. apply run_split. vm_compute. reflexivity. Qed.
Definition r6 : st := fst (add_demand E0 Flex "A" "B" 6 "new" r5).
Lemma r6_add : add_demand E0 Flex "A" "B" 6 "new" r5 = (r6, Ok tt).
Proof. unfold r6. apply run_split. vm_compute. reflexivity. Qed.
Lemma r5_room : with_room Flex r5. Proof. room_tac. Qed.
Lemma r6_room : with_room Flex r6. Proof. room_tac. Qed.
Definition r7 : st := fst (update_simulation E0 Flex r5).
Lemma r5_run : update_simulation E0 Flex r5 = (r7, Ok tt).
Proof. unfold r7. apply run_split. vm_compute. reflexivity. Qed.
Definition r8 : st := fst (update_simulation E0 Flex r6).
Lemma r6_run : update_simulation E0 Flex r6 = (r8, Ok tt).
Proof. unfold r8. apply run_split. vm_compute. reflexivity. Qed.
Lemma r1_alloc : allocated r1.
Proof. repeat split; intros i H; vm_compute in H; in_tac; vm_compute; lia. Qed.
Example C92_example : allocated r1 /\ with_room Flex r1 /\ with_room Flex r5 /\ with_room Flex r6 /\
  add_rsvp_lsp E0 Flex "A" "D" "new" r1 = (r5, Ok tt) /\ add_demand E0 Flex "A" "B" 6 "new" r5 = (r6, Ok tt) /\
  update_simulation E0 Flex r1 = (r2, Ok tt) /\ update_simulation E0 Flex r5 = (r7, Ok tt) /\ update_simulation E0 Flex r6 = (r8, Ok tt) /\
  (forall d, In d (m_dms r1) -> d <> 1%nat -> no_new_lsp r5 [100%nat] (dmd_from r1 d) (dmd_to r1 d)) /\
  d_path (h_dm r2 1) = DPaths [[IIf 0; IIf 2; IIf 6]]%nat /\ d_path (h_dm r7 1) = DPaths [[ILsp 100]]%nat /\
  (exists q r, i_traffic (h_if r2 0) = TNum q /\ (q == 15)%Q /\ i_traffic (h_if r8 0) = TNum r /\ (r == 21)%Q).
Proof.
  split; [exact r1_alloc|]. split; [exact (r1_room Flex)|]. split; [exact r5_room|]. split; [exact r6_room|]. split; [exact r5_add|]. split; [exact r6_add|].
  split; [exact r1_run|]. split; [exact r5_run|]. split; [exact r6_run|]. split.
  - intros d Hd Ne l Hl. vm_compute in Hd. simpl in Hl. destruct Hl as [<-|[]]. in_tac; try (destruct Ne; reflexivity); vm_compute; discriminate.
  - split; [vm_compute; reflexivity|]. split; [vm_compute; reflexivity|]. do 2 eexists. split; [vm_compute; reflexivity|]. split; [reflexivity|]. split; [vm_compute; reflexivity|reflexivity].
Qed.

(** ** Without room for all LSPs *)
(** [full1]: LSPs of 60 units from A to B and from A to C; when A-B fails the first one
    takes the link A-C of the second one. *)
Definition full1 : st := net [nd "A"; nd "B"; nd "C"]
  [itf "ab" 1 100 0 1 1; itf "ba" 1 100 1 0 1; itf "ac" 1 100 0 2 2; itf "ca" 1 100 2 0 2; itf "cb" 1 100 2 1 3; itf "bc" 1 100 1 2 3]
  [dmd 0 1 60 "d0"; dmd 0 2 60 "d1"] [lsp_ 0 1 "l0"; lsp_ 0 2 "l1"] [].
Definition full2 : st := fst (update_simulation E0 Flex full1).
Definition full3 : st := run_ops E0 Flex [OpFailIf "ab" "A"] full1.
Definition full4 : st := fst (update_simulation E0 Flex full3).
Lemma full1_run : update_simulation E0 Flex full1 = (full2, Ok tt).
Proof. unfold full2. apply run_split. vm_compute. reflexivity. Qed.
Lemma full3_run : update_simulation E0 Flex full3 = (full4, Ok tt).
Proof. unfold full4. apply run_split. vm_compute. reflexivity. Qed.
Ltac posed_vm := split; [vm_compute; nodup_tac|]; split; [intros i X; vm_compute in X; in_tac; vm_compute; discriminate|apply texts_by; vm_compute; reflexivity].
Theorem C91_room_refuted :
  ~ (forall E k s t s' t' l p c b, env_ok E -> well_posed s -> ends_known s -> cids_set k s -> lsps_usual k s -> ends_agree k s -> shortcuts_off s -> worse k s t -> ends_agree k t ->
       update_simulation E k s = (s', Ok tt) -> update_simulation E k t = (t', Ok tt) -> In l (m_lsps s) ->
       l_path (h_ls s' l) = PRouted p c b -> lsp_spared s' t l -> l_path (h_ls t' l) <> PUnrouted).
Proof.
  intros H.
  assert (X : exists b, l_path (h_ls full2 1) = PRouted [2%nat] 1 b) by (clear; eexists; vm_compute; reflexivity). destruct X as [b X].
  specialize (H E0 Flex full1 full3 full2 full4 1%nat [2%nat] 1 b E0_ok).
  assert (P : well_posed full1) by (clear; posed_vm). assert (K : ends_known full1) by (clear; known_tac). assert (C : cids_set Flex full1) by (clear; cids_tac).
  assert (U : lsps_usual Flex full1) by (clear; usual_vm). assert (EA : ends_agree Flex full1) by (clear; agree_tac).
  assert (SO : shortcuts_off full1) by (clear; intros n H; vm_compute in H; in_tac; reflexivity).
  assert (W : worse Flex full1 full3) by (clear; unfold full3; apply down_worse; intros o [<-|[]]; exact I).
  assert (EA' : ends_agree Flex full3).
  { clear. intros i j Hi Hj R. vm_compute in Hi, Hj. in_tac; first [vm_compute; reflexivity|exfalso; vm_compute in R; destruct R as (R1 & R2 & _); first [discriminate R1|discriminate R2]]. }
  assert (Hl : In 1%nat (m_lsps full1)) by (clear; vm_compute; auto).
  assert (Sp : lsp_spared full2 full3 1).
  { intros q c' b' i Q Hi. rewrite X in Q. injection Q as <- _ _. destruct Hi as [<-|[]]. clear. vm_compute. reflexivity. }
  apply (H P K C U EA SO W EA' full1_run full3_run Hl X Sp). clear. vm_compute. reflexivity.
Qed.
Print Assumptions C91_room_refuted.

(** With two equally good ways an LSP whose path is spared may still move. *)
Theorem C91_ties_refuted :
  ~ (forall E E' k s t s' t' i, env_ok E -> env_ok E' -> with_room k s -> worse k s t -> ends_agree k t ->
       update_simulation E k s = (s', Ok tt) -> update_simulation E' k t = (t', Ok tt) -> In i (m_ifs s) ->
       (forall d, In d (m_dms s) -> demand_spared s' t d) -> i_failed (h_if t i) = false ->
       same_traffic (i_traffic (h_if s' i)) (i_traffic (h_if t' i))).
Proof.
  intros H. specialize (H E0 PropertiesSame.E1 Perf square square square0 square1 0%nat E0_ok (GraphProofs.env_impl_ok _)).
  assert (R : with_room Perf square) by (clear; room_tac).
  assert (W : worse Perf square square) by (clear; apply (down_worse E0 Perf square []); intros o []).
  assert (Sp : forall d, In d (m_dms square) -> demand_spared square0 square d).
  { clear. intros d _ ps p i _ _ _. do 8 (destruct i as [|i]; [vm_compute; reflexivity|]). vm_compute. first [reflexivity|destruct i; reflexivity]. }
  specialize (H R W (rm_agree _ _ R) square0_run square1_run (or_introl eq_refl) Sp eq_refl). clear -H. vm_compute in H. discriminate H.
Qed.
Print Assumptions C91_ties_refuted.

(** [line1]: LSPs from A to B over C and from A to C; a new demand from A to B leaves no
    room for the second one. *)
Definition line1 : st := net [nd "A"; nd "B"; nd "C"]
  [itf "ac" 1 100 0 2 1; itf "ca" 1 100 2 0 1; itf "cb" 1 100 2 1 2; itf "bc" 1 100 1 2 2]
  [dmd 0 1 30 "d0"; dmd 0 2 60 "d1"] [lsp_ 0 1 "l0"; lsp_ 0 2 "l1"] [].
Definition line2 : st := fst (update_simulation E0 Flex line1).
Definition line3 : st := fst (add_demand E0 Flex "A" "B" 50 "new" line1).
Definition line4 : st := fst (update_simulation E0 Flex line3).
Lemma line1_run : update_simulation E0 Flex line1 = (line2, Ok tt).
Proof. unfold line2. apply run_split. vm_compute. reflexivity. Qed.
Lemma line1_add : add_demand E0 Flex "A" "B" 50 "new" line1 = (line3, Ok tt).
Proof. unfold line3. apply run_split. vm_compute. reflexivity. Qed.
Lemma line3_run : update_simulation E0 Flex line3 = (line4, Ok tt).
Proof. unfold line4. apply run_split. vm_compute. reflexivity. Qed.
Theorem C92_room_refuted :
  ~ (forall E k s t s' t' D L l, env_ok E -> with_room k s -> well_posed t -> ends_known t -> cids_set k t -> lsps_usual k t -> ends_agree k t -> shortcuts_off t -> grown s t D L ->
       update_simulation E k s = (s', Ok tt) -> update_simulation E k t = (t', Ok tt) -> In l (m_lsps s) ->
       no_new_demand t D (lsp_from s l) (lsp_to s l) -> no_new_lsp t L (lsp_from s l) (lsp_to s l) ->
       same_fate (l_path (h_ls s' l)) (l_path (h_ls t' l))).
Proof.
  intros H. assert (R : with_room Flex line1) by (clear; room_tac). assert (Al : allocated line1) by (clear; repeat split; intros i H; vm_compute in H; in_tac; vm_compute; lia).
  destruct (add_demand_grown E0 Flex "A" "B" 50 "new" line1 line3 E0_ok Al R line1_add) as (d & Nd & G & F & T & _).
  assert (P : well_posed line3) by (clear; posed_vm). assert (K : ends_known line3) by (clear; known_tac). assert (C : cids_set Flex line3) by (clear; cids_tac).
  assert (U : lsps_usual Flex line3) by (clear; usual_vm). assert (EA : ends_agree Flex line3) by (clear; agree_tac).
  assert (SO : shortcuts_off line3) by (clear; intros n H; vm_compute in H; in_tac; vm_compute; reflexivity).
  assert (ND : no_new_demand line3 [d] (lsp_from line1 1) (lsp_to line1 1)).
  { intros d' [<-|[]] _. rewrite T. clear. vm_compute. discriminate. }
  assert (NL : no_new_lsp line3 [] (lsp_from line1 1) (lsp_to line1 1)) by (clear; intros l []).
  specialize (H E0 Flex line1 line3 line2 line4 [d] [] 1%nat E0_ok R P K C U EA SO G line1_run line3_run ltac:(clear; vm_compute; auto) ND NL). clear -H.
  vm_compute in H. destruct H.
Qed.
Print Assumptions C92_room_refuted.
