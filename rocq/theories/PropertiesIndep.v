(** PropertiesIndep.v - update_simulation does not depend on the results of
    earlier runs. *)
From Verif Require Import Base Graph Objects Sim Api Build Spec SpecHist SpecCkt SpecMetric SpecFresh Nets GraphProofs MonadProofs ObjProofs GroupProofs PropertiesValidate IndepProofs.

(** ** C17 *)
Theorem C17_independent E k s t : same_input s t -> same_draws E s t ->
  exists s' t' r, update_simulation E k s = (s', r) /\ update_simulation E k t = (t', r) /\ same_results s' t' /\ (r = Ok tt -> same_details s' t').
Proof.
  intros I Dr. destruct (update_indep E k s t I Dr) as (H1 & H2 & _ & H3).
  exists (fst (update_simulation E k s)), (fst (update_simulation E k t)), (snd (update_simulation E k s)).
  split; [apply surjective_pairing|]. split; [rewrite <- H1; apply surjective_pairing|]. split; [exact H2|]. intros Ho. now apply H3.
Qed.
Print Assumptions C17_independent.

(** The bandwidths of an LSP that is not routed also agree after a run without an
    exception, if the names of the LSPs' sources hold no '-' *)
Theorem C17_bandwidths E k s t s' t' : env_ok E -> same_input s t -> same_draws E s t -> (forall l, In l (m_lsps s) -> dash_free (lsp_from s l)) ->
  update_simulation E k s = (s', Ok tt) -> update_simulation E k t = (t', Ok tt) -> same_bandwidths s' t'.
Proof.
  intros HE I Dr N R1 R2. destruct (update_indep E k s t I Dr) as (_ & _ & H2 & H3). rewrite R1, R2 in *. cbn [fst snd] in *.
  intros l Hl. rewrite H2 in Hl. destruct (H3 eq_refl) as [_ H4].
  assert (K : keys_apart (lsrc s) (ldst s) (m_lsps s)).
  { intros a a' b b' Ha Ha' _ _ Eq. apply in_map_iff in Ha as (x & <- & Hx), Ha' as (y & <- & Hy). apply ends_text_inj in Eq; auto; now apply N. }
  apply (H4 (ends_text (lsrc s l) (ldst s l), members (lsrc s) (ldst s) (m_lsps s) (lsrc s l, ldst s l))).
  - apply groups_in; auto. exists (lsrc s l), (ldst s l). split; auto. split; auto. intros C.
    assert (M : In l (members (lsrc s) (ldst s) (m_lsps s) (lsrc s l, ldst s l))) by (apply members_in; auto). rewrite C in M. destruct M.
  - apply members_in; auto.
Qed.
Print Assumptions C17_bandwidths.

(** [flex1] with leftovers everywhere *)
Definition flex1_used : st :=
  set_groups [("B-A", [1%nat])] (set_ckts [(0, 3)%nat]
    (upd_if 0 (fun r => if_traffic (TNum 77) (if_res 40%Q (if_inckt true r))) (upd_if 6 (if_traffic TDown)
      (upd_ls 0 (fun r => ls_path (PRouted [4; 7]%nat 9 3) (ls_res (RNum 5) (ls_setup RUnrouted r)))
        (upd_dm 0 (fun r => dm_path (DPaths [[IIf 6%nat]]) (dm_detail PDInitial r)) flex1))))).
Lemma flex1_used_same : same_input flex1 flex1_used.
Proof.
  constructor; try reflexivity.
  - intros i H; vm_compute in H; in_tac; vm_compute; auto 20.
  - intros i H; vm_compute in H; in_tac; vm_compute; auto 20.
  - intros i H; vm_compute in H; in_tac; vm_compute; auto 20.
  - intros i H. unfold flex1_used. simpl. rewrite !fupd_other; auto; intros e; apply H; rewrite <- e; vm_compute; tauto.
  - intros i H. unfold flex1_used. simpl. rewrite !fupd_other; auto; intros e; apply H; rewrite <- e; vm_compute; tauto.
  - intros i H. unfold flex1_used. simpl. rewrite !fupd_other; auto; intros e; apply H; rewrite <- e; vm_compute; tauto.
Qed.
Example C17_example : same_input flex1 flex1_used /\ same_draws E0 flex1 flex1_used /\ (forall l, In l (m_lsps flex1) -> dash_free (lsp_from flex1 l)) /\
  i_traffic (h_if flex1_used 0) <> i_traffic (h_if flex1 0) /\ snd (update_simulation E0 Flex flex1_used) = Ok tt.
Proof.
  split; [exact flex1_used_same|]. split; [intros n; reflexivity|]. split; [intros l H; vm_compute in H; in_tac; vm_compute; intuition discriminate|].
  split; [vm_compute; discriminate|]. vm_compute. reflexivity.
Qed.

(** With names that hold '-' an LSP can lose its group; it is not signalled and
    keeps the bandwidths of the run before *)
Definition dashes_used (l : nat) : st := upd_ls l (fun r => ls_res (RNum 5) (ls_setup (RNum 5) r)) dashes.
Theorem C17_bandwidths_refuted :
  ~ (forall E k s t s' t', env_ok E -> same_input s t -> same_draws E s t ->
       update_simulation E k s = (s', Ok tt) -> update_simulation E k t = (t', Ok tt) -> same_bandwidths s' t').
Proof.
  intros C. assert (I : forall l, In l (m_lsps dashes) -> same_input dashes (dashes_used l)).
  { intros l L. constructor; try reflexivity; auto.
    - intros i _. repeat split.
    - intros i H; vm_compute in L, H; in_tac; vm_compute; auto 20.
    - intros i H. unfold dashes_used. simpl. rewrite fupd_other; auto. intros e. apply H. now rewrite <- e. }
  assert (X : snd (update_simulation E0 Flex dashes) = Ok tt) by (vm_compute; reflexivity).
  assert (Y0 : snd (update_simulation E0 Flex (dashes_used 0)) = Ok tt) by (vm_compute; reflexivity).
  assert (Y1 : snd (update_simulation E0 Flex (dashes_used 1)) = Ok tt) by (vm_compute; reflexivity).
  assert (Z0 := C E0 Flex _ _ _ _ E0_ok (I 0%nat ltac:(vm_compute; tauto)) (fun n => eq_refl) (run_split _ _ X) (run_split _ _ Y0) 0%nat).
  assert (Z1 := C E0 Flex _ _ _ _ E0_ok (I 1%nat ltac:(vm_compute; tauto)) (fun n => eq_refl) (run_split _ _ X) (run_split _ _ Y1) 1%nat).
  clear C I X Y0 Y1. vm_compute in Z0, Z1. destruct Z0 as [A _]; [tauto|]. destruct Z1 as [B _]; [tauto|]. first [discriminate A | discriminate B].
Qed.
Print Assumptions C17_bandwidths_refuted.
