(** HeldProofs.v - members of a failed SRLG stay failed (C32). *)
From Verif Require Import Base Graph Objects Sim Api Spec SpecCkt SpecFail GraphProofs MonadProofs Frames ApiFrames ObjProofs ApiProofs HistProofs RepairProofs.

(** [inl i] is an interface, [inr n] a node. *)
Definition member_down (s : st) (g : nat) (o : nat + nat) : Prop :=
  match o with
  | inl i => (i < s_next s)%nat /\ In g (i_srlgs (h_if s i)) /\ i_failed (h_if s i) = true
  | inr n => (n < s_next s)%nat /\ In g (n_srlgs (h_nd s n)) /\ n_failed (h_nd s n) = true
  end.
Definition held (nm : string) (g : nat) (o : nat + nat) (s : st) : Prop :=
  (g < s_next s)%nat /\ srlg_name s g = nm /\ sr_failed (h_sr s g) = true /\ member_down s g o.

Section Held.
Variable E : env.
Variable k : kind.
Variable nm : string.
Variable g : nat.
Variable o : nat + nat.
Let R := keeps (held nm g o).
Let HR := keeps_preorder (held nm g o).

Lemma hd_if i f : (forall r, (In g (i_srlgs r) -> In g (i_srlgs (f r))) /\ (i_failed r = true -> i_failed (f r) = true)) -> forall s, R s (upd_if i f s).
Proof.
  intros Hf s (H1 & H2 & H3 & H4). repeat split; auto. destruct o as [x|n]; auto. simpl in *. destruct H4 as (A & B & C).
  split; auto. split; apply fupd_cases; intros; subst; auto; apply Hf; auto.
Qed.
Lemma hd_nd i f : (forall r, (In g (n_srlgs r) -> In g (n_srlgs (f r))) /\ (n_failed r = true -> n_failed (f r) = true)) -> forall s, R s (upd_nd i f s).
Proof.
  intros Hf s (H1 & H2 & H3 & H4). repeat split; auto. destruct o as [x|n]; auto. simpl in *. destruct H4 as (A & B & C).
  split; auto. split; apply fupd_cases; intros; subst; auto; apply Hf; auto.
Qed.
Lemma hd_id s s' : h_if s' = h_if s -> h_nd s' = h_nd s -> h_sr s' = h_sr s -> s_next s' = s_next s -> R s s'.
Proof.
  intros A B C D (H1 & H2 & H3 & H4). unfold held, srlg_name. rewrite C, D. repeat split; auto.
  unfold member_down in *. rewrite A, B, D. auto.
Qed.
Lemma hd_ls i f s : R s (upd_ls i f s). Proof. apply hd_id; auto. Qed.
Lemma hd_dm i f s : R s (upd_dm i f s). Proof. apply hd_id; auto. Qed.
Lemma hd_put_if v s : R s (put_if v s).
Proof.
  intros (H1 & H2 & H3 & H4). split; [simpl; lia|]. repeat split; auto. destruct o as [x|n]; simpl in *; destruct H4 as (A & B & C).
  - split; [lia|]. rewrite fupd_other by lia. auto.
  - split; [lia|]. auto.
Qed.
Lemma hd_put_nd v s : R s (put_nd v s).
Proof.
  intros (H1 & H2 & H3 & H4). split; [simpl; lia|]. repeat split; auto. destruct o as [x|n]; simpl in *; destruct H4 as (A & B & C).
  - split; [lia|]. auto.
  - split; [lia|]. rewrite fupd_other by lia. auto.
Qed.
Lemma hd_put_dm v s : R s (put_dm v s).
Proof.
  intros (H1 & H2 & H3 & H4). split; [simpl; lia|]. repeat split; auto. destruct o as [x|n]; simpl in *; destruct H4 as (A & B & C); split; auto; lia.
Qed.
Lemma hd_put_ls v s : R s (put_ls v s).
Proof.
  intros (H1 & H2 & H3 & H4). split; [simpl; lia|]. repeat split; auto. destruct o as [x|n]; simpl in *; destruct H4 as (A & B & C); split; auto; lia.
Qed.
Lemma hd_sr g' f s : g' <> g \/ (forall r, sr_name (f r) = sr_name r /\ (sr_failed r = true -> sr_failed (f r) = true)) -> R s (upd_sr g' f s).
Proof.
  intros X (H1 & H2 & H3 & H4). split; auto. unfold srlg_name. simpl.
  assert (Y : sr_name (fupd (h_sr s) g' (f (h_sr s g')) g) = nm /\ sr_failed (fupd (h_sr s) g' (f (h_sr s g')) g) = true).
  { apply fupd_cases; intros; subst; auto. destruct X as [X|X]; [congruence|]. destruct (X (h_sr s g')) as [-> X2]. split; auto. }
  destruct Y. repeat split; auto.
Qed.
Lemma hd_put_sr v s : R s (put_sr v s).
Proof.
  intros (H1 & H2 & H3 & H4). split; [simpl; lia|]. unfold srlg_name. simpl. rewrite fupd_other by lia. repeat split; auto.
  destruct o as [x|n]; simpl in *; destruct H4 as (A & B & C); split; auto; lia.
Qed.

Lemma hd_set_failed i b : pres R (iface_set_failed i b).
Proof.
  intros s. destruct b.
  - rewrite set_failed_true_run. simpl. apply hd_if. intros r; auto.
  - rewrite set_failed_false_run. destruct (infs s (i_srlgs (h_if s i))) eqn:F; [apply hd_if; intros r; auto|].
    destruct (_ && _); cbn [fst]; [|apply hd_if; intros r; auto].
    intros (H1 & H2 & H3 & H4). repeat split; auto. destruct o as [x|n]; auto. simpl in *. destruct H4 as (A & B & C). split; auto.
    apply infs_false in F. split; apply fupd_cases; intros; subst; auto. exfalso. apply F. exists g. auto.
Qed.
Lemma hd_node_set_failed i b : pres R (node_set_failed i b).
Proof.
  intros s. unfold node_set_failed. destruct b; [apply hd_nd; intros r; auto|]. rewrite bind_gets.
  destruct (existsb _ _) eqn:F; unfold bind, modify, raise; cbn [fst]; [apply hd_nd; intros r; auto|].
  intros (H1 & H2 & H3 & H4). repeat split; auto. destruct o as [x|n]; auto. simpl in *. destruct H4 as (A & B & C). split; auto.
  split; apply fupd_cases; intros; subst; auto. exfalso. change (infs s (n_srlgs (h_nd s i)) = false) in F. apply infs_false in F. apply F. exists g. auto.
Qed.
Lemma hd_res0 i : pres R (modify (upd_if i (if_res 0%Q))).
Proof. apply pres_modify. apply hd_if. intros r; auto. Qed.

Ltac rif := intros i f s Hf; apply hd_if; intros r; rewrite (Hf r); destruct r; simpl; auto.
Lemma hd_validate : pres R (validate_model E k).
Proof.
  apply pres_validate_model; try apply HR.
  - rif.
  - intros _. rif.
  - intros c s. apply hd_id; auto.
  - rif.
Qed.
Lemma hd_update : pres R (update_simulation E k).
Proof.
  apply pres_update_simulation_val; try apply HR.
  - intros l f s _. apply hd_ls.
  - intros l f s _. apply hd_ls.
  - intros c s. apply hd_id; auto.
  - intros s. apply hd_id; auto.
  - rif.
  - apply hd_validate.
  - intros d f s _. apply hd_dm.
  - intros d f s _. apply hd_dm.
Qed.
Lemma hd_srlg_new n : pres R (srlg_new n).
Proof.
  unfold srlg_new. apply (pres_bind _ HR); [apply (pres_gets _ HR)|]. intros [|]; [apply (pres_raise _ HR)|].
  intros s. unfold bind, gets, modify, ret. cbn [fst]. eapply (po_trans _ HR); [apply (hd_put_sr (mkSrlg n false))|]. apply hd_id; auto.
Qed.
Lemma hd_iface_new name cost cap a b c r p : pres R (iface_new name cost cap a b c r p).
Proof. apply (pres_iface_new R HR). intros s H1 H2. apply hd_put_if. Qed.
Lemma hd_node_new n : pres R (node_new n).
Proof. apply pres_node_new. intros s. apply hd_put_nd. Qed.
Lemma hd_make_ifs l : forall ifs nds, pres R (make_network_interfaces l ifs nds).
Proof.
  induction l as [|x l IH]; simpl; intros; [apply (pres_ret _ HR)|].
  repeat (first [pres_step HR | apply hd_iface_new | apply hd_node_new | apply IH]).
Qed.
Lemma set_add_ref_In x y l : In x l -> In x (set_add_ref y l).
Proof. unfold set_add_ref. destruct (mem_nat y l); auto. intros H. apply in_or_app. auto. Qed.
Lemma refs_remove_In x y l : x <> y -> In x l -> In x (refs_remove y l).
Proof. unfold refs_remove. intros N H. apply filter_In. split; auto. apply negb_true_iff, Nat.eqb_neq. auto. Qed.
Lemma hd_add_if i g' : pres R (modify (upd_if i (fun r => if_srlgs (set_add_ref g' (i_srlgs r)) r))).
Proof. apply pres_modify, hd_if. intros r. split; auto. simpl. apply set_add_ref_In. Qed.
Lemma hd_add_nd i g' : pres R (modify (upd_nd i (fun r => nd_srlgs (set_add_ref g' (n_srlgs r)) r))).
Proof. apply pres_modify, hd_nd. intros r. split; auto. simpl. apply set_add_ref_In. Qed.
Lemma hd_set_srs f : pres R (modify (fun s => set_srs (f s) s)).
Proof. apply pres_modify. intros s. apply hd_id; auto. Qed.

Lemma other_srlg n g' s : n <> nm -> get_srlg s n = Ok g' -> held nm g o s -> g' <> g.
Proof. intros N G (_ & H & _) ->. apply get_srlg_spec in G as [_ G]. congruence. Qed.

Lemma hd_op op : ~ lifts nm op -> pres R (run_op E k op).
Proof.
  intros NL. destruct op; simpl; unfold discard.
  - apply hd_update.
  - apply hd_validate.
  - apply (pres_fail_interface R HR). apply hd_set_failed.
  - apply (pres_unfail_interface E k R HR); auto using hd_set_failed, hd_res0, hd_validate.
  - apply (pres_fail_node R HR); auto using hd_set_failed, hd_node_set_failed.
  - apply (pres_unfail_node E k R HR); auto using hd_set_failed, hd_res0, hd_validate, hd_node_set_failed.
  - apply (pres_fail_srlg R HR); auto using hd_set_failed, hd_node_set_failed. intros g'. apply pres_modify. intros s. apply hd_sr. right. intros r; auto.
  - apply (pres_unfail_srlg E k R HR); auto using hd_set_failed, hd_res0, hd_validate, hd_node_set_failed.
    intros g' s Hg H. apply hd_sr; auto. left. eapply other_srlg; eauto.
  - unfold add_srlg. repeat (first [pres_step HR | apply hd_srlg_new | apply hd_set_srs]).
  - unfold iface_add_to_srlg. repeat (first [pres_step HR | apply hd_srlg_new | apply hd_add_if | apply hd_set_srs]).
  - simpl in NL. unfold iface_remove_from_srlg. intros s H. rewrite bind_gets. destruct (get_srlg s n) as [g'|e] eqn:G; [|exact H].
    assert (N : g <> g') by (intros X; eapply other_srlg; eauto). revert s H G.
    assert (Q : pres R (ok <- gets (fun s => mem_if s i (srlg_ifaces s g')) ;;
      (if ok : bool then ret tt else raise KeyError) ;;;
      own <- gets (fun s => mem_nat g' (i_srlgs (h_if s i))) ;;
      (if own : bool then ret tt else raise KeyError) ;;;
      modify (upd_if i (fun r => if_srlgs (refs_remove g' (i_srlgs r)) r)) ;;;
      j <- reads (fun s => get_remote_interface s i) ;;
      ok' <- gets (fun s => mem_if s j (srlg_ifaces s g')) ;;
      (if ok' : bool then ret tt else raise KeyError) ;;;
      own' <- gets (fun s => mem_nat g' (i_srlgs (h_if s j))) ;;
      (if own' : bool then ret tt else raise KeyError) ;;;
      modify (upd_if j (fun r => if_srlgs (refs_remove g' (i_srlgs r)) r)) ;;;
      iface_set_failed i false)).
    { repeat (first [pres_step HR | apply hd_set_failed]); apply pres_modify, hd_if; intros r; split; auto; simpl; intros; now apply refs_remove_In. }
    intros s H _. apply (Q s H).
  - unfold node_add_to_srlg. repeat (first [pres_step HR | apply hd_srlg_new | apply hd_add_nd | apply hd_set_srs]).
  - simpl in NL. unfold node_remove_from_srlg. intros s H. rewrite bind_gets. destruct (get_srlg s n) as [g'|e] eqn:G; [|exact H].
    assert (N : g <> g') by (intros X; eapply other_srlg; eauto). revert s H G.
    assert (Q : pres R (ok <- gets (fun s => mem_nd s i (srlg_nodes s g')) ;;
      (if ok : bool then ret tt else raise KeyError) ;;;
      own <- gets (fun s => mem_nat g' (n_srlgs (h_nd s i))) ;;
      (if own : bool then ret tt else raise KeyError) ;;;
      modify (upd_nd i (fun r => nd_srlgs (refs_remove g' (n_srlgs r)) r)) ;;;
      node_set_failed i false)).
    { repeat (first [pres_step HR | apply hd_node_set_failed]); apply pres_modify, hd_nd; intros r; split; auto; simpl; intros; now apply refs_remove_In. }
    intros s H _. apply (Q s H).
  - repeat (first [pres_step HR | apply hd_node_new]).
  - unfold add_node. repeat (first [pres_step HR | apply hd_validate]). apply pres_modify; intros s; apply hd_id; auto.
  - unfold add_demand. repeat (first [pres_step HR | apply hd_validate]); [apply (pres_demand_new R HR); intros; apply hd_put_dm|].
    apply pres_modify; intros s; apply hd_id; auto.
  - unfold add_rsvp_lsp. repeat (first [pres_step HR | apply hd_validate]); [apply pres_lsp_new; intros; apply hd_put_ls|].
    apply pres_modify; intros s; apply hd_id; auto.
  - unfold add_circuit. repeat (first [pres_step HR | apply hd_validate | apply hd_iface_new]); apply pres_modify; intros s; apply hd_id; auto.
  - unfold add_network_interfaces. repeat (first [pres_step HR | apply hd_validate | apply hd_make_ifs]); apply pres_modify; intros s; apply hd_id; auto.
  - unfold change_interface_name. repeat pres_step HR. apply pres_modify, hd_if; intros r; auto.
  - apply (pres_set_manual_metric R HR). intros x f s _. apply hd_ls.
  - unfold iface_set_cost. repeat pres_step HR. apply pres_modify, hd_if; intros r; auto.
  - unfold iface_set_capacity. repeat pres_step HR. apply pres_modify, hd_if; intros r; auto.
  - apply (pres_iface_fail R HR). apply hd_set_failed.
  - apply (pres_iface_unfail R HR). apply hd_set_failed.
  - apply hd_set_failed.
  - apply hd_node_set_failed.
  - repeat pres_step HR. apply (pres_traffic_on_lsp E k R HR); [intros x f s _; apply hd_ls|intros c s; apply hd_id; auto].
  - repeat pres_step HR. apply (pres_effective_metric E k R HR). intros x f s _; apply hd_ls.
Qed.

Lemma hd_history l : (forall op, In op l -> ~ lifts nm op) -> forall s, held nm g o s -> held nm g o (run_ops E k l s).
Proof.
  induction l as [|op l IH]; intros Hl s H; simpl; auto. apply IH; [intros; apply Hl; right; auto|].
  apply (hd_op op (Hl op (or_introl eq_refl)) s H).
Qed.
End Held.
