(** HistProofs.v - invariants over arbitrary histories of public calls. *)
From Verif Require Import Base Graph Objects Sim Api Spec SpecHist MonadProofs GraphProofs RoundProofs Frames ApiFrames ObjProofs ApiProofs AddProofs.

Definition keeps (P : st -> Prop) (s s' : st) : Prop := P s -> P s'.
Lemma keeps_preorder P : preorder (keeps P).
Proof. constructor; unfold keeps; auto. Qed.

Lemma run_ops_keeps E k (P : st -> Prop) : (forall o, pres (keeps P) (run_op E k o)) ->
  forall l s, P s -> P (run_ops E k l s).
Proof.
  intros H. induction l as [|o l IH]; simpl; intros s Hs; auto.
  apply IH. apply (H o s). auto.
Qed.

(** ** Costs, capacities and traffic (C40) *)
Section Positive.
Variable E : env.
Variable k : kind.

Definition positive (s : st) : Prop :=
  (forall i, 1 <= i_cost (h_if s i) /\ (0 < i_cap (h_if s i))%Q) /\
  (forall d, (0 <= d_traffic (h_dm s d))%Q).

Let R := keeps positive.
Let HR := keeps_preorder positive.

Lemma pos_if i f : (forall r, 1 <= i_cost r /\ (0 < i_cap r)%Q -> 1 <= i_cost (f r) /\ (0 < i_cap (f r))%Q) ->
  forall s, R s (upd_if i f s).
Proof.
  intros H s [H1 H2]. split; [|exact H2]. intros x; simpl. apply fupd_cases; intros; subst; auto.
Qed.
Lemma pos_dm i f : (forall r, (0 <= d_traffic r)%Q -> (0 <= d_traffic (f r))%Q) -> forall s, R s (upd_dm i f s).
Proof.
  intros H s [H1 H2]. split; [exact H1|]. intros x; simpl. apply fupd_cases; intros; subst; auto.
Qed.
Lemma pos_ls i f s : R s (upd_ls i f s). Proof. intros H; exact H. Qed.
Lemma pos_nd i f s : R s (upd_nd i f s). Proof. intros H; exact H. Qed.
Lemma pos_sr i f s : R s (upd_sr i f s). Proof. intros H; exact H. Qed.

Ltac rec_if := intros; apply pos_if; intros []; simpl; auto.

Lemma pos_validate : pres R (validate_model E k).
Proof.
  apply pres_validate_model; try apply HR.
  - intros i f s Hf. apply pos_if. intros r Hr. rewrite (Hf r). exact Hr.
  - intros _ i f s Hf. apply pos_if. intros r Hr. rewrite (Hf r). exact Hr.
  - intros c s H. exact H.
  - intros i f s Hf. apply pos_if. intros r Hr. rewrite (Hf r). exact Hr.
Qed.

Lemma pos_update : pres R (update_simulation E k).
Proof.
  apply pres_update_simulation; try apply HR.
  - intros l f s _. apply pos_ls.
  - intros l f s _. apply pos_ls.
  - intros g s H. exact H.
  - intros g s H. exact H.
  - intros s H. exact H.
  - intros i f s Hf. apply pos_if. intros r Hr. rewrite (Hf r). exact Hr.
  - intros i f s Hf. apply pos_if. intros r Hr. rewrite (Hf r). exact Hr.
  - intros _ i f s Hf. apply pos_if. intros r Hr. rewrite (Hf r). exact Hr.
  - intros i f s Hf. apply pos_if. intros r Hr. rewrite (Hf r). exact Hr.
  - intros d f s Hf. apply pos_dm. intros r Hr. rewrite (Hf r). exact Hr.
  - intros d f s Hf. apply pos_dm. intros r Hr. rewrite (Hf r). exact Hr.
Qed.

Lemma pos_set_failed i b : pres R (iface_set_failed i b).
Proof. unfold iface_set_failed. repeat pres_step HR; apply pres_modify; rec_if. Qed.
Lemma pos_node_set_failed n b : pres R (node_set_failed n b).
Proof. unfold node_set_failed. repeat pres_step HR; apply pres_modify; intros; apply pos_nd. Qed.
Lemma pos_res0 i : pres R (modify (upd_if i (if_res 0%Q))).
Proof. apply pres_modify; rec_if. Qed.

Lemma pos_put_if v s : 1 <= i_cost v -> (0 < i_cap v)%Q -> R s (put_if v s).
Proof.
  intros H1 H2 [P1 P2]. split; [|exact P2]. intros x; simpl. apply fupd_cases; intros; auto.
Qed.
Lemma pos_put_dm v s : (0 <= d_traffic v)%Q -> R s (put_dm v s).
Proof.
  intros H1 [P1 P2]. split; [exact P1|]. intros x; simpl. apply fupd_cases; intros; auto.
Qed.

Lemma pos_srlg_new n : pres R (srlg_new n).
Proof. unfold srlg_new. repeat pres_step HR; apply pres_modify; intros s H; exact H. Qed.

Lemma pos_iface_new name cost cap a b c r p : pres R (iface_new name cost cap a b c r p).
Proof. apply (pres_iface_new R HR). intros s H1 H2. apply pos_put_if; auto. Qed.
Lemma pos_node_new n : pres R (node_new n).
Proof. apply pres_node_new. intros s H. exact H. Qed.
Lemma pos_demand_new a b t n : pres R (demand_new a b t n).
Proof. apply (pres_demand_new R HR). intros s Ht. apply pos_put_dm. now apply Qltb_false in Ht. Qed.
Lemma pos_lsp_new a b n c m : pres R (lsp_new a b n c m).
Proof. apply pres_lsp_new. intros s H. exact H. Qed.

Lemma pos_make_ifs l : forall ifs nds, pres R (make_network_interfaces l ifs nds).
Proof.
  induction l as [|x l IH]; simpl; intros; [apply (pres_ret _ HR)|].
  repeat (first [pres_step HR | apply pos_iface_new | apply pos_node_new | apply IH]).
Qed.

Lemma positive_op o : pres R (run_op E k o).
Proof.
  destruct o; simpl; unfold discard.
  - apply pos_update.
  - apply pos_validate.
  - apply (pres_fail_interface R HR). apply pos_set_failed.
  - apply (pres_unfail_interface E k R HR); auto using pos_set_failed, pos_res0, pos_validate.
  - apply (pres_fail_node R HR); auto using pos_set_failed, pos_node_set_failed.
  - apply (pres_unfail_node E k R HR); auto using pos_set_failed, pos_res0, pos_validate, pos_node_set_failed.
  - apply (pres_fail_srlg R HR); auto using pos_set_failed, pos_node_set_failed. intros; apply pres_modify; intros; apply pos_sr.
  - apply (pres_unfail_srlg E k R HR); auto using pos_set_failed, pos_res0, pos_validate, pos_node_set_failed. intros; apply pos_sr.
  - unfold add_srlg. repeat (first [pres_step HR | apply pos_srlg_new]). apply pres_modify; intros s H; exact H.
  - unfold iface_add_to_srlg. repeat (first [pres_step HR | apply pos_srlg_new]); apply pres_modify; try (rec_if; fail); intros s H; exact H.
  - unfold iface_remove_from_srlg. repeat (first [pres_step HR | apply pos_set_failed]); apply pres_modify; rec_if.
  - unfold node_add_to_srlg. repeat (first [pres_step HR | apply pos_srlg_new]); apply pres_modify; intros s H; exact H.
  - unfold node_remove_from_srlg. repeat (first [pres_step HR | apply pos_node_set_failed]); apply pres_modify; intros s H; exact H.
  - repeat (first [pres_step HR | apply pos_node_new]).
  - unfold add_node. repeat (first [pres_step HR | apply pos_validate]). apply pres_modify; intros s H; exact H.
  - unfold add_demand. repeat (first [pres_step HR | apply pos_validate | apply pos_demand_new]). apply pres_modify; intros s H; exact H.
  - unfold add_rsvp_lsp. repeat (first [pres_step HR | apply pos_validate | apply pos_lsp_new]). apply pres_modify; intros s H; exact H.
  - unfold add_circuit. repeat (first [pres_step HR | apply pos_validate | apply pos_iface_new]); apply pres_modify; intros s H; exact H.
  - unfold add_network_interfaces. repeat (first [pres_step HR | apply pos_validate | apply pos_make_ifs]); apply pres_modify; intros s H; exact H.
  - unfold change_interface_name. repeat pres_step HR. apply pres_modify; rec_if.
  - apply (pres_set_manual_metric R HR). intros x f s _. apply pos_ls.
  - unfold iface_set_cost. destruct (Z.ltb_spec c 1); [apply (pres_raise _ HR)|]. apply pres_modify; apply pos_if; intros [] []; simpl in *; auto.
  - unfold iface_set_capacity. destruct (Qltb 0 c) eqn:Ec; simpl; [|apply (pres_raise _ HR)]. apply Qltb_true in Ec.
    apply pres_modify; apply pos_if; intros [] []; simpl in *; auto.
  - apply (pres_iface_fail R HR). apply pos_set_failed.
  - apply (pres_iface_unfail R HR). apply pos_set_failed.
  - apply pos_set_failed.
  - apply pos_node_set_failed.
  - repeat pres_step HR. apply (pres_traffic_on_lsp E k R HR); [intros x f s _; apply pos_ls|intros g s H; exact H].
  - repeat pres_step HR. apply (pres_effective_metric E k R HR). intros x f s _; apply pos_ls.
Qed.

Lemma positive_history l s : positive s -> positive (run_ops E k l s).
Proof. apply run_ops_keeps. apply positive_op. Qed.
End Positive.

Lemma positive_init : positive init_st.
Proof. split; intros; simpl; [split; [lia|reflexivity]|unfold Qle; simpl; lia]. Qed.

(** ** Unique keys (C38) *)
Definition kinv (s : st) : Prop := keys_unique s /\ wf_refs s.

(** Names, end points and object sets are left alone; new objects may appear. *)
Record kframe (s s' : st) : Prop := {
  kf_sets : same_sets s s';
  kf_next : (s_next s <= s_next s')%nat;
  kf_if : forall i, (i < s_next s)%nat -> i_name (h_if s' i) = i_name (h_if s i) /\
            i_node (h_if s' i) = i_node (h_if s i) /\ i_rem (h_if s' i) = i_rem (h_if s i);
  kf_nd : forall n, (n < s_next s)%nat -> n_name (h_nd s' n) = n_name (h_nd s n);
  kf_sr : forall g, (g < s_next s)%nat -> sr_name (h_sr s' g) = sr_name (h_sr s g);
  kf_dm : forall d, (d < s_next s)%nat -> d_src (h_dm s' d) = d_src (h_dm s d) /\
            d_dst (h_dm s' d) = d_dst (h_dm s d) /\ d_name (h_dm s' d) = d_name (h_dm s d);
  kf_ls : forall l, (l < s_next s)%nat -> l_src (h_ls s' l) = l_src (h_ls s l) /\
            l_dst (h_ls s' l) = l_dst (h_ls s l) /\ l_name (h_ls s' l) = l_name (h_ls s l) }.

Lemma kframe_preorder : preorder kframe.
Proof.
  constructor.
  - intros s. constructor; auto using same_sets_refl.
  - intros a b c [] []. constructor.
    + eauto using same_sets_trans.
    + lia.
    + intros i Hi. destruct (kf_if0 i Hi) as (?&?&?), (kf_if1 i) as (?&?&?); [lia|]. repeat split; congruence.
    + intros i Hi. rewrite kf_nd1 by lia. auto.
    + intros i Hi. rewrite kf_sr1 by lia. auto.
    + intros i Hi. destruct (kf_dm0 i Hi) as (?&?&?), (kf_dm1 i) as (?&?&?); [lia|]. repeat split; congruence.
    + intros i Hi. destruct (kf_ls0 i Hi) as (?&?&?), (kf_ls1 i) as (?&?&?); [lia|]. repeat split; congruence.
Qed.

Lemma NoDup_map_eq {A B} (f g : A -> B) l : (forall x, In x l -> f x = g x) -> NoDup (map f l) -> NoDup (map g l).
Proof. intros H. now rewrite (map_ext_in f g l H). Qed.

Lemma kframe_keys s s' : wf_refs s -> kframe s s' ->
  (forall i, In i (m_ifs s) -> if_key s' i = if_key s i /\ loc s' i = loc s i /\ rem s' i = rem s i) /\
  (forall n, In n (m_nds s) -> nd_name s' n = nd_name s n) /\
  (forall d, In d (m_dms s) -> dmd_key s' d = dmd_key s d) /\
  (forall l, In l (m_lsps s) -> lsp_key s' l = lsp_key s l) /\
  (forall g, In g (m_srs s) -> srlg_name s' g = srlg_name s g).
Proof.
  intros [Wa Wi Wd Wl] [Fs Fn Fi Fnd Fsr Fd Fl].
  split; [|split; [|split; [|split]]].
  - intros i Hi. destruct (Wi i Hi) as [W1 W2]. destruct (Fi i) as (A & B & C); [now apply alloc_ifs|].
    unfold if_key, loc, rem. rewrite A, B, C, !Fnd by auto. auto.
  - intros n Hn. unfold nd_name. apply Fnd. now apply alloc_nds.
  - intros d Hd. destruct (Wd d Hd) as [W1 W2]. destruct (Fd d) as (A & B & C); [now apply alloc_dms|].
    unfold dmd_key, dmd_from, dmd_to. rewrite A, B, C, !Fnd by auto. auto.
  - intros d Hd. destruct (Wl d Hd) as [W1 W2]. destruct (Fl d) as (A & B & C); [now apply alloc_lsps|].
    unfold lsp_key, lsp_from, lsp_to. rewrite A, B, C, !Fnd by auto. auto.
  - intros n Hn. unfold srlg_name. apply Fsr. now apply alloc_srs.
Qed.

Lemma kframe_wf s s' : kframe s s' -> wf_refs s -> wf_refs s'.
Proof.
  intros [(S1 & S2 & S3 & S4 & S5) Fn Fi Fnd Fsr Fd Fl] [Wa Wi Wd Wl].
  constructor.
  - unfold allocated in *. rewrite S1, S2, S3, S4, S5. intros x Hx. apply Wa in Hx. lia.
  - rewrite S1. intros i Hi. destruct (Fi i) as (_ & B & C); [now apply alloc_ifs|]. rewrite B, C.
    destruct (Wi i Hi). lia.
  - rewrite S3. intros i Hi. destruct (Fd i) as (A & B & C); [now apply alloc_dms|]. rewrite A, B.
    destruct (Wd i Hi). lia.
  - rewrite S4. intros i Hi. destruct (Fl i) as (A & B & C); [now apply alloc_lsps|]. rewrite A, B.
    destruct (Wl i Hi). lia.
Qed.

Lemma kframe_kinv s s' : kframe s s' -> kinv s -> kinv s'.
Proof.
  intros HF [(U1 & U2 & U3 & U4 & U5) W]. split; [|eapply kframe_wf; eauto].
  destruct (kframe_keys s s' W HF) as (K1 & K2 & K3 & K4 & K5).
  destruct HF as [(S1 & S2 & S3 & S4 & S5) _ _ _ _ _ _].
  unfold keys_unique. rewrite S1, S2, S3, S4, S5.
  split; [|split; [|split; [|split]]].
  - apply (NoDup_map_eq (if_key s)); auto. intros. symmetry. now apply K1.
  - apply (NoDup_map_eq (nd_name s)); auto. intros. symmetry. now apply K2.
  - apply (NoDup_map_eq (dmd_key s)); auto. intros. symmetry. now apply K3.
  - apply (NoDup_map_eq (lsp_key s)); auto. intros. symmetry. now apply K4.
  - apply (NoDup_map_eq (srlg_name s)); auto. intros. symmetry. now apply K5.
Qed.

Section Keys.
Variable E : env.
Variable k : kind.
Let HR := kframe_preorder.

Lemma kf_upd_if i f s : (forall r, i_name (f r) = i_name r /\ i_node (f r) = i_node r /\ i_rem (f r) = i_rem r) -> kframe s (upd_if i f s).
Proof.
  intros H. constructor; auto; try (intros; auto; fail); [repeat split|].
  intros x _; simpl. apply fupd_cases; intros; subst; auto.
Qed.
Lemma kf_upd_nd i f s : (forall r, n_name (f r) = n_name r) -> kframe s (upd_nd i f s).
Proof.
  intros H. constructor; auto; try (intros; auto; fail); [repeat split|].
  intros x _; simpl. apply fupd_cases; intros; subst; auto.
Qed.
Lemma kf_upd_sr i f s : (forall r, sr_name (f r) = sr_name r) -> kframe s (upd_sr i f s).
Proof.
  intros H. constructor; auto; try (intros; auto; fail); [repeat split|].
  intros x _; simpl. apply fupd_cases; intros; subst; auto.
Qed.
Lemma kf_upd_dm i f s : (forall r, d_src (f r) = d_src r /\ d_dst (f r) = d_dst r /\ d_name (f r) = d_name r) -> kframe s (upd_dm i f s).
Proof.
  intros H. constructor; auto; try (intros; auto; fail); [repeat split|].
  intros x _; simpl. apply fupd_cases; intros; subst; auto.
Qed.
Lemma kf_upd_ls i f s : (forall r, l_src (f r) = l_src r /\ l_dst (f r) = l_dst r /\ l_name (f r) = l_name r) -> kframe s (upd_ls i f s).
Proof.
  intros H. constructor; auto; try (intros; auto; fail); [repeat split|].
  intros x _; simpl. apply fupd_cases; intros; subst; auto.
Qed.
Lemma kf_trivial s s' : h_if s' = h_if s -> h_nd s' = h_nd s -> h_sr s' = h_sr s -> h_dm s' = h_dm s -> h_ls s' = h_ls s ->
  same_sets s s' -> s_next s' = s_next s -> kframe s s'.
Proof.
  intros A B C D F G N. constructor; auto; try lia; intros; rewrite ?A, ?B, ?C, ?D, ?F; auto.
Qed.

Ltac rif := intros; apply kf_upd_if; intros []; simpl; auto.
Ltac triv := intros; apply kf_trivial; auto; repeat split.

Lemma kf_validate : pres kframe (validate_model E k).
Proof.
  apply pres_validate_model; try apply HR.
  - intros i f s Hf. apply kf_upd_if. intros r. rewrite (Hf r). auto.
  - intros _ i f s Hf. apply kf_upd_if. intros r. rewrite (Hf r). auto.
  - intros c s. triv.
  - intros i f s Hf. apply kf_upd_if. intros r. rewrite (Hf r). auto.
Qed.

Lemma kf_update : pres kframe (update_simulation E k).
Proof.
  apply pres_update_simulation; try apply HR.
  - intros l f s Hf. apply kf_upd_ls. intros r. rewrite (Hf r). auto.
  - intros l f s Hf. apply kf_upd_ls. intros r. rewrite (Hf r). auto.
  - intros g s. triv.
  - intros g s. triv.
  - intros s. triv.
  - intros i f s Hf. apply kf_upd_if. intros r. rewrite (Hf r). auto.
  - intros i f s Hf. apply kf_upd_if. intros r. rewrite (Hf r). auto.
  - intros _ i f s Hf. apply kf_upd_if. intros r. rewrite (Hf r). auto.
  - intros i f s Hf. apply kf_upd_if. intros r. rewrite (Hf r). auto.
  - intros d f s Hf. apply kf_upd_dm. intros r. rewrite (Hf r). auto.
  - intros d f s Hf. apply kf_upd_dm. intros r. rewrite (Hf r). auto.
Qed.

Lemma kf_set_failed i b : pres kframe (iface_set_failed i b).
Proof. unfold iface_set_failed. repeat pres_step HR; apply pres_modify; rif. Qed.
Lemma kf_node_set_failed n b : pres kframe (node_set_failed n b).
Proof. unfold node_set_failed. repeat pres_step HR; apply pres_modify; intros; apply kf_upd_nd; intros []; auto. Qed.
Lemma kf_res0 i : pres kframe (modify (upd_if i (if_res 0%Q))).
Proof. apply pres_modify; rif. Qed.

Ltac put_tac := constructor; simpl; auto; [repeat split| ..]; intros; try (rewrite fupd_other by lia); auto.
Lemma kf_put_if v s : kframe s (put_if v s). Proof. put_tac. Qed.
Lemma kf_put_nd v s : kframe s (put_nd v s). Proof. put_tac. Qed.
Lemma kf_put_dm v s : kframe s (put_dm v s). Proof. put_tac. Qed.
Lemma kf_put_ls v s : kframe s (put_ls v s). Proof. put_tac. Qed.
Lemma kf_put_sr v s : kframe s (put_sr v s). Proof. put_tac. Qed.

(** *** growing the sets *)
Lemma allocated_parts s : allocated s <->
  (forall x, In x (m_ifs s) -> (x < s_next s)%nat) /\ (forall x, In x (m_nds s) -> (x < s_next s)%nat) /\
  (forall x, In x (m_dms s) -> (x < s_next s)%nat) /\ (forall x, In x (m_lsps s) -> (x < s_next s)%nat) /\
  (forall x, In x (m_srs s) -> (x < s_next s)%nat).
Proof.
  unfold allocated. split.
  - intros H. repeat split; intros x Hx; apply H; rewrite !in_app_iff; tauto.
  - intros (A & B & C & D & F) x Hx. rewrite !in_app_iff in Hx. destruct Hx as [|[|[|[|]]]]; auto.
Qed.

Lemma NoDup_map_snoc {A B} (f : A -> B) l x : NoDup (map f l) -> (forall y, In y l -> f y <> f x) -> NoDup (map f (l ++ [x])).
Proof.
  intros H Hx. rewrite map_app. simpl. apply (Permutation_NoDup (l := f x :: map f l)).
  - apply Permutation_cons_append.
  - constructor; auto. intros C. apply in_map_iff in C as (y & Ey & Hy). apply (Hx y Hy Ey).
Qed.

Lemma kinv_add_dm s d : kinv s -> (d < s_next s)%nat -> (d_src (h_dm s d) < s_next s)%nat -> (d_dst (h_dm s d) < s_next s)%nat ->
  (forall x, In x (m_dms s) -> dmd_key s x <> dmd_key s d) -> kinv (set_dms (m_dms s ++ [d]) s).
Proof.
  intros [(U1 & U2 & U3 & U4 & U5) [Wa Wi Wd Wl]] H1 H2 H3 Hk. apply allocated_parts in Wa as (A1 & A2 & A3 & A4 & A5).
  split.
  - split; [exact U1|]. split; [exact U2|]. split; [|split; [exact U4|exact U5]]. simpl. apply (NoDup_map_snoc (dmd_key s)); auto.
  - constructor; simpl; auto.
    + apply allocated_parts; simpl. repeat split; auto. intros x Hx. apply in_app_or in Hx as [Hx|[<-|[]]]; auto.
    + intros x Hx. apply in_app_or in Hx as [Hx|[<-|[]]]; auto.
Qed.
Lemma kinv_add_ls s d : kinv s -> (d < s_next s)%nat -> (l_src (h_ls s d) < s_next s)%nat -> (l_dst (h_ls s d) < s_next s)%nat ->
  (forall x, In x (m_lsps s) -> lsp_key s x <> lsp_key s d) -> kinv (set_lsps (m_lsps s ++ [d]) s).
Proof.
  intros [(U1 & U2 & U3 & U4 & U5) [Wa Wi Wd Wl]] H1 H2 H3 Hk. apply allocated_parts in Wa as (A1 & A2 & A3 & A4 & A5).
  split.
  - split; [exact U1|]. split; [exact U2|]. split; [exact U3|split; [|exact U5]]. simpl. apply (NoDup_map_snoc (lsp_key s)); auto.
  - constructor; simpl; auto.
    + apply allocated_parts; simpl. repeat split; auto. intros x Hx. apply in_app_or in Hx as [Hx|[<-|[]]]; auto.
    + intros x Hx. apply in_app_or in Hx as [Hx|[<-|[]]]; auto.
Qed.
Lemma kinv_add_if s d : kinv s -> (d < s_next s)%nat -> (i_node (h_if s d) < s_next s)%nat -> (i_rem (h_if s d) < s_next s)%nat ->
  (forall x, In x (m_ifs s) -> if_key s x <> if_key s d) -> kinv (set_ifs (m_ifs s ++ [d]) s).
Proof.
  intros [(U1 & U2 & U3 & U4 & U5) [Wa Wi Wd Wl]] H1 H2 H3 Hk. apply allocated_parts in Wa as (A1 & A2 & A3 & A4 & A5).
  split.
  - split; [|split; [exact U2|split; [exact U3|split; [exact U4|exact U5]]]]. simpl. apply (NoDup_map_snoc (if_key s)); auto.
  - constructor; simpl; auto.
    + apply allocated_parts; simpl. repeat split; auto. intros x Hx. apply in_app_or in Hx as [Hx|[<-|[]]]; auto.
    + intros x Hx. apply in_app_or in Hx as [Hx|[<-|[]]]; auto.
Qed.
Lemma kinv_add_nd s d : kinv s -> (d < s_next s)%nat ->
  (forall x, In x (m_nds s) -> nd_name s x <> nd_name s d) -> kinv (set_nds (m_nds s ++ [d]) s).
Proof.
  intros [(U1 & U2 & U3 & U4 & U5) [Wa Wi Wd Wl]] H1 Hk. apply allocated_parts in Wa as (A1 & A2 & A3 & A4 & A5).
  split.
  - split; [exact U1|split; [|split; [exact U3|split; [exact U4|exact U5]]]]. simpl. apply (NoDup_map_snoc (nd_name s)); auto.
  - constructor; simpl; auto.
    apply allocated_parts; simpl. repeat split; auto. intros x Hx. apply in_app_or in Hx as [Hx|[<-|[]]]; auto.
Qed.
Lemma kinv_add_sr s d : kinv s -> (d < s_next s)%nat ->
  (forall x, In x (m_srs s) -> srlg_name s x <> srlg_name s d) -> kinv (set_srs (m_srs s ++ [d]) s).
Proof.
  intros [(U1 & U2 & U3 & U4 & U5) [Wa Wi Wd Wl]] H1 Hk. apply allocated_parts in Wa as (A1 & A2 & A3 & A4 & A5).
  split.
  - split; [exact U1|split; [exact U2|split; [exact U3|split; [exact U4|]]]]. simpl. apply (NoDup_map_snoc (srlg_name s)); auto.
  - constructor; simpl; auto.
    apply allocated_parts; simpl. repeat split; auto. intros x Hx. apply in_app_or in Hx as [Hx|[<-|[]]]; auto.
Qed.

Lemma set_srs_same s : set_srs (m_srs s) s = s. Proof. destruct s; reflexivity. Qed.
Lemma set_ifs_same s : set_ifs (m_ifs s) s = s. Proof. destruct s; reflexivity. Qed.

Let K := keeps kinv.
Let HK := keeps_preorder kinv.
Lemma K_frame {A} (m : M A) : pres kframe m -> pres K m.
Proof. intros H s Hs. eapply kframe_kinv; [apply (H s)|auto]. Qed.

(** srlg_new followed by the repeated insertion *)
Lemma srlg_new_run name s : srlg_new name s =
  if mem_str name (map (fun g => sr_name (h_sr s g)) (m_srs s)) then (s, Err (ModelException "SRLG already exists in Model"))
  else (set_srs (set_add_ref (s_next s) (m_srs s)) (put_sr (mkSrlg name false) s), Ok (s_next s)).
Proof. unfold srlg_new. rewrite bind_gets. destruct (mem_str _ _); reflexivity. Qed.

Lemma srlg_new_kinv name s s' r : kinv s -> srlg_new name s = (s', r) ->
  kinv s' /\ (forall g, r = Ok g -> In g (m_srs s')).
Proof.
  intros HI H. rewrite srlg_new_run in H. destruct (mem_str name _) eqn:X.
  - injection H as <- <-. split; auto. discriminate.
  - injection H as <- <-.
    assert (Fr : ~ In (s_next s) (m_srs s)) by (apply fresh_nin, alloc_srs; apply HI).
    assert (KI : kinv (put_sr (mkSrlg name false) s)) by (eapply kframe_kinv; [apply kf_put_sr|auto]).
    split.
    + rewrite set_add_ref_fresh by auto. apply (kinv_add_sr (put_sr (mkSrlg name false) s)); simpl; auto.
      intros x Hx C. unfold srlg_name, put_sr in C. simpl in C. rewrite fupd_same in C.
      rewrite fupd_other in C by (intros D; subst; auto). simpl in C.
      assert (mem_str name (map (fun g => sr_name (h_sr s g)) (m_srs s)) = true); [|congruence].
      apply mem_str_In. apply in_map_iff. exists x; auto.
    + intros g Hg. injection Hg as <-. simpl. rewrite set_add_ref_fresh by auto. apply in_or_app. right; left; auto.
Qed.


Lemma K_srlg_add_again {B} name (g : nat -> M B) : (forall x, pres K (g x)) ->
  pres K (bind (srlg_new name) (fun x => bind (modify (fun s => set_srs (set_add_ref x (m_srs s)) s)) (fun _ => g x))).
Proof.
  intros Hg s HI. unfold bind at 1. destruct (srlg_new name s) as [s' [x|e]] eqn:H; apply srlg_new_kinv in H as [H1 H2]; auto.
  rewrite bind_modify. unfold set_add_ref. specialize (H2 x eq_refl). apply mem_nat_In in H2. rewrite H2.
  rewrite set_srs_same. apply Hg; auto.
Qed.

Lemma K_add_demand src dst t name : pres K (add_demand E k src dst t name).
Proof.
  intros s HI. destruct (add_demand E k src dst t name s) as [s' r] eqn:H. simpl.
  apply add_demand_run in H as [(e & -> & -> & _)|[(_ & -> & -> & _)|(a & b & Ga & Gb & Ht & H)]]; auto.
  assert (Gsrc := get_node_spec s src). assert (Gdst := get_node_spec s dst). rewrite Ga in Gsrc. rewrite Gb in Gdst.
  cbv zeta in H. set (s1 := put_dm _ s) in H.
  assert (K1 : kinv s1) by (eapply kframe_kinv; [apply kf_put_dm|auto]).
  destruct H as [(X & He & ->)|(X & Hv)]; auto.
  apply (pres_run _ _ _ _ _ kf_validate) in Hv. eapply kframe_kinv; [exact Hv|].
  assert (W : wf_refs s) by apply HI.
  rewrite set_add_ref_fresh by (apply fresh_nin, alloc_dms, W).
  assert (N1 : s_next s1 = S (s_next s)) by reflexivity.
  assert (V1 : h_dm s1 (s_next s) = mkDemand a b t name DUnrouted PDInitial) by apply fupd_same.
  apply (kinv_add_dm s1); rewrite ?V1, ?N1; simpl; [exact K1| | | |].
  - lia.
  - destruct Gsrc as [Gs _]. apply alloc_nds in Gs; [lia|apply W].
  - destruct Gdst as [Gs _]. apply alloc_nds in Gs; [lia|apply W].
  - intros x Hx C. match type of X with ?t = false => assert (t = true); [|congruence] end.
    apply existsb_exists. exists x. split; auto. apply key3_eqb_eq. exact C.
Qed.

Lemma K_add_lsp src dst name : pres K (add_rsvp_lsp E k src dst name).
Proof.
  intros s HI. destruct (add_rsvp_lsp E k src dst name s) as [s' r] eqn:H. simpl.
  assert (W : wf_refs s) by apply HI.
  assert (Gsrc := get_node_spec s src). assert (Gdst := get_node_spec s dst).
  unfold add_rsvp_lsp in H. rewrite bind_reads in H. destruct (get_node s src) as [a|e]; [|injection H as <- <-; auto].
  rewrite bind_reads in H. destruct (get_node s dst) as [b|e]; [|injection H as <- <-; auto].
  unfold lsp_new in H. unfold bind at 1 2 3, gets at 1, modify at 1, ret at 1 in H. rewrite bind_gets in H.
  fold (put_ls (mkLsp a b name PInit RInit RInit None None None) s) in H. set (s1 := put_ls _ s) in H.
  assert (K1 : kinv s1) by (eapply kframe_kinv; [apply kf_put_ls|auto]).
  match type of H with context [existsb ?f ?l] => destruct (existsb f l) eqn:X end.
  - injection H as <- <-. auto.
  - rewrite bind_modify in H. apply (pres_run _ _ _ _ _ kf_validate) in H. eapply kframe_kinv; [exact H|].
    change (m_lsps s1) with (m_lsps s).
    rewrite set_add_ref_fresh by (apply fresh_nin, alloc_lsps, W).
    assert (N1 : s_next s1 = S (s_next s)) by reflexivity.
    assert (V1 : h_ls s1 (s_next s) = mkLsp a b name PInit RInit RInit None None None) by apply fupd_same.
    apply (kinv_add_ls s1); rewrite ?V1, ?N1; simpl; [exact K1| | | |].
    + lia.
    + destruct Gsrc as [Gs _]. apply alloc_nds in Gs; [lia|apply W].
    + destruct Gdst as [Gs _]. apply alloc_nds in Gs; [lia|apply W].
    + intros x Hx C. match type of X with ?t = false => assert (t = true); [|congruence] end.
      apply existsb_exists. exists x. split; auto. apply key3_eqb_eq. exact C.
Qed.

Lemma K_add_node n s : (n < s_next s)%nat -> kinv s -> kinv (fst (add_node E k n s)).
Proof.
  intros Hn HI. unfold add_node. rewrite bind_gets. destruct (mem_str _ _) eqn:X; [exact HI|].
  rewrite bind_modify. eapply kframe_kinv; [apply kf_validate|].
  assert (Hk : forall x, In x (m_nds s) -> nd_name s x <> nd_name s n).
  { intros x Hx C. assert (mem_str (n_name (h_nd s n)) (node_names s) = true); [|congruence].
    apply mem_str_In. unfold node_names. apply in_map_iff. exists x. auto. }
  unfold set_add_nd. destruct (mem_nd s n (m_nds s)) eqn:Y.
  - destruct s; exact HI.
  - apply kinv_add_nd; auto.
Qed.

Lemma K_add_circuit a b na nb ca cb cap c s :
  (a < s_next s)%nat -> (b < s_next s)%nat -> ((na, nd_name s a) = (nb, nd_name s b) -> a = b) ->
  kinv s -> kinv (fst (add_circuit E k a b na nb ca cb cap c s)).
Proof.
  intros Ha Hb Hab HI. destruct (add_circuit E k a b na nb ca cb cap c s) as [s' r] eqn:H. simpl.
  unfold add_circuit in H. apply bind_inv in H as [(sa & c' & Hc & H)|(e & Hc & ->)].
  2: { assert (s' = s); [|subst; auto]. destruct k; destruct c; simpl in Hc;
       unfold bind, gets, reads, raise, ret in Hc; try (destruct (existsb _ _)); try discriminate; injection Hc as <- _; auto. }
  assert (sa = s). { destruct k; destruct c; simpl in Hc;
       unfold bind, gets, reads, raise, ret in Hc; try (destruct (existsb _ _)); try discriminate; try (injection Hc as <- _; auto; fail). }
  subst sa. clear Hc.
  apply bind_inv in H as [(sb & ia & H1 & H)|(e & H1 & ->)].
  2: { apply iface_new_run in H1 as [(_ & -> & _)|(_ & _ & Hx & _)]; [auto|discriminate]. }
  apply iface_new_run in H1 as [(_ & _ & e' & He & _)|(Hca & Hcap & Hia & ->)]; [discriminate|].
  injection Hia as ->. set (va := mkIface na ca cap a b c' _ _ _ _ _ _ _) in *. set (s2 := put_if va s) in *.
  assert (K2 : kinv s2) by (eapply kframe_kinv; [apply kf_put_if|auto]).
  apply bind_inv in H as [(sb & ib & H1 & H)|(e & H1 & ->)].
  2: { apply iface_new_run in H1 as [(_ & -> & _)|(_ & _ & Hx & _)]; [auto|discriminate]. }
  apply iface_new_run in H1 as [(_ & _ & e' & He & _)|(Hcb & _ & Hib & ->)]; [discriminate|].
  injection Hib as ->. set (vb := mkIface nb cb cap b a c' _ _ _ _ _ _ _) in *.
  change (s_next s2) with (S (s_next s)) in *. set (s3 := put_if vb s2) in *.
  assert (K3 : kinv s3) by (eapply kframe_kinv; [apply kf_put_if|auto]).
  rewrite bind_gets in H; rewrite bind_gets in H.
  destruct (has_ikey s3 (ikey s3 (s_next s))) eqn:Ua; [injection H as <- <-; auto|].
  destruct (has_ikey s3 (ikey s3 (S (s_next s)))) eqn:Ub; [injection H as <- <-; auto|].
  change (false || false)%bool with false in H. cbv iota in H.
  rewrite bind_modify, bind_modify in H. cbv beta in H.
  assert (Na : forall x, In x (m_ifs s3) -> if_key s3 x <> if_key s3 (s_next s)).
  { intros x Hx C. assert (has_ikey s3 (ikey s3 (s_next s)) = true); [|congruence]. unfold has_ikey. apply existsb_exists.
    exists x. split; auto. apply key2_eqb_eq. exact C. }
  assert (Nb : forall x, In x (m_ifs s3) -> if_key s3 x <> if_key s3 (S (s_next s))).
  { intros x Hx C. assert (has_ikey s3 (ikey s3 (S (s_next s))) = true); [|congruence]. unfold has_ikey. apply existsb_exists.
    exists x. split; auto. apply key2_eqb_eq. exact C. }
  assert (Hia3 : h_if s3 (s_next s) = va).
  { unfold s3, put_if; simpl. rewrite fupd_other by lia. unfold s2, put_if; simpl. apply fupd_same. }
  assert (Hib3 : h_if s3 (S (s_next s)) = vb).
  { unfold s3, put_if; simpl. apply fupd_same. }
  rewrite (set_add_if_new s3 (s_next s) (m_ifs s3)) in H by auto.
  set (s4 := set_ifs (m_ifs s3 ++ [s_next s]) s3) in *.
  assert (K4 : kinv s4).
  { assert (N3 : s_next s3 = S (S (s_next s))) by reflexivity.
    apply kinv_add_if; auto; try rewrite Hia3; rewrite N3; simpl; lia. }
  apply (pres_run _ _ _ _ _ kf_validate) in H. eapply kframe_kinv; [exact H|].
  unfold set_add_if. destruct (mem_if s4 (S (s_next s)) (m_ifs s4)) eqn:Y; [rewrite set_ifs_same; auto|].
  apply (kinv_add_if s4); auto.
  - change (i_node (h_if s3 (S (s_next s))) < S (S (s_next s)))%nat. rewrite Hib3; simpl; lia.
  - change (i_rem (h_if s3 (S (s_next s))) < S (S (s_next s)))%nat. rewrite Hib3; simpl; lia.
  - intros x Hx. change (if_key s3 x <> if_key s3 (S (s_next s))).
    change (In x (m_ifs s3 ++ [s_next s])) in Hx. apply in_app_or in Hx as [Hx|[<-|[]]]; auto.
    unfold if_key, loc. rewrite Hia3, Hib3. simpl. intros C. specialize (Hab C). subst b.
    assert (Eab : mem_if s4 (S (s_next s)) (m_ifs s4) = true); [|congruence].
    unfold mem_if. apply existsb_exists. exists (s_next s). split; [simpl; apply in_or_app; right; left; auto|].
    unfold iface_eqb. change (h_if s4) with (h_if s3). rewrite Hia3, Hib3. simpl. rewrite !node_eqb_refl. simpl.
    injection C as C. subst nb. rewrite String.eqb_refl. unfold Qeqb. rewrite (proj2 (Qeq_bool_iff cap cap)) by reflexivity.
    rewrite cid_eqb_refl. apply orb_true_r.
Qed.

Lemma keys_op o s : valid_op o s -> kinv s -> kinv (fst (run_op E k o s)).
Proof.
  intros V HI.
  assert (Fr : forall (m : M unit), pres kframe m -> kinv (fst (m s))).
  { intros m Hm. eapply kframe_kinv; [apply Hm|auto]. }
  destruct o; simpl in V |- *; unfold discard; try contradiction.
  - apply Fr, kf_update.
  - apply Fr, kf_validate.
  - apply Fr, (pres_fail_interface _ HR), kf_set_failed.
  - apply Fr, (pres_unfail_interface E k _ HR); auto using kf_set_failed, kf_res0, kf_validate.
  - apply Fr, (pres_fail_node _ HR); auto using kf_set_failed, kf_node_set_failed.
  - apply Fr, (pres_unfail_node E k _ HR); auto using kf_set_failed, kf_res0, kf_validate, kf_node_set_failed.
  - apply Fr, (pres_fail_srlg _ HR); auto using kf_set_failed, kf_node_set_failed. intros; apply pres_modify; intros; apply kf_upd_sr; intros []; auto.
  - apply Fr, (pres_unfail_srlg E k _ HR); auto using kf_set_failed, kf_res0, kf_validate, kf_node_set_failed. intros; apply kf_upd_sr; intros []; auto.
  - unfold add_srlg. rewrite bind_gets. destruct (mem_str _ _); [exact HI|].
    apply (K_srlg_add_again n (fun _ => ret tt) (fun _ => pres_ret _ HK tt) s HI).
  - apply (fun H : pres K _ => H s HI). unfold iface_add_to_srlg. apply (pres_bind_gets K). intros s0.
    match goal with |- K s0 (fst (?m s0)) => apply (fun H : pres K m => H s0) end.
    destruct (get_srlg s0 n).
    + apply K_frame. repeat pres_step HR; apply pres_modify; rif.
    + destruct create; [|apply (pres_raise _ HK)].
      apply K_srlg_add_again. intros x. apply K_frame. repeat pres_step HR; apply pres_modify; rif.
  - apply Fr. unfold iface_remove_from_srlg. repeat (first [pres_step HR | apply kf_set_failed]); apply pres_modify; rif.
  - apply (fun H : pres K _ => H s HI). unfold node_add_to_srlg. apply (pres_bind_gets K). intros s0.
    match goal with |- K s0 (fst (?m s0)) => apply (fun H : pres K m => H s0) end.
    destruct (get_srlg s0 n).
    + apply K_frame. apply pres_modify; intros; apply kf_upd_nd; intros []; auto.
    + destruct create; [|apply (pres_raise _ HK)].
      apply K_srlg_add_again. intros x. apply K_frame. apply pres_modify; intros; apply kf_upd_nd; intros []; auto.
  - apply Fr. unfold node_remove_from_srlg. repeat (first [pres_step HR | apply kf_node_set_failed]); apply pres_modify; intros; apply kf_upd_nd; intros []; auto.
  - eapply kframe_kinv; [apply (kf_put_nd (mkNode n false 0 0 [] false))|exact HI].
  - apply K_add_node; auto.
  - apply (K_add_demand src dst traffic name s HI).
  - apply (K_add_lsp src dst name s HI).
  - destruct V as (V1 & V2 & V3). apply K_add_circuit; auto.
  - apply Fr, (pres_set_manual_metric _ HR). intros x f s0 Hf. apply kf_upd_ls. intros r. rewrite (Hf r). auto.
  - apply Fr. unfold iface_set_cost. repeat pres_step HR. apply pres_modify; rif.
  - apply Fr. unfold iface_set_capacity. repeat pres_step HR. apply pres_modify; rif.
  - apply Fr, (pres_iface_fail _ HR), kf_set_failed.
  - apply Fr, (pres_iface_unfail _ HR), kf_set_failed.
  - apply Fr, kf_set_failed.
  - apply Fr, kf_node_set_failed.
  - apply Fr. repeat pres_step HR. apply (pres_traffic_on_lsp E k _ HR).
    + intros x f s0 Hf. apply kf_upd_ls. intros r. rewrite (Hf r). auto.
    + intros g s0. triv.
  - apply Fr. repeat pres_step HR. apply (pres_effective_metric E k _ HR).
    intros x f s0 Hf. apply kf_upd_ls. intros r. rewrite (Hf r). auto.
Qed.

Lemma keys_history l : forall s, valid_hist E k l s -> kinv s -> kinv (run_ops E k l s).
Proof.
  induction l as [|o l IH]; simpl; intros s V HI; auto.
  destruct V as [V1 V2]. apply IH; auto. apply keys_op; auto.
Qed.
End Keys.

Lemma kinv_init : kinv init_st.
Proof.
  split; [|constructor; simpl; try (intros ? []; fail)].
  repeat split; simpl; constructor.
Qed.
