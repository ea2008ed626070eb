(** OwnApi.v - which objects any history of calls can change. *)
From Verif Require Import Base Graph Objects Sim Api Spec SpecOwn SpecMetric SpecFresh SpecWhatIf GraphProofs MonadProofs ObjProofs RouteProofs QuietProofs WhatIf OwnProofs.

Lemma within_refl s : within s s.
Proof. constructor; auto. repeat split; auto. Qed.
Lemma within_touched gi gn gl s t : within s t -> touched gi gn gl s t.
Proof.
  intros [(A1 & A2 & A3 & A4 & A5) B1 B2 B3 B4 B5 N]. constructor; rewrite ?A1, ?A2, ?A3, ?A4, ?A5; auto using incl_refl. rewrite N; auto.
Qed.
Lemma touched_refl gi gn gl s : touched gi gn gl s s.
Proof. apply within_touched. apply within_refl. Qed.
Lemma touched_trans gi gn gl s t u : touched gi gn gl s t -> touched gi gn gl t u -> touched gi gn gl s u.
Proof.
  intros [A1 [A2 A2'] [A3 A3'] [A4 A4'] [A5 A5'] [A6 A6'] A7 A8 A9 A10 A11] [B1 [B2 B2'] [B3 B3'] [B4 B4'] [B5 B5'] [B6 B6'] B7 B8 B9 B10 B11].
  assert (L : forall (P : nat -> Prop) x, (P x \/ (s_next s <= x)%nat) \/ (s_next t <= x)%nat -> P x \/ (s_next s <= x)%nat).
  { intros P x [[H|H]|H]; auto; right; lia. }
  constructor.
  - lia.
  - split; [eauto using incl_tran|]. intros x Hx. apply (L (fun x => In x (m_ifs s))). destruct (B2' x Hx); auto.
  - split; [eauto using incl_tran|]. intros x Hx. destruct (B3' x Hx) as [H|[H|H]]; [now apply A3'|right; left; lia|auto].
  - split; [eauto using incl_tran|]. intros x Hx. apply (L (fun x => In x (m_dms s))). destruct (B4' x Hx); auto.
  - split; [eauto using incl_tran|]. intros x Hx. apply (L (fun x => In x (m_lsps s))). destruct (B5' x Hx); auto.
  - split; [eauto using incl_tran|]. intros x Hx. apply (L (fun x => In x (m_srs s))). destruct (B6' x Hx); auto.
  - intros x H N G. rewrite B7, A7; auto; try lia. intros X. destruct (A2' x X); auto; lia.
  - intros x H N G. rewrite B8, A8; auto; try lia. intros X. destruct (A3' x X) as [Y|[Y|Y]]; auto; lia.
  - intros x H N. rewrite B9, A9; auto; try lia. intros X. destruct (A4' x X); auto; lia.
  - intros x H N G. rewrite B10, A10; auto; try lia. intros X. destruct (A5' x X); auto; lia.
  - intros x H N. rewrite B11, A11; auto; try lia. intros X. destruct (A6' x X); auto; lia.
Qed.

Section Touch.
Variable E : env.
Variable k : kind.
Variables gi gn gl : list nat.
Variable s0 : st.
Definition tj (s : st) : Prop := touched gi gn gl s0 s /\ own_groups s.
Notation K m := (keeps tj m (fun _ => True)).

Lemma tj_step s t : tj s -> touched gi gn gl s t -> own_groups t -> tj t.
Proof. intros [A _] B G. split; auto. eapply touched_trans; eauto. Qed.
Ltac keep := constructor; simpl; auto using incl_refl.
Ltac other := let x := fresh in intros x; intros; rewrite fupd_other; auto; intros ->; intuition.
Lemma tj_if i f s : In i (m_ifs s) \/ In i gi -> tj s -> tj (upd_if i f s).
Proof. intros H J. apply tj_step with s; auto; [|apply J]. keep. other. Qed.
Lemma tj_nd i f s : In i (m_nds s) \/ In i gn -> tj s -> tj (upd_nd i f s).
Proof. intros H J. apply tj_step with s; auto; [|apply J]. keep. other. Qed.
Lemma tj_ls i f s : In i (m_lsps s) \/ In i gl -> tj s -> tj (upd_ls i f s).
Proof. intros H J. apply tj_step with s; auto; [|apply J]. keep. other. Qed.

(** calls made within the model's own objects *)
Lemma wg_closed s : closed s (fun t => within s t /\ own_groups t).
Proof.
  pose proof (within_closed s) as W. constructor.
  - intros t [X _]; auto.
  - intros i f t Hi [X Y]. split; [now apply (cj_if _ _ W)|exact Y].
  - intros i b t Hi [X Y]. split; [now apply (cj_nd _ _ W)|exact Y].
  - intros i f t Hi [X Y]. split; [now apply (cj_sr _ _ W)|exact Y].
  - intros i f t Hi Hf Hm [X Y]. split; [now apply (cj_ls _ _ W)|exact Y].
  - intros cs t Hc [X Y]. split; [now apply (cj_ck _ _ W)|exact Y].
  - intros t [X Y]. split; [now apply (cj_rn _ _ W)|exact Y].
  - intros g t Hg [X Y]. split; [now apply (cj_gr _ _ W)|]. intros key ls l X1 X2. simpl. rewrite (k_lsps s _ W t X). eapply Hg; eauto.
Qed.
Lemma tj_wg {A} (m : M A) : (forall s, keeps (fun t => within s t /\ own_groups t) m (fun _ => True)) -> K m.
Proof.
  intros H s J. split; auto. destruct (H s s) as [[X Y] _]; [split; [apply within_refl|apply J]|]. apply tj_step with s; auto. now apply within_touched.
Qed.
Lemma tj_closed {A} (m : M A) : (forall s J, closed s J -> keeps J m (fun _ => True)) -> K m.
Proof.
  intros H. apply tj_wg. intros s. apply H with s. apply wg_closed.
Qed.

(** *** creating objects *)
Lemma tj_next s : tj s -> (s_next s0 <= s_next s)%nat.
Proof. intros [H _]. apply (tc_next _ _ _ _ _ H). Qed.
Ltac put := match goal with J : tj ?s |- tj _ => apply tj_step with s; auto; [|apply J] end; constructor; simpl; auto using incl_refl;
  let x := fresh in intros x; intros; rewrite fupd_other; auto; lia.
Lemma tj_put_if v s : tj s -> tj (bump_next (upd_if (s_next s) (fun _ => v) s)). Proof. intros J. put. Qed.
Lemma tj_put_nd v s : tj s -> tj (bump_next (upd_nd (s_next s) (fun _ => v) s)). Proof. intros J. put. Qed.
Lemma tj_put_dm v s : tj s -> tj (bump_next (upd_dm (s_next s) (fun _ => v) s)). Proof. intros J. put. Qed.
Lemma tj_put_ls v s : tj s -> tj (bump_next (upd_ls (s_next s) (fun _ => v) s)). Proof. intros J. put. Qed.
Lemma tj_put_sr v s : tj s -> tj (bump_next (upd_sr (s_next s) (fun _ => v) s)). Proof. intros J. put. Qed.
Notation new x := (s_next s0 <= x)%nat.
Notation KN m := (keeps tj m (fun x => new x)).
Lemma k_put {v : Type} (upd : nat -> st -> st) : (forall s, tj s -> tj (upd (s_next s) s)) -> KN (i <- gets s_next ;; modify (upd i) ;;; ret i).
Proof. intros H s J. rewrite bind_gets, bind_modify. split; [now apply H|]. intros a X. injection X as <-. now apply tj_next. Qed.
Lemma k_iface_new a b c d e f g h : KN (iface_new a b c d e f g h).
Proof. unfold iface_new. kstep; [apply keeps_raise|]. kstep; [apply keeps_raise|]. apply (@k_put unit (fun i s => bump_next (upd_if i _ s))). apply tj_put_if. Qed.
Lemma k_node_new a : KN (node_new a).
Proof. apply (@k_put unit (fun i s => bump_next (upd_nd i _ s))). apply tj_put_nd. Qed.
Lemma k_demand_new a b c d : KN (demand_new a b c d).
Proof. unfold demand_new. kstep; [apply keeps_raise|]. apply (@k_put unit (fun i s => bump_next (upd_dm i _ s))). apply tj_put_dm. Qed.
Lemma k_lsp_new a b c d e : KN (lsp_new a b c d e).
Proof. apply (@k_put unit (fun i s => bump_next (upd_ls i _ s))). apply tj_put_ls. Qed.

(** *** adding them to the model *)
Lemma in_add_ref x l y : In y (set_add_ref x l) <-> In y l \/ y = x.
Proof. unfold set_add_ref. destruct (mem_nat x l) eqn:M; [apply mem_nat_In in M; split; auto; intros [H | ->]; auto|]. rewrite in_app_iff. simpl. intuition. Qed.
Lemma in_add_if s x l y : In y (set_add_if s x l) -> In y l \/ y = x.
Proof. unfold set_add_if. destruct (mem_if s x l); auto. rewrite in_app_iff. simpl. intuition. Qed.
Lemma inc_add_if s x l : incl l (set_add_if s x l).
Proof. unfold set_add_if. destruct (mem_if s x l); intros y Hy; auto. apply in_or_app; auto. Qed.
Lemma in_add_nd s x l y : In y (set_add_nd s x l) -> In y l \/ y = x.
Proof. unfold set_add_nd. destruct (mem_nd s x l); auto. rewrite in_app_iff. simpl. intuition. Qed.
Lemma inc_add_nd s x l : incl l (set_add_nd s x l).
Proof. unfold set_add_nd. destruct (mem_nd s x l); intros y Hy; auto. apply in_or_app; auto. Qed.

Lemma tj_set_ifs l s : (forall x, In x l -> In x (m_ifs s) \/ new x) -> incl (m_ifs s) l -> tj s -> tj (set_ifs l s).
Proof.
  intros H I0 [[A1 [A2 A2'] [A3 A3'] [A4 A4'] [A5 A5'] [A6 A6'] A7 A8 A9 A10 A11] G]. split; [|exact G]. constructor; simpl; auto.
  split; [eauto using incl_tran|]. intros x Hx. destruct (H x Hx); auto.
Qed.
Lemma tj_set_nds l s : (forall x, In x l -> In x (m_nds s) \/ new x \/ In x gn) -> incl (m_nds s) l -> tj s -> tj (set_nds l s).
Proof.
  intros H I0 [[A1 [A2 A2'] [A3 A3'] [A4 A4'] [A5 A5'] [A6 A6'] A7 A8 A9 A10 A11] G]. split; [|exact G]. constructor; simpl; auto.
  split; [eauto using incl_tran|]. intros x Hx. destruct (H x Hx); auto.
Qed.
Lemma tj_set_dms x s : new x -> tj s -> tj (set_dms (set_add_ref x (m_dms s)) s).
Proof.
  intros H [[A1 [A2 A2'] [A3 A3'] [A4 A4'] [A5 A5'] [A6 A6'] A7 A8 A9 A10 A11] G]. split; [|exact G]. constructor; simpl; auto. split.
  - intros y Hy. apply in_add_ref. auto.
  - intros y Hy. apply in_add_ref in Hy as [Hy | ->]; auto.
Qed.
Lemma tj_set_lsps x s : new x -> tj s -> tj (set_lsps (set_add_ref x (m_lsps s)) s).
Proof.
  intros H [[A1 [A2 A2'] [A3 A3'] [A4 A4'] [A5 A5'] [A6 A6'] A7 A8 A9 A10 A11] G]. split; [constructor; simpl; auto; split|].
  - intros y Hy. apply in_add_ref. auto.
  - intros y Hy. apply in_add_ref in Hy as [Hy | ->]; auto.
  - intros key ls l X Y. simpl. apply in_add_ref. left. eapply G; eauto.
Qed.
Lemma tj_set_srs x s : new x -> tj s -> tj (set_srs (set_add_ref x (m_srs s)) s).
Proof.
  intros H [[A1 [A2 A2'] [A3 A3'] [A4 A4'] [A5 A5'] [A6 A6'] A7 A8 A9 A10 A11] G]. split; [|exact G]. constructor; simpl; auto. split.
  - intros y Hy. apply in_add_ref. auto.
  - intros y Hy. apply in_add_ref in Hy as [Hy | ->]; auto.
Qed.
Lemma k_srlg_new a : KN (srlg_new a).
Proof.
  unfold srlg_new. kstep. kstep; [apply keeps_raise|]. intros s J. rewrite bind_gets, !bind_modify. pose proof (tj_next s J). split.
  - apply (tj_set_srs (s_next s) (bump_next (upd_sr (s_next s) _ s))); auto. now apply tj_put_sr.
  - intros b X. injection X as <-. auto.
Qed.

(** *** the calls *)
Lemma t_validate : K (validate_model E k).
Proof. apply tj_closed. intros. eapply k_validate; eassumption. Qed.
Lemma t_add_srlg n : K (add_srlg n).
Proof. unfold add_srlg. kstep. kstep; [apply keeps_raise|]. eapply keeps_bind; [apply k_srlg_new|]. intros g Hg. kstep. now apply tj_set_srs. Qed.
Lemma t_add_node n : In n gn -> K (add_node E k n).
Proof.
  intros H. unfold add_node. kstep. kstep; [apply keeps_raise|]. kstep; [|apply t_validate]. apply tj_set_nds; auto; [|apply inc_add_nd].
  intros y Hy. apply in_add_nd in Hy as [Hy | ->]; auto.
Qed.
Lemma t_add_demand a b c d : K (add_demand E k a b c d).
Proof. unfold add_demand. kstep. kstep. eapply keeps_bind; [apply k_demand_new|]. intros y Hy. kstep. kstep; [apply keeps_raise|]. kstep; [now apply tj_set_dms|apply t_validate]. Qed.
Lemma t_add_lsp a b c : K (add_rsvp_lsp E k a b c).
Proof. unfold add_rsvp_lsp. kstep. kstep. eapply keeps_bind; [apply k_lsp_new|]. intros y Hy. kstep. kstep; [apply keeps_raise|]. kstep; [now apply tj_set_lsps|apply t_validate]. Qed.
Lemma t_add_circuit a b na nb ca cb cap c : K (add_circuit E k a b na nb ca cb cap c).
Proof.
  unfold add_circuit. eapply keeps_bind with (Q := fun _ => True).
  { destruct k, c; kgo; eapply keeps_any; apply keeps_reads. }
  intros c' _. eapply keeps_bind; [apply k_iface_new|]. intros x Hx. eapply keeps_bind; [apply k_iface_new|]. intros y Hy. kstep. kstep. kstep; [apply keeps_raise|].
  kstep; [apply tj_set_ifs; auto; [intros z Hz; apply in_add_if in Hz as [Hz | ->]; auto|apply inc_add_if]|].
  kstep; [apply tj_set_ifs; auto; [intros z Hz; apply in_add_if in Hz as [Hz | ->]; auto|apply inc_add_if]|]. apply t_validate.
Qed.
Lemma t_make l : forall ifs nds, (forall i, In i ifs -> new i) -> (forall n, In n nds -> new n) ->
  keeps tj (make_network_interfaces l ifs nds) (fun r => (forall i, In i (fst r) -> new i) /\ (forall n, In n (snd r) -> new n)).
Proof.
  assert (N : forall nds, (forall n, In n nds -> new n) -> forall nm names, keeps tj (if mem_str nm names then ret nds else n <- node_new nm ;; gets (fun s => set_add_nd s n nds)) (fun r => forall n, In n r -> new n)).
  { intros nds H nm names. kstep; [now apply keeps_ret|]. eapply keeps_bind; [apply k_node_new|]. intros n Hn. kstep. intros y Hy. apply in_add_nd in Hy as [Hy | ->]; auto. }
  induction l as [|x l IH]; simpl; intros ifs nds Hi Hn; [now apply keeps_ret|].
  eapply keeps_bind; [apply k_node_new|]. intros a _. eapply keeps_bind; [apply k_node_new|]. intros b _. eapply keeps_bind; [apply k_iface_new|]. intros i Hnew. kstep. kstep.
  eapply keeps_bind; [now apply N|]. intros nds1 H1. eapply keeps_bind; [now apply N|]. intros nds2 H2. apply IH; auto. intros y Hy. apply in_add_if in Hy as [Hy | ->]; auto.
Qed.
Lemma t_add_interfaces l : K (add_network_interfaces E k l).
Proof.
  unfold add_network_interfaces. eapply keeps_bind; [apply t_make; intros x []|]. intros [ifs nds] [Hi Hn]. simpl in *.
  kstep; [|kstep; [|apply t_validate]].
  - apply tj_set_nds; auto.
    + intros x Hx. assert (X : forall l acc, In x (fold_left (fun acc n => set_add_nd s n acc) l acc) -> In x acc \/ In x l).
      { induction l0 as [|n l0 IH]; simpl; intros acc Y; auto. apply IH in Y as [Y|Y]; auto. apply in_add_nd in Y as [Y | ->]; auto. }
      apply X in Hx as [Hx|Hx]; auto.
    + assert (X : forall l acc, incl acc (fold_left (fun acc n => set_add_nd s n acc) l acc)).
      { induction l0 as [|n l0 IH]; simpl; intros acc; [apply incl_refl|]. eapply incl_tran; [apply inc_add_nd|apply IH]. }
      apply X.
  - apply tj_set_ifs; auto.
    + intros x Hx. assert (X : forall l acc, In x (fold_left (fun acc n => set_add_if s n acc) l acc) -> In x acc \/ In x l).
      { induction l0 as [|n l0 IH]; simpl; intros acc Y; auto. apply IH in Y as [Y|Y]; auto. apply in_add_if in Y as [Y | ->]; auto. }
      apply X in Hx as [Hx|Hx]; auto.
    + assert (X : forall l acc, incl acc (fold_left (fun acc n => set_add_if s n acc) l acc)).
      { induction l0 as [|n l0 IH]; simpl; intros acc; [apply incl_refl|]. eapply incl_tran; [apply inc_add_if|apply IH]. }
      apply X.
Qed.

Lemma own_remote s i j : get_remote_interface s i = Ok j -> In j (m_ifs s).
Proof. intros X. exact (in_get_remote s (within s) (within_closed s) s i j (within_refl s) X). Qed.
(** an update of the interface that a look-up in the current state returned *)
Lemma t_remote1 i (f : nat -> iface -> iface) : K (j <- reads (fun s => get_remote_interface s i) ;; modify (upd_if j (f j))).
Proof.
  intros s J. rewrite bind_reads. destruct (get_remote_interface s i) as [j|e] eqn:G; [|split; auto]. split; auto. apply tj_if; auto. left. now apply own_remote in G.
Qed.
Lemma t_set_failed i b : In i gi -> K (iface_set_failed i b).
Proof. intros H. unfold iface_set_failed. kgo; apply tj_if; auto. Qed.
Lemma t_nd_set_failed n b : In n gn -> K (node_set_failed n b).
Proof. intros H. unfold node_set_failed. kgo; apply tj_nd; auto. Qed.
Lemma t_if_to i n c : In i gi -> K (iface_add_to_srlg i n c).
Proof.
  intros H. unfold iface_add_to_srlg. kstep. kstep.
  - kstep; [apply tj_if; auto|]. apply (t_remote1 i (fun j r => _)).
  - kstep; [|apply keeps_raise]. eapply keeps_bind; [apply k_srlg_new|]. intros g Hg. kstep; [now apply tj_set_srs|]. kstep; [apply tj_if; auto|]. apply (t_remote1 i (fun j r => _)).
Qed.
Lemma t_nd_to i n c : In i gn -> K (node_add_to_srlg i n c).
Proof.
  intros H. unfold node_add_to_srlg. kstep. kstep.
  - kstep; apply tj_nd; auto.
  - kstep; [|apply keeps_raise]. eapply keeps_bind; [apply k_srlg_new|]. intros g Hg. kstep; [now apply tj_set_srs|]. kstep. apply tj_nd; auto.
Qed.
Lemma t_need (b : bool) e : K (if b then ret tt else raise e).
Proof. destruct b; [now apply keeps_ret|apply keeps_raise]. Qed.
Lemma t_nd_from i n : In i gn -> K (node_remove_from_srlg i n).
Proof.
  intros H. unfold node_remove_from_srlg. kstep. kstep; [|apply keeps_raise]. kstep. eapply keeps_bind; [apply t_need|]. intros _ _. kstep. eapply keeps_bind; [apply t_need|]. intros _ _.
  kstep; [apply tj_nd; auto|]. now apply t_nd_set_failed.
Qed.
Lemma t_if_from i n : In i gi -> K (iface_remove_from_srlg i n).
Proof.
  intros H. unfold iface_remove_from_srlg. kstep. kstep; [|apply keeps_raise]. kstep. eapply keeps_bind; [apply t_need|]. intros _ _. kstep. eapply keeps_bind; [apply t_need|]. intros _ _.
  kstep; [apply tj_if; auto|]. intros s J. rewrite bind_reads. destruct (get_remote_interface s i) as [j|e] eqn:G; [|split; auto; intros ? Z; discriminate Z].
  apply own_remote in G. rewrite !bind_gets. destruct (mem_if s j _); [|split; auto; intros ? Z; discriminate Z]. rewrite bind_ret.
  rewrite bind_gets. destruct (mem_nat _ _); [|split; auto; intros ? Z; discriminate Z]. rewrite bind_ret, bind_modify. apply t_set_failed; auto. apply tj_if; auto.
Qed.
Lemma t_if_fail i : In i gi -> K (iface_fail i).
Proof.
  intros H s J. unfold iface_fail. rewrite bind_reads. destruct (get_remote_interface s i) as [j|e] eqn:G; [|split; auto]. apply own_remote in G.
  unfold iface_set_failed. rewrite bind_modify. split; auto. apply tj_if; [auto|]. apply tj_if; auto.
Qed.
Lemma same_ifs_set_failed i b s : m_ifs (fst (iface_set_failed i b s)) = m_ifs s.
Proof. unfold iface_set_failed. destruct b; auto. rewrite !bind_gets. destruct (existsb _ _); auto. rewrite !bind_gets. destruct (_ && _); auto. Qed.
Lemma set_failed_step i b s : (In i (m_ifs s) \/ In i gi) -> tj s -> tj (fst (iface_set_failed i b s)).
Proof.
  intros H J. unfold iface_set_failed. destruct b; [now apply tj_if|]. rewrite !bind_gets. destruct (existsb _ _); [now apply tj_if|]. rewrite !bind_gets. destruct (_ && _); now apply tj_if.
Qed.
Lemma t_if_unfail i : In i gi -> K (iface_unfail i).
Proof.
  intros H s J. unfold iface_unfail. rewrite bind_reads. destruct (get_remote_interface s i) as [j|e] eqn:G; [|split; auto]. apply own_remote in G.
  rewrite !bind_gets. destruct (_ && _); [|split; auto]. split; auto. unfold bind at 1. destruct (iface_set_failed i false s) as [s1 [[]|e]] eqn:R.
  - assert (M : m_ifs s1 = m_ifs s) by (pose proof (same_ifs_set_failed i false s) as X; now rewrite R in X). apply set_failed_step; [rewrite M; auto|].
    pose proof (set_failed_step i false s (or_intror H) J) as X. now rewrite R in X.
  - pose proof (set_failed_step i false s (or_intror H) J) as X. now rewrite R in X.
Qed.
Lemma wg_groups s : keeps (fun t => within s t /\ own_groups t) (parallel_lsp_groups E) (fun g => forall key ls, In (key, ls) g -> incl ls (m_lsps s)).
Proof.
  pose proof (wg_closed s) as FC. unfold parallel_lsp_groups. eapply keeps_bind; [apply keeps_gets|]. intros g (t & Ht & ->). destruct (m_groups t) as [|a r] eqn:G.
  - eapply keeps_bind; [apply keeps_gets|]. intros g (u & Hu & ->).
    assert (X : forall key ls l, In (key, ls) (build_groups E (lsrc u) (ldst u) (m_lsps u)) -> In l ls -> In l (m_lsps s)) by (intros key ls l; exact (own_build E s _ FC u key ls l Hu)).
    kstep; [now apply (cj_gr _ _ FC)|]. apply keeps_ret. intros key ls A l B. eauto.
  - apply keeps_ret. rewrite <- G. intros key ls A l B. rewrite <- (k_lsps s _ FC t Ht). destruct Ht as [_ Ht]. eapply Ht; eauto.
Qed.
Lemma t_traffic_on l : K (traffic_on_lsp E k l).
Proof.
  apply tj_wg. intros s. pose proof (wg_closed s) as FC. unfold traffic_on_lsp. eapply keeps_bind; [apply wg_groups|]. intros g Hg. kstep. kstep.
  destruct (dict_get _ g) as [c|] eqn:D; [|apply keeps_raise]. apply (in_group s) in D; auto.
  eapply keeps_bind; [apply keeps_gets|]. intros r (t & Ht & ->). assert (R : incl (filter (lsp_routed t) c) (m_lsps s)) by (intros y Hy; apply filter_In in Hy as [Hy _]; auto).
  eapply keeps_bind; [apply keeps_mmap with (Q := fun _ => True); intros; apply (k_metric E k s _ FC); auto|]. intros ms _. kstep.
  eapply keeps_bind; [apply keeps_mfilter; intros y Hy; eapply keeps_bind; [apply (k_metric E k s _ FC); auto|]; intros; now apply keeps_ret|].
  intros mins _. kstep; [apply keeps_raise|]. destruct k; [|now apply keeps_ret]. eapply keeps_any. apply keeps_reads.
Qed.
Lemma t_get_metric l : In l gl -> K (get_manual_metric l).
Proof. intros H. unfold get_manual_metric. kgo. apply tj_ls; auto. Qed.
Lemma t_metric l : In l gl -> K (effective_metric E k l).
Proof.
  intros H. unfold effective_metric. eapply keeps_bind; [now apply t_get_metric|]. intros [z|] _.
  - kstep; [apply tj_ls; auto|]. eapply keeps_bind; [now apply t_get_metric|]. intros [y|] _; now apply keeps_ret.
  - kgo.
Qed.
Lemma t_set_metric l v : In l gl -> K (set_manual_metric l v).
Proof. intros H. unfold set_manual_metric. kgo; apply tj_ls; auto. Qed.
Lemma t_update : K (update_simulation E k).
Proof.
  intros s J. split; auto. pose proof (update_within E k s s (steady_refl s)) as F. pose proof (sy_in _ _ (fu_in _ _ F)) as W. apply tj_step with s; auto; [now apply within_touched|].
  intros key ls l X Y. destruct (wi_sets _ _ W) as (_ & _ & _ & -> & _). eapply (fu_gr s _ F); eauto.
Qed.
Lemma t_rename n o w : K (change_interface_name n o w).
Proof.
  apply tj_closed. intros s J HJ. unfold change_interface_name. kstep. kstep. apply (cj_if _ _ HJ); auto. match goal with X : get_interface ?t ?a ?b = Ok ?x |- _ => exact (in_get_interface s J HJ t a b x H X) end.
Qed.

Lemma t_op o : incl (given_ifs o) gi -> incl (given_nodes o) gn -> incl (given_lsps o) gl -> K (run_op E k o).
Proof.
  intros Hi Hn Hl.
  assert (G1 : forall i, In i (given_ifs o) -> In i gi) by exact Hi. assert (G2 : forall i, In i (given_nodes o) -> In i gn) by exact Hn. assert (G3 : forall i, In i (given_lsps o) -> In i gl) by exact Hl.
  destruct o; simpl in *; unfold discard; auto using t_update, t_validate, t_add_srlg, t_if_to, t_if_from, t_nd_to, t_nd_from, t_add_node, t_add_demand, t_add_lsp, t_add_circuit, t_add_interfaces, t_rename, t_set_metric, t_if_fail, t_if_unfail, t_set_failed, t_nd_set_failed.
  - apply tj_closed; intros; eapply k_fail_interface; eauto.
  - apply tj_closed; intros; eapply k_unfail_interface; eauto.
  - apply tj_closed; intros; eapply k_fail_node; eauto.
  - apply tj_closed; intros; eapply k_unfail_node; eauto.
  - apply tj_closed; intros; eapply k_fail_srlg; eauto.
  - apply tj_closed; intros; eapply k_unfail_srlg; eauto.
  - eapply keeps_bind; [apply k_node_new|]. intros. now apply keeps_ret.
  - unfold iface_set_cost. kgo. apply tj_if; auto.
  - unfold iface_set_capacity. kgo. apply tj_if; auto.
  - eapply keeps_bind; [apply t_traffic_on|]. intros. now apply keeps_ret.
  - eapply keeps_bind; [apply t_metric; auto|]. intros. now apply keeps_ret.
Qed.
End Touch.

Lemma history_touched E k gi gn gl l : forall s, own_groups s -> (forall o, In o l -> incl (given_ifs o) gi /\ incl (given_nodes o) gn /\ incl (given_lsps o) gl) ->
  touched gi gn gl s (run_ops E k l s) /\ own_groups (run_ops E k l s).
Proof.
  induction l as [|o l IH]; simpl; intros s G H; [split; auto; apply touched_refl|].
  destruct (H o) as (H1 & H2 & H3); auto. destruct (t_op E k gi gn gl s o H1 H2 H3 s) as [[T G'] _]; [split; auto; apply touched_refl|].
  destruct (IH (fst (run_op E k o s)) G') as [T2 G2]; auto. split; auto. eapply touched_trans; eauto.
Qed.

(** Outages: only the model's own objects, and of a node only its failed flag *)
Section Outages.
Variable E : env.
Variable k : kind.
Variable s0 : st.
Lemma steady_op o s : outage_op s0 o -> steady s0 s -> steady s0 (fst (run_op E k o s)).
Proof.
  intros Ho H. pose proof (steady_closed s0) as C.
  assert (X : forall m : M unit, keeps (steady s0) m (fun _ => True) -> steady s0 (fst (m s))) by (intros m Hm; now apply Hm).
  destruct o; simpl in Ho; try tauto; unfold run_op.
  - apply (fu_in s0). now apply update_within.
  - apply X. eapply k_validate; eauto.
  - apply X. eapply k_fail_interface; eauto.
  - apply X. eapply k_unfail_interface; eauto.
  - apply X. eapply k_fail_node; eauto.
  - apply X. eapply k_unfail_node; eauto.
  - apply X. eapply k_fail_srlg; eauto.
  - apply X. eapply k_unfail_srlg; eauto.
  - apply X. eapply k_iface_fail; eauto.
  - apply X. eapply k_iface_unfail; eauto.
Qed.
Lemma steady_history l : forall s, (forall o, In o l -> outage_op s0 o) -> steady s0 s -> steady s0 (run_ops E k l s).
Proof. induction l as [|o l IH]; simpl; intros s Hl H; auto. apply IH; auto. apply steady_op; auto. Qed.
End Outages.

Lemma read_omm a b : omm b = omm a -> snd (mstep (mstate_of b) MRead) = snd (mstep (mstate_of a) MRead).
Proof.
  unfold mstep, mstate_of, omm. destruct (l_imm a) as [x|], (l_imm b) as [y|]; intros H; cbn in *; repeat match goal with
  | |- context [Z.eqb ?z 0] => destruct (Z.eqb z 0); cbn in *
  | |- context [Z.ltb 0 ?z] => destruct (Z.ltb 0 z); cbn in *
  end; congruence.
Qed.

Lemma outages_same_input E k s l1 l2 : (forall o, In o l1 -> outage_op s o) -> (forall o, In o l2 -> outage_op s o) ->
  (forall i, In i (m_ifs s) -> i_failed (h_if (run_ops E k l2 s) i) = i_failed (h_if (run_ops E k l1 s) i)) ->
  (forall n, In n (m_nds s) -> n_failed (h_nd (run_ops E k l2 s) n) = n_failed (h_nd (run_ops E k l1 s) n)) ->
  (k = Perf -> forall i, In i (m_ifs s) -> i_cid (h_if (run_ops E k l2 s) i) = i_cid (h_if (run_ops E k l1 s) i)) ->
  same_input (run_ops E k l1 s) (run_ops E k l2 s).
Proof.
  intros H1 H2. pose proof (config_history E k l1 s H1) as C1. pose proof (config_history E k l2 s H2) as C2.
  destruct (steady_history E k s l1 s H1 (steady_refl s)) as [A1 B1 M1]. destruct (steady_history E k s l2 s H2 (steady_refl s)) as [A2 B2 M2].
  revert C1 C2 A1 B1 M1 A2 B2 M2. generalize (run_ops E k l1 s) (run_ops E k l2 s). intros a b C1 C2 A1 B1 M1 A2 B2 M2 FI FN CI.
  destruct (wi_sets _ _ A1) as (S1 & S2 & S3 & S4 & S5), (wi_sets _ _ A2) as (T1 & T2 & T3 & T4 & T5).
  constructor; try congruence.
  - intros n. destruct (in_dec Nat.eq_dec n (m_nds s)) as [N|N].
    + rewrite (B2 n), (B1 n), FN by auto. rewrite (B1 n). reflexivity.
    + now rewrite (wi_nd _ _ A1), (wi_nd _ _ A2).
  - rewrite S1. intros i Hi. destruct (cf_if _ _ _ C1 i) as [(Q1&Q2&Q3&Q4&Q5&Q6&Q7&Q8) Q9], (cf_if _ _ _ C2 i) as [(R1&R2&R3&R4&R5&R6&R7&R8) R9].
    repeat split; try congruence; [|now apply FI]. destruct k; [rewrite Q9, R9; auto|auto].
  - intros d _. destruct (cf_dm _ _ _ C1 d) as (?&?&?&?), (cf_dm _ _ _ C2 d) as (?&?&?&?). repeat split; congruence.
  - intros l _. destruct (cf_ls _ _ _ C1 l) as (?&?&?&?), (cf_ls _ _ _ C2 l) as (?&?&?&?). repeat split; try congruence. apply read_omm. now rewrite M1, M2.
  - rewrite S1. intros i Hi. now rewrite (wi_if _ _ A1), (wi_if _ _ A2).
  - rewrite S3. intros i Hi. now rewrite (wi_dm _ _ A1), (wi_dm _ _ A2).
  - rewrite S4. intros i Hi. now rewrite (wi_ls _ _ A1), (wi_ls _ _ A2).
Qed.
