(** QuietProofs.v - reading metrics, groups and shortcuts while demands are
    routed changes nothing that later reads can observe. *)
From Verif Require Import Base Graph Objects Sim Spec SpecCkt GraphProofs MonadProofs ObjProofs.

(** The manual metric that the next read returns *)
Definition omm (r : lsp) : res (option Z) :=
  match l_imm r with
  | Some z => if Z.eqb z 0 then Ok (l_mm r) else if (0 <? z)%Z then Ok (Some z)
              else Err (ModelException "RSVP LSP metric must be positive integer value")
  | None => Ok (l_mm r)
  end.

Section Quiet.
Variable E : env.
Variable k : kind.

(** The groups that the next call of parallel_lsp_groups returns *)
Definition egroups (s : st) : list (string * list nat) :=
  match m_groups s with [] => build_groups E (lsrc s) (ldst s) (m_lsps s) | g => g end.

(** Same for routing: interfaces up to traffic and circuit marks, demands up to
    paths, LSPs up to bandwidths and the representation of the manual metric *)
Record rsame (s t : st) : Prop := {
  rs_nd : forall n, h_nd t n = h_nd s n;
  rs_ifs : m_ifs t = m_ifs s; rs_nds : m_nds t = m_nds s; rs_dms : m_dms t = m_dms s; rs_lsps : m_lsps t = m_lsps s;
  rs_if : forall i, h_if t i = if_traffic (i_traffic (h_if t i)) (if_inckt (i_inckt (h_if t i)) (h_if s i));
  rs_dm : forall d, h_dm t d = dm_path (d_path (h_dm t d)) (dm_detail (d_detail (h_dm t d)) (h_dm s d));
  rs_ls : forall l, h_ls t l = ls_res (l_res (h_ls t l)) (ls_setup (l_setup (h_ls t l)) (ls_mm (l_mm (h_ls t l)) (l_imm (h_ls t l)) (h_ls s l)));
  rs_mm : forall l, omm (h_ls t l) = omm (h_ls s l);
  rs_gr : egroups t = egroups s }.

Lemma rsame_refl s : rsame s s.
Proof. constructor; intros; auto; match goal with |- ?x = _ => destruct x; reflexivity end. Qed.
Lemma rsame_sym s t : rsame s t -> rsame t s.
Proof.
  intros H. constructor; intros; try (symmetry; apply H).
  - rewrite (rs_if _ _ H i). destruct (h_if s i); reflexivity.
  - rewrite (rs_dm _ _ H d). destruct (h_dm s d); reflexivity.
  - rewrite (rs_ls _ _ H l). destruct (h_ls s l); reflexivity.
Qed.
Lemma rsame_trans a b c : rsame a b -> rsame b c -> rsame a c.
Proof.
  intros H1 H2. constructor; intros.
  - rewrite (rs_nd _ _ H2). apply H1.
  - rewrite (rs_ifs _ _ H2). apply H1.
  - rewrite (rs_nds _ _ H2). apply H1.
  - rewrite (rs_dms _ _ H2). apply H1.
  - rewrite (rs_lsps _ _ H2). apply H1.
  - rewrite (rs_if _ _ H2 i). rewrite (rs_if _ _ H1 i). reflexivity.
  - rewrite (rs_dm _ _ H2 d). rewrite (rs_dm _ _ H1 d). reflexivity.
  - rewrite (rs_ls _ _ H2 l). rewrite (rs_ls _ _ H1 l). reflexivity.
  - rewrite (rs_mm _ _ H2). apply H1.
  - rewrite (rs_gr _ _ H2). apply H1.
Qed.

Section Same.
Variables s t : st.
Hypothesis H : rsame s t.

Lemma rs_idata i : i_name (h_if t i) = i_name (h_if s i) /\ i_cost (h_if t i) = i_cost (h_if s i) /\ i_cap (h_if t i) = i_cap (h_if s i) /\
  i_node (h_if t i) = i_node (h_if s i) /\ i_rem (h_if t i) = i_rem (h_if s i) /\ i_cid (h_if t i) = i_cid (h_if s i) /\
  i_failed (h_if t i) = i_failed (h_if s i) /\ i_res (h_if t i) = i_res (h_if s i) /\ i_srlgs (h_if t i) = i_srlgs (h_if s i) /\
  i_rsvp (h_if t i) = i_rsvp (h_if s i) /\ i_pct (h_if t i) = i_pct (h_if s i).
Proof. rewrite (rs_if _ _ H i). simpl. repeat split. Qed.
Lemma rs_ddata d : d_src (h_dm t d) = d_src (h_dm s d) /\ d_dst (h_dm t d) = d_dst (h_dm s d) /\ d_traffic (h_dm t d) = d_traffic (h_dm s d) /\
  d_name (h_dm t d) = d_name (h_dm s d).
Proof. rewrite (rs_dm _ _ H d). simpl. repeat split. Qed.
Lemma rs_ldata l : l_src (h_ls t l) = l_src (h_ls s l) /\ l_dst (h_ls t l) = l_dst (h_ls s l) /\ l_name (h_ls t l) = l_name (h_ls s l) /\
  l_path (h_ls t l) = l_path (h_ls s l) /\ l_cfg (h_ls t l) = l_cfg (h_ls s l).
Proof. rewrite (rs_ls _ _ H l). simpl. repeat split. Qed.

Lemma rs_local i : ilocal t i = ilocal s i.
Proof. unfold ilocal. destruct (rs_idata i) as (_ & _ & _ & -> & _). now rewrite (rs_nd _ _ H). Qed.
Lemma rs_remote i : iremote t i = iremote s i.
Proof. unfold iremote. destruct (rs_idata i) as (_ & _ & _ & _ & -> & _). now rewrite (rs_nd _ _ H). Qed.
Lemma rs_lsrc l : lsrc t l = lsrc s l.
Proof. unfold lsrc. destruct (rs_ldata l) as (-> & _). now rewrite (rs_nd _ _ H). Qed.
Lemma rs_ldst l : ldst t l = ldst s l.
Proof. unfold ldst. destruct (rs_ldata l) as (_ & -> & _). now rewrite (rs_nd _ _ H). Qed.
Lemma rs_dsrc l : dsrc t l = dsrc s l.
Proof. unfold dsrc. destruct (rs_ddata l) as (-> & _). now rewrite (rs_nd _ _ H). Qed.
Lemma rs_ddst l : ddst t l = ddst s l.
Proof. unfold ddst. destruct (rs_ddata l) as (_ & -> & _). now rewrite (rs_nd _ _ H). Qed.
Lemma rs_path l : l_path (h_ls t l) = l_path (h_ls s l).
Proof. apply rs_ldata. Qed.
Lemma rs_routed l : lsp_routed t l = lsp_routed s l.
Proof. unfold lsp_routed. now rewrite rs_path. Qed.
Lemma rs_interfaces l : lsp_interfaces t l = lsp_interfaces s l.
Proof. unfold lsp_interfaces. now rewrite rs_path. Qed.
Lemma rs_cost i : i_cost (h_if t i) = i_cost (h_if s i).
Proof. apply rs_idata. Qed.
Lemma rs_edge i : edge_of t i = edge_of s i.
Proof. unfold edge_of. now rewrite rs_local, rs_remote, rs_cost. Qed.
Lemma rs_reservable i : reservable_bw t i = reservable_bw s i.
Proof.
  unfold reservable_bw, reserved_bw. destruct (rs_idata i) as (_ & _ & -> & _ & _ & _ & _ & -> & _ & -> & ->). reflexivity.
Qed.
Lemma rs_considered b bw r i : considered t b bw r i = considered s b bw r i.
Proof. unfold considered. rewrite rs_reservable. destruct (rs_idata i) as (_ & _ & _ & _ & _ & _ & -> & _ & _ & -> & _). reflexivity. Qed.
Lemma rs_names : node_names t = node_names s.
Proof. unfold node_names. rewrite (rs_nds _ _ H). apply map_ext. intros n. now rewrite (rs_nd _ _ H). Qed.
Lemma rs_graph b bw r : make_graph k t b bw r = make_graph k s b bw r.
Proof.
  unfold make_graph. rewrite rs_names, (rs_ifs _ _ H). rewrite (filter_ext _ _ (rs_considered b bw r)). rewrite (map_ext _ _ rs_edge). reflexivity.
Qed.
Lemma rs_between u v : ifaces_between t u v = ifaces_between s u v.
Proof. unfold ifaces_between. rewrite (rs_ifs _ _ H). apply filter_ext. intros i. now rewrite rs_local, rs_remote. Qed.
Lemma find_ext' {A} (f g : A -> bool) l : (forall x, f x = g x) -> find f l = find g l.
Proof. intros X. induction l; simpl; auto. now rewrite X, IHl. Qed.
Lemma rs_first u v : first_between t u v = first_between s u v.
Proof. unfold first_between. rewrite (rs_ifs _ _ H). apply find_ext'. intros i. now rewrite rs_local, rs_remote. Qed.
Lemma rs_perf_path p : perf_path t p = perf_path s p.
Proof. unfold perf_path. apply flat_map_ext. intros [u v]. simpl. now rewrite rs_first. Qed.
Lemma rs_flex_model bw p : flex_model_paths t bw p = flex_model_paths s bw p.
Proof.
  unfold flex_model_paths. f_equal. apply map_ext. intros [u v]. simpl. rewrite rs_between. apply filter_ext. intros i. now rewrite rs_reservable.
Qed.
Lemma rs_iface_paths G ps : iface_paths k t G ps = iface_paths k s G ps.
Proof. unfold iface_paths. destruct k; auto. apply map_ext. apply rs_perf_path. Qed.
Lemma rs_shortest u v bw : get_shortest_path E k t u v bw = get_shortest_path E k s u v bw.
Proof.
  unfold get_shortest_path. rewrite rs_graph. destruct (nx_asp _ _ _ _); auto. f_equal. destruct k.
  - apply flat_map_ext. apply rs_flex_model.
  - apply map_ext. apply rs_perf_path.
Qed.
Lemma rs_get_node n : get_node t n = get_node s n.
Proof. unfold get_node. rewrite (rs_nds _ _ H). rewrite (filter_ext _ (fun x => String.eqb (n_name (h_nd s x)) n)); auto. intros x. now rewrite (rs_nd _ _ H). Qed.
Lemma rs_node_eqb a b : node_eqb t a b = node_eqb s a b.
Proof. unfold node_eqb. now rewrite !(rs_nd _ _ H). Qed.
Lemma rs_iface_eqb a b : iface_eqb t a b = iface_eqb s a b.
Proof.
  unfold iface_eqb. rewrite !rs_node_eqb. destruct (rs_idata a) as (-> & _ & -> & -> & -> & -> & _). destruct (rs_idata b) as (-> & _ & -> & -> & -> & -> & _). reflexivity.
Qed.
Lemma rs_item_eqb a b : item_eqb t a b = item_eqb s a b.
Proof. unfold item_eqb. destruct a, b; auto. apply rs_iface_eqb. Qed.
Lemma rs_items_eqb a : forall b, items_eqb t a b = items_eqb s a b.
Proof. induction a; intros [|y b]; simpl; auto. now rewrite rs_item_eqb, IHa. Qed.
Lemma pos_where_ext f g p : (forall x, f x = g x) -> pos_where f p = pos_where g p.
Proof. intros X. induction p; simpl; auto. now rewrite X, IHp. Qed.
Lemma rs_group_slice p g : group_slice t p g = group_slice s p g.
Proof.
  unfold group_slice. destruct g as [|l g]; auto. destruct (rs_ldata l) as (L1 & L2 & _). rewrite L1, L2.
  rewrite (pos_where_ext _ (fun it => match it with IIf i => node_eqb s (i_node (h_if s i)) (l_src (h_ls s l)) | ILsp _ => false end)).
  2:{ intros [i|]; [|reflexivity]. rewrite rs_node_eqb. destruct (rs_idata i) as (_ & _ & _ & -> & _). reflexivity. }
  rewrite (pos_where_ext (fun it => match it with IIf i => node_eqb t (i_rem (h_if t i)) _ | _ => false end)
    (fun it => match it with IIf i => node_eqb s (i_rem (h_if s i)) (l_dst (h_ls s l)) | ILsp _ => false end)).
  2:{ intros [i|]; [|reflexivity]. rewrite rs_node_eqb. destruct (rs_idata i) as (_ & _ & _ & _ & -> & _). reflexivity. }
  reflexivity.
Qed.
Lemma rs_insert gs p : insert_lsps t gs p = insert_lsps s gs p.
Proof. unfold insert_lsps. rewrite (map_ext _ _ (rs_group_slice p)). reflexivity. Qed.
Lemma existsb_ext' {A} (f g : A -> bool) l : (forall x, f x = g x) -> existsb f l = existsb g l.
Proof. intros X. induction l; simpl; auto. now rewrite X, IHl. Qed.
Lemma fold_left_ext {A B} (f g : A -> B -> A) l : (forall a b, f a b = g a b) -> forall a, fold_left f l a = fold_left g l a.
Proof. intros X. induction l; simpl; intros; auto. now rewrite X. Qed.
Lemma rs_substitute gs ps : substitute_lsps t gs ps = substitute_lsps s gs ps.
Proof.
  unfold substitute_lsps. destruct gs; auto. apply fold_left_ext. intros acc p. rewrite rs_insert. destruct (insert_lsps s _ p); auto.
  apply fold_left_ext. intros a q. rewrite (existsb_ext' (items_eqb t q) (items_eqb s q)); auto. intros. apply rs_items_eqb.
Qed.
End Same.

(** LSPs keep their bandwidths *)
Definition same_sig (s t : st) : Prop := forall l, l_res (h_ls t l) = l_res (h_ls s l) /\ l_setup (h_ls t l) = l_setup (h_ls s l).
Lemma same_sig_trans a b c : same_sig a b -> same_sig b c -> same_sig a c.
Proof. intros H1 H2 l. destruct (H1 l), (H2 l). split; congruence. Qed.

(** Nothing but the representation of metrics and the group cache changes *)
Definition quiet (s t : st) : Prop :=
  rsame s t /\ h_if t = h_if s /\ h_sr t = h_sr s /\ h_dm t = h_dm s /\ m_srs t = m_srs s /\ m_ckts t = m_ckts s /\
  s_next t = s_next s /\ s_rng t = s_rng s /\ same_sig s t.
Lemma quiet_preorder : preorder quiet.
Proof.
  split.
  - intros s. split; [apply rsame_refl|]. repeat split.
  - intros a b c (H1 & X1 & X2 & X3 & X4 & X5 & X6 & X7 & X8) (H2 & Y1 & Y2 & Y3 & Y4 & Y5 & Y6 & Y7 & Y8). split; [eapply rsame_trans; eauto|].
    repeat split; try congruence; apply (same_sig_trans _ _ _ X8 Y8).
Qed.

Definition Qm {A} (m : M A) : Prop := (forall s, quiet s (fst (m s))) /\ (forall s t, rsame s t -> snd (m t) = snd (m s)).

Lemma Qm_ret {A} (a : A) : Qm (ret a).
Proof. split; [intros s; apply quiet_preorder|reflexivity]. Qed.
Lemma Qm_raise {A} e : Qm (@raise A e).
Proof. split; [intros s; apply quiet_preorder|reflexivity]. Qed.
Lemma Qm_gets {A} (f : st -> A) : (forall s t, rsame s t -> f t = f s) -> Qm (gets f).
Proof. intros Hf. split; [intros s; apply quiet_preorder|]. intros s t H. simpl. now rewrite (Hf s t). Qed.
Lemma Qm_reads {A} (f : st -> res A) : (forall s t, rsame s t -> f t = f s) -> Qm (reads f).
Proof. intros Hf. split; [intros s; apply quiet_preorder|]. intros s t H. simpl. auto. Qed.
Lemma Qm_bind {A B} (m : M A) (f : A -> M B) : Qm m -> (forall a, Qm (f a)) -> Qm (bind m f).
Proof.
  intros [m1 m2] Hf. split.
  - apply (pres_bind _ quiet_preorder); [exact m1|]. intros a. exact (proj1 (Hf a)).
  - intros s t H. unfold bind. pose proof (m1 s) as Qs. pose proof (m1 t) as Qt. pose proof (m2 s t H) as V.
    destruct (m s) as [s1 r1], (m t) as [t1 r2]. simpl in *. subst r2. destruct r1 as [a|e]; auto. apply (proj2 (Hf a)).
    eapply rsame_trans; [apply rsame_sym, (proj1 Qs)|]. eapply rsame_trans; [exact H|apply Qt].
Qed.
Lemma Qm_mmap {A B} (b : A -> M B) l : (forall x, In x l -> Qm (b x)) -> Qm (mmap b l).
Proof.
  induction l as [|x l IH]; simpl; intros H; [apply Qm_ret|]. apply Qm_bind; [auto|]. intros a. apply Qm_bind; [auto|]. intros; apply Qm_ret.
Qed.
Lemma Qm_mfilter {A} (b : A -> M bool) l : (forall x, In x l -> Qm (b x)) -> Qm (mfilter b l).
Proof.
  induction l as [|x l IH]; simpl; intros H; [apply Qm_ret|]. apply Qm_bind; [auto|]. intros a. apply Qm_bind; [auto|]. intros; apply Qm_ret.
Qed.

(** Values *)
Lemma Qv_bind {A B} (m : M A) (f : A -> M B) s : Qm m -> (forall a, Qm (f a)) ->
  snd (bind m f s) = rbind (snd (m s)) (fun a => snd (f a s)).
Proof.
  intros [m1 _] Hf. unfold bind. pose proof (m1 s) as Qs. destruct (m s) as [s1 [a|e]]; simpl in *; auto. apply (proj2 (Hf a)). apply Qs.
Qed.
Lemma Qv_mmap {A B} (b : A -> M B) l s : (forall x, In x l -> Qm (b x)) -> snd (mmap b l s) = rmap (fun x => snd (b x s)) l.
Proof.
  induction l as [|x l IH]; cbn [mmap rmap]; intros H; [reflexivity|].
  assert (Q : Qm (mmap b l)) by (apply Qm_mmap; intros; apply H; simpl; auto).
  rewrite Qv_bind; [|apply H; simpl; auto|intros; apply Qm_bind; auto; intros; apply Qm_ret].
  destruct (snd (b x s)); cbn [rbind]; auto. rewrite Qv_bind; [|auto|intros; apply Qm_ret]. rewrite IH; [reflexivity|]. intros; apply H; simpl; auto.
Qed.
Fixpoint rfilter {A} (f : A -> res bool) (l : list A) : res (list A) :=
  match l with [] => Ok [] | x :: tl => rbind (f x) (fun b => rbind (rfilter f tl) (fun ys => Ok (if b : bool then x :: ys else ys))) end.
Lemma Qv_mfilter {A} (b : A -> M bool) l s : (forall x, In x l -> Qm (b x)) -> snd (mfilter b l s) = rfilter (fun x => snd (b x s)) l.
Proof.
  induction l as [|x l IH]; cbn [mfilter rfilter]; intros H; [reflexivity|].
  assert (Q : Qm (mfilter b l)) by (apply Qm_mfilter; intros; apply H; simpl; auto).
  rewrite Qv_bind; [|apply H; simpl; auto|intros; apply Qm_bind; auto; intros; apply Qm_ret].
  destruct (snd (b x s)); cbn [rbind]; auto. rewrite Qv_bind; [|auto|intros; apply Qm_ret]. rewrite IH; [reflexivity|]. intros; apply H; simpl; auto.
Qed.
Lemma rfilter_ok {A} (f : A -> res bool) l l' : rfilter f l = Ok l' ->
  (forall x, In x l -> exists b, f x = Ok b) /\ l' = filter (fun x => match f x with Ok b => b | Err _ => false end) l.
Proof.
  revert l'. induction l as [|x l IH]; simpl; intros l' H; [injection H as <-; split; auto; intros _ []|].
  apply rbind_ok in H as (b & Hb & H). apply rbind_ok in H as (ys & Hy & H). injection H as <-. apply IH in Hy as [H1 H2]. split.
  - intros y [->|Hy]; eauto.
  - rewrite Hb. subst ys. destruct b; auto.
Qed.
Lemma rfilter_ext {A} (f g : A -> res bool) l : (forall x, In x l -> f x = g x) -> rfilter f l = rfilter g l.
Proof. induction l; simpl; intros H; auto. rewrite H, IHl; auto. Qed.
Lemma rfilter_total {A} (f : A -> res bool) (g : A -> bool) l : (forall x, In x l -> f x = Ok (g x)) -> rfilter f l = Ok (filter g l).
Proof. induction l; simpl; intros H; auto. rewrite H, IHl by auto. simpl. destruct (g a); auto. Qed.

(** ** Metrics *)
Lemma egroups_ext s t : m_groups t = m_groups s -> build_groups E (lsrc t) (ldst t) (m_lsps t) = build_groups E (lsrc s) (ldst s) (m_lsps s) ->
  egroups t = egroups s.
Proof. unfold egroups. intros -> ->. reflexivity. Qed.

Lemma build_ext s t : (forall n, h_nd t n = h_nd s n) -> m_lsps t = m_lsps s -> (forall l, l_src (h_ls t l) = l_src (h_ls s l) /\ l_dst (h_ls t l) = l_dst (h_ls s l)) ->
  build_groups E (lsrc t) (ldst t) (m_lsps t) = build_groups E (lsrc s) (ldst s) (m_lsps s).
Proof.
  intros Hn Hl H.
  assert (A : forall l, lsrc t l = lsrc s l) by (intros; unfold lsrc; destruct (H l) as [-> _]; now rewrite Hn).
  assert (B : forall l, ldst t l = ldst s l) by (intros; unfold ldst; destruct (H l) as [_ ->]; now rewrite Hn).
  unfold build_groups. rewrite Hl, (map_ext _ _ A), (map_ext _ _ B).
  apply fold_left_ext. intros d sn. apply fold_left_ext. intros d' dn.
  rewrite (filter_ext (fun o => String.eqb (lsrc t o) sn && String.eqb (ldst t o) dn) (fun o => String.eqb (lsrc s o) sn && String.eqb (ldst s o) dn)); auto.
  intros o. now rewrite A, B.
Qed.

Lemma quiet_mm s l a b : (forall r, r = h_ls s l -> omm (ls_mm a b r) = omm r) -> quiet s (upd_ls l (ls_mm a b) s).
Proof.
  intros H. split.
  2:{ repeat split; simpl; apply (fupd_cases _ _ _ _ (fun r => _ r = _ (h_ls s l0))); auto; intros ->; reflexivity. }
  constructor; auto; intros.
  - simpl. destruct (h_if s i); reflexivity.
  - simpl. destruct (h_dm s d); reflexivity.
  - simpl. apply (fupd_cases _ _ _ _ (fun r => r = ls_res (l_res r) (ls_setup (l_setup r) (ls_mm (l_mm r) (l_imm r) (h_ls s l0)))));
      [intros ->; reflexivity|intros _; destruct (h_ls s l0); reflexivity].
  - simpl. apply (fupd_cases _ _ _ _ (fun r => omm r = omm (h_ls s l0))); [intros ->; auto|auto].
  - apply egroups_ext; auto. apply build_ext; auto. intros x. simpl.
    apply (fupd_cases _ _ _ _ (fun r => l_src r = l_src (h_ls s x) /\ l_dst r = l_dst (h_ls s x))); [intros ->; auto|auto].
Qed.

(** What get_manual_metric does *)
Lemma get_mm_run l s : exists s', get_manual_metric l s = (s', omm (h_ls s l)) /\ quiet s s' /\ 
  (forall v, omm (h_ls s l) = Ok v -> l_mm (h_ls s' l) = v).
Proof.
  unfold get_manual_metric, omm. rewrite bind_gets. destruct (l_imm (h_ls s l)) as [z|] eqn:I.
  - destruct (Z.eqb_spec z 0); [exists s; repeat split; try apply quiet_preorder; intros v X; now injection X|].
    destruct (Z.ltb_spec 0 z).
    + exists (upd_ls l (ls_mm (Some z) None) s). split; [reflexivity|]. split.
      * apply quiet_mm. intros r ->. unfold omm. simpl. rewrite I. destruct (Z.eqb_spec z 0); [lia|]. destruct (Z.ltb_spec 0 z); [auto|lia].
      * intros v X. injection X as <-. simpl. now rewrite fupd_same.
    + exists s. repeat split; try apply quiet_preorder. discriminate.
  - exists s. repeat split; try apply quiet_preorder. intros v X; now injection X.
Qed.

(** The effective metric that the next read returns *)
Definition emet (s : st) (l : nat) : res mval :=
  match omm (h_ls s l) with
  | Err e => Err e
  | Ok (Some z) => Ok (MInt z)
  | Ok None => if says_unrouted (l_path (h_ls s l)) then Ok MUnrouted
               else match fst (get_shortest_path E k s (lsrc s l) (ldst s l) 0) with Some c => Ok (MInt c) | None => Ok MNone end
  end.

Lemma emet_rsame s t l : rsame s t -> emet t l = emet s l.
Proof. intros H. unfold emet. now rewrite (rs_mm _ _ H), (rs_path _ _ H), (rs_shortest _ _ H), (rs_lsrc _ _ H), (rs_ldst _ _ H). Qed.

Lemma effective_metric_run l s : exists s', effective_metric E k l s = (s', emet s l) /\ quiet s s'.
Proof.
  unfold effective_metric, emet. destruct (get_mm_run l s) as (s1 & R1 & Q1 & V1). unfold bind at 1. rewrite R1.
  destruct (omm (h_ls s l)) as [[z|]|e] eqn:O; [| |exists s1; auto].
  - specialize (V1 _ eq_refl). rewrite bind_modify.
    set (s2 := upd_ls l (fun r => ls_mm (l_mm r) None r) s1).
    assert (O2 : omm (h_ls s2 l) = Ok (Some z)) by (subst s2; simpl; rewrite fupd_same; unfold omm; simpl; now rewrite V1).
    assert (Q2 : quiet s1 s2).
    { subst s2. assert (X : quiet s1 (upd_ls l (ls_mm (l_mm (h_ls s1 l)) None) s1)); [|exact X].
      apply quiet_mm. intros r ->. rewrite (rs_mm _ _ (proj1 Q1)), O. unfold omm. simpl. now rewrite V1. }
    destruct (get_mm_run l s2) as (s3 & R3 & Q3 & V3). unfold bind. rewrite R3, O2. exists s3. split; auto.
    eapply (po_trans _ quiet_preorder); [exact Q1|]. eapply (po_trans _ quiet_preorder); [exact Q2|exact Q3].
  - rewrite bind_gets. exists s1. split; auto. rewrite (rs_path _ _ (proj1 Q1)), (rs_shortest _ _ (proj1 Q1)), (rs_lsrc _ _ (proj1 Q1)), (rs_ldst _ _ (proj1 Q1)).
    destruct (says_unrouted _); auto. destruct (fst _); auto.
Qed.
Lemma Qv_effective l s : snd (effective_metric E k l s) = emet s l.
Proof. destruct (effective_metric_run l s) as (s' & -> & _). reflexivity. Qed.
Lemma Qm_effective l : Qm (effective_metric E k l).
Proof.
  split; [intros s; destruct (effective_metric_run l s) as (s' & -> & Q); exact Q|]. intros s t H. rewrite !Qv_effective. now apply emet_rsame.
Qed.

Lemma groups_run s : exists s', parallel_lsp_groups E s = (s', Ok (egroups s)) /\ quiet s s'.
Proof.
  unfold parallel_lsp_groups, egroups. rewrite bind_gets. destruct (m_groups s) as [|g gs] eqn:G.
  - rewrite bind_gets, bind_modify. set (g' := build_groups E (lsrc s) (ldst s) (m_lsps s)). exists (set_groups g' s). split; [reflexivity|].
    split; [|repeat split]. constructor; auto; intros.
    + simpl. destruct (h_if s i); reflexivity.
    + simpl. destruct (h_dm s d); reflexivity.
    + simpl. destruct (h_ls s l); reflexivity.
    + unfold egroups. simpl. rewrite G. subst g'. destruct (build_groups E (lsrc s) (ldst s) (m_lsps s)) eqn:B; [|reflexivity].
      exact B.
  - exists s. split; [reflexivity|apply quiet_preorder].
Qed.
Lemma Qv_groups s : snd (parallel_lsp_groups E s) = Ok (egroups s).
Proof. destruct (groups_run s) as (s' & -> & _). reflexivity. Qed.
Lemma Qm_groups : Qm (parallel_lsp_groups E).
Proof.
  split; [intros s; destruct (groups_run s) as (s' & -> & Q); exact Q|]. intros s t H. rewrite !Qv_groups. f_equal. apply H.
Qed.

(** ** The functions used while routing demands *)
Ltac q_step :=
  match goal with
  | |- Qm (bind _ _) => apply Qm_bind; [|intro]
  | |- Qm (ret _) => apply Qm_ret
  | |- Qm (raise _) => apply Qm_raise
  | |- Qm (mmap _ _) => apply Qm_mmap; intros ? _
  | |- Qm (mfilter _ _) => apply Qm_mfilter; intros ? _
  | |- Qm (effective_metric _ _ _) => apply Qm_effective
  | |- Qm (parallel_lsp_groups _) => apply Qm_groups
  | |- Qm (if ?b then _ else _) => destruct b
  | |- Qm (match ?x with _ => _ end) => destruct x
  end.
Ltac q_go := repeat (first [q_step | assumption]).

Lemma Q_routed cands : Qm (gets (fun s => filter (lsp_routed s) cands)).
Proof. apply Qm_gets. intros s t H. apply filter_ext. intros l. now apply rs_routed. Qed.

Lemma Qm_min_metric key : Qm (min_metric_lsps E k key).
Proof.
  unfold min_metric_lsps. q_go; try apply Q_routed. apply Qm_gets. intros s t H. now apply rs_routed.
Qed.
Lemma Qm_e2e d : Qm (e2e_lsps E k d).
Proof.
  unfold e2e_lsps. q_go; try apply Q_routed. apply Qm_gets. intros s t H. now rewrite (rs_dsrc _ _ H), (rs_ddst _ _ H).
Qed.
Lemma Qm_first src ds : Qm (first_lsps E k src ds).
Proof. induction ds; simpl; q_go. apply Qm_min_metric. Qed.
Lemma Q_node n : Qm (reads (fun s => get_node s n)).
Proof. apply Qm_reads. intros s t H. now apply rs_get_node. Qed.
Lemma Qm_path_lsps full rest : forall sk acc, Qm (path_lsps E k full rest sk acc).
Proof.
  induction rest; simpl; intros; q_go; auto; try apply Q_node; try apply Qm_first.
  - apply Qm_gets. intros s t H. now rewrite (rs_nd _ _ H).
  - apply Qm_gets. intros s t H. now rewrite (rs_nd _ _ H).
  - apply Qm_gets. intros s t H. now apply rs_ldst.
Qed.
Lemma Qm_last nps : forall acc, Qm (last_path_lsps E k nps acc).
Proof. induction nps; simpl; intros; q_go; auto. apply Qm_path_lsps. Qed.
Lemma Qm_path_metric p : Qm (path_metric E k p).
Proof. induction p as [|[i|l] p IH]; simpl; q_go. apply Qm_gets. intros s t H. now apply rs_cost. Qed.
Lemma Qm_inspect ps : Qm (inspect_metrics E k ps).
Proof. unfold inspect_metrics. q_go. apply Qm_path_metric. Qed.
Lemma Qm_shortcuts ps nps : Qm (find_igp_shortcuts E k ps nps).
Proof.
  unfold find_igp_shortcuts. q_go; try apply Q_node; try apply Qm_last; try apply Qm_inspect.
  - apply Qm_gets. intros s t H. now rewrite (rs_nd _ _ H).
  - apply Qm_gets. intros s t H. now apply rs_substitute.
Qed.
End Quiet.
