(** FloatLock.v - the exact simulation and the float simulation in lockstep: routing of
    demands, traffic and validation. *)
From Verif Require Import Base Graph Objects Sim Float GraphProofs ObjProofs MonadProofs RoundProofs FloatProofs QuietProofs RouteProofs TrafficProofs.
From Verif Require FloatSim ShareProofs.
From Coq Require Import Lqa.

(** ** When the first run succeeds, so does the second, with related results *)
Definition lock {A B} (V : A -> B -> Prop) (P Q : st -> st -> Prop) (m : M A) (n : M B) : Prop :=
  forall s t s' a, P s t -> m s = (s', Ok a) -> exists t' b, n t = (t', Ok b) /\ Q s' t' /\ V a b.

Lemma lock_ret {A B} (V : A -> B -> Prop) P a b : V a b -> lock V P P (ret a) (ret b).
Proof. intros H s t s' x HP R. injection R as <- <-. exists t, b. auto. Qed.
Lemma lock_raise {A B} (V : A -> B -> Prop) P Q e n : lock V P Q (raise e) n.
Proof. intros s t s' x HP R. discriminate. Qed.
Lemma lock_gets {A B} (V : A -> B -> Prop) (P : st -> st -> Prop) f g : (forall s t, P s t -> V (f s) (g t)) -> lock V P P (gets f) (gets g).
Proof. intros H s t s' x HP R. injection R as <- <-. exists t, (g t). auto. Qed.
Lemma lock_reads {A B} (V : A -> B -> Prop) (P : st -> st -> Prop) f g : (forall s t a, P s t -> f s = Ok a -> exists b, g t = Ok b /\ V a b) -> lock V P P (reads f) (reads g).
Proof. intros H s t s' x HP R. injection R as <- R. destruct (H s t x HP R) as (b & G & Vb). exists t, b. unfold reads. rewrite G. auto. Qed.
Lemma lock_modify (P Q : st -> st -> Prop) f g : (forall s t, P s t -> Q (f s) (g t)) -> lock eq P Q (modify f) (modify g).
Proof. intros H s t s' x HP R. injection R as <- <-. exists (g t), tt. auto. Qed.
Lemma lock_bind {A B C D} (U : A -> B -> Prop) (V : C -> D -> Prop) P Q T m n (f : A -> M C) (g : B -> M D) :
  lock U P Q m n -> (forall a b, U a b -> lock V Q T (f a) (g b)) -> lock V P T (bind m f) (bind n g).
Proof.
  intros H1 H2 s t s' x HP R. apply bind_ok in R as (s1 & a & R1 & R2). destruct (H1 s t s1 a HP R1) as (t1 & b & N1 & Q1 & U1).
  destruct (H2 a b U1 s1 t1 s' x Q1 R2) as (t2 & d & N2 & Q2 & V2). exists t2, d. rewrite (bind_run _ _ _ _ _ N1). auto.
Qed.
Lemma lock_same {A C D} (V : C -> D -> Prop) P Q T (m n : M A) f g :
  lock eq P Q m n -> (forall a, lock V Q T (f a) (g a)) -> lock V P T (bind m f) (bind n g).
Proof. intros H1 H2. eapply lock_bind; [exact H1|]. intros a b ->. apply H2. Qed.
Lemma lock_weak {A B} (V W : A -> B -> Prop) (P P' Q Q' : st -> st -> Prop) m n : (forall s t, P' s t -> P s t) -> (forall s t, Q s t -> Q' s t) -> (forall a b, V a b -> W a b) ->
  lock V P Q m n -> lock W P' Q' m n.
Proof. intros A1 A2 A3 H s t s' a HP R. destruct (H s t s' a (A1 _ _ HP) R) as (t' & b & X & Y & Z). exists t', b. auto. Qed.
Lemma lock_mfor {A} P (l : list A) f g : (forall x, In x l -> lock eq P P (f x) (g x)) -> lock eq P P (mfor l f) (mfor l g).
Proof.
  induction l as [|x l IH]; intros H; cbn [mfor]; [apply lock_ret; reflexivity|].
  eapply lock_same; [apply H; left; reflexivity|]. intros _. apply IH. intros y Hy. apply H. right. exact Hy.
Qed.
Lemma lock_mmap {A B C} (V : B -> C -> Prop) P (l : list A) f g : (forall x, In x l -> lock V P P (f x) (g x)) -> lock (Forall2 V) P P (mmap f l) (mmap g l).
Proof.
  induction l as [|x l IH]; intros H; cbn [mmap]; [apply lock_ret; constructor|].
  eapply lock_bind; [apply H; left; reflexivity|]. intros a b Vab. eapply lock_bind; [apply IH; intros y Hy; apply H; right; exact Hy|].
  intros u v F. apply lock_ret. constructor; auto.
Qed.
Lemma Forall2_eq {A} (l l' : list A) : Forall2 eq l l' -> l = l'.
Proof. induction 1; congruence. Qed.
Lemma lock_mmap_eq {A B} P (l : list A) (f g : A -> M B) : (forall x, In x l -> lock eq P P (f x) (g x)) -> lock eq P P (mmap f l) (mmap g l).
Proof. intros H. eapply lock_weak; [| | |apply lock_mmap, H]; auto. intros a b. apply Forall2_eq. Qed.
Lemma lock_mfilter {A} P (l : list A) f g : (forall x, In x l -> lock eq P P (f x) (g x)) -> lock eq P P (mfilter f l) (mfilter g l).
Proof.
  induction l as [|x l IH]; intros H; cbn [mfilter]; [apply lock_ret; reflexivity|].
  eapply lock_same; [apply H; left; reflexivity|]. intros b. eapply lock_same; [apply IH; intros y Hy; apply H; right; exact Hy|].
  intros ys. apply lock_ret. reflexivity.
Qed.

Definition same_bw (a b : lbw) : Prop := match a, b with RInit, RInit => True | RUnrouted, RUnrouted => True | RNum q, RNum f => (f == q)%Q | _, _ => False end.
Definition same_path (a b : lpath) : Prop :=
  match a, b with PInit, PInit => True | PUnrouted, PUnrouted => True | PEmpty, PEmpty => True | PRouted p c x, PRouted q d y => q = p /\ d = c /\ (y == x)%Q | _, _ => False end.

Section Lock.
Variables (E : env) (k : kind).
(** what is known of traffic after so many additions, and of the amounts added *)
Variable tr : nat -> Q -> Q -> Prop.
Variable sh : Q -> Q -> Prop.

Definition same_traffic (P : Prop) (n : nat) (a b : traf) : Prop := match a, b with TDown, TDown => True | TNum q, TNum f => P -> tr n q f | _, _ => False end.
Definition iftwin (P : Prop) (n : nat) (a b : iface) : Prop :=
  b = if_traffic (i_traffic b) (if_res (i_res b) a) /\ (i_res b == i_res a)%Q /\ same_traffic P n (i_traffic a) (i_traffic b).
(** entries of path details *)
Definition inftwin (a b : pinfo) : Prop := pi_items b = pi_items a /\ pi_interfaces b = pi_interfaces a /\ pi_splits b = pi_splits a /\ sh (pi_traffic a) (pi_traffic b).
Definition same_detail (a b : pdetail) : Prop := b = a \/ exists xs ys, a = PDInfo xs /\ b = PDInfo ys /\ Forall2 inftwin xs ys.
Definition dmtwin (a b : demand) : Prop := b = dm_detail (d_detail b) a /\ same_detail (d_detail a) (d_detail b).
Definition lstwin (a b : lsp) : Prop :=
  b = ls_path (l_path b) (ls_res (l_res b) (ls_setup (l_setup b) a)) /\ same_path (l_path a) (l_path b) /\ same_bw (l_res a) (l_res b) /\ same_bw (l_setup a) (l_setup b).

Record twin (c : nat -> nat) (s t : st) : Prop := {
  tw_nd : h_nd t = h_nd s; tw_sr : h_sr t = h_sr s;
  tw_ifs : m_ifs t = m_ifs s; tw_nds : m_nds t = m_nds s; tw_dms : m_dms t = m_dms s; tw_lsps : m_lsps t = m_lsps s;
  tw_srs : m_srs t = m_srs s; tw_ckts : m_ckts t = m_ckts s; tw_groups : m_groups t = m_groups s;
  tw_next : s_next t = s_next s; tw_rng : s_rng t = s_rng s;
  tw_if : forall i, iftwin (In i (m_ifs s)) (c i) (h_if s i) (h_if t i);
  tw_dm : forall d, dmtwin (h_dm s d) (h_dm t d);
  tw_ls : forall l, lstwin (h_ls s l) (h_ls t l) }.

Lemma iftwin_traffic P n m a b v w : iftwin P n a b -> same_traffic P m v w -> iftwin P m (if_traffic v a) (if_traffic w b).
Proof.
  intros (A & B & _) S. split; [|split; [exact B|exact S]]. destruct a, b. simpl in *. injection A. intros. subst. reflexivity.
Qed.
Lemma iftwin_failed P n a b : iftwin P n a b -> i_failed b = i_failed a.
Proof. intros (-> & _). reflexivity. Qed.

(** Updates of both states *)
Lemma twin_if c c' s t i f g : twin c s t -> (forall j, j <> i -> c' j = c j) -> iftwin (In i (m_ifs s)) (c' i) (f (h_if s i)) (g (h_if t i)) -> twin c' (upd_if i f s) (upd_if i g t).
Proof.
  intros [] H F. constructor; auto. intros j. simpl. unfold fupd. destruct (Nat.eqb_spec i j) as [<-|N]; [exact F|]. rewrite H by auto. apply tw_if0.
Qed.
Lemma twin_dm c s t d f g : twin c s t -> dmtwin (f (h_dm s d)) (g (h_dm t d)) -> twin c (upd_dm d f s) (upd_dm d g t).
Proof. intros [] F. constructor; auto. intros j. simpl. unfold fupd. destruct (Nat.eqb_spec d j) as [<-|N]; auto. Qed.
Lemma twin_ls c s t l f g : twin c s t -> lstwin (f (h_ls s l)) (g (h_ls t l)) -> twin c (upd_ls l f s) (upd_ls l g t).
Proof. intros [] F. constructor; auto. intros j. simpl. unfold fupd. destruct (Nat.eqb_spec l j) as [<-|N]; auto. Qed.
Lemma twin_groups c s t g : twin c s t -> twin c (set_groups g s) (set_groups g t).
Proof. intros []. constructor; auto. Qed.
Lemma twin_ckts c s t g : twin c s t -> twin c (set_ckts g s) (set_ckts g t).
Proof. intros []. constructor; auto. Qed.
Lemma twin_rng c s t : twin c s t -> twin c (bump_rng s) (bump_rng t).
Proof. intros []. constructor; auto. simpl. congruence. Qed.

(** ** What both states agree on *)
Section Same.
Variables (c : nat -> nat) (s t : st).
Hypothesis H : twin c s t.

Lemma tw_idata i : i_name (h_if t i) = i_name (h_if s i) /\ i_cost (h_if t i) = i_cost (h_if s i) /\ i_cap (h_if t i) = i_cap (h_if s i) /\
  i_node (h_if t i) = i_node (h_if s i) /\ i_rem (h_if t i) = i_rem (h_if s i) /\ i_cid (h_if t i) = i_cid (h_if s i) /\
  i_failed (h_if t i) = i_failed (h_if s i) /\ i_srlgs (h_if t i) = i_srlgs (h_if s i) /\
  i_rsvp (h_if t i) = i_rsvp (h_if s i) /\ i_pct (h_if t i) = i_pct (h_if s i) /\ i_inckt (h_if t i) = i_inckt (h_if s i).
Proof. destruct (tw_if _ _ _ H i) as [-> _]. simpl. repeat split. Qed.
Lemma tw_ddata d : d_src (h_dm t d) = d_src (h_dm s d) /\ d_dst (h_dm t d) = d_dst (h_dm s d) /\ d_traffic (h_dm t d) = d_traffic (h_dm s d) /\
  d_name (h_dm t d) = d_name (h_dm s d) /\ d_path (h_dm t d) = d_path (h_dm s d).
Proof. destruct (tw_dm _ _ _ H d) as [-> _]. simpl. repeat split. Qed.
Lemma tw_ldata l : l_src (h_ls t l) = l_src (h_ls s l) /\ l_dst (h_ls t l) = l_dst (h_ls s l) /\ l_name (h_ls t l) = l_name (h_ls s l) /\
  l_cfg (h_ls t l) = l_cfg (h_ls s l) /\ l_mm (h_ls t l) = l_mm (h_ls s l) /\ l_imm (h_ls t l) = l_imm (h_ls s l).
Proof. destruct (tw_ls _ _ _ H l) as [-> _]. simpl. repeat split. Qed.
Lemma tw_local i : ilocal t i = ilocal s i.
Proof. unfold ilocal. destruct (tw_idata i) as (_ & _ & _ & -> & _). now rewrite (tw_nd _ _ _ H). Qed.
Lemma tw_remote i : iremote t i = iremote s i.
Proof. unfold iremote. destruct (tw_idata i) as (_ & _ & _ & _ & -> & _). now rewrite (tw_nd _ _ _ H). Qed.
Lemma tw_key i : ikey t i = ikey s i.
Proof. unfold ikey. rewrite tw_local. now destruct (tw_idata i) as (-> & _). Qed.
Lemma tw_lsrc l : lsrc t l = lsrc s l.
Proof. unfold lsrc. destruct (tw_ldata l) as (-> & _). now rewrite (tw_nd _ _ _ H). Qed.
Lemma tw_ldst l : ldst t l = ldst s l.
Proof. unfold ldst. destruct (tw_ldata l) as (_ & -> & _). now rewrite (tw_nd _ _ _ H). Qed.
Lemma tw_dsrc l : dsrc t l = dsrc s l.
Proof. unfold dsrc. destruct (tw_ddata l) as (-> & _). now rewrite (tw_nd _ _ _ H). Qed.
Lemma tw_ddst l : ddst t l = ddst s l.
Proof. unfold ddst. destruct (tw_ddata l) as (_ & -> & _). now rewrite (tw_nd _ _ _ H). Qed.
Lemma tw_says l : says_unrouted (l_path (h_ls t l)) = says_unrouted (l_path (h_ls s l)).
Proof. destruct (tw_ls _ _ _ H l) as (_ & P & _). destruct (l_path (h_ls s l)), (l_path (h_ls t l)); simpl in *; tauto. Qed.
Lemma tw_notun l : not_unrouted (l_path (h_ls t l)) = not_unrouted (l_path (h_ls s l)).
Proof. destruct (tw_ls _ _ _ H l) as (_ & P & _). destruct (l_path (h_ls s l)), (l_path (h_ls t l)); simpl in *; tauto. Qed.
Lemma tw_routed l : lsp_routed t l = lsp_routed s l.
Proof. unfold lsp_routed. now rewrite tw_says. Qed.
Lemma tw_interfaces l : lsp_interfaces t l = lsp_interfaces s l.
Proof. unfold lsp_interfaces. destruct (tw_ls _ _ _ H l) as (_ & P & _). destruct (l_path (h_ls s l)), (l_path (h_ls t l)); simpl in *; try tauto. destruct P as (-> & _). reflexivity. Qed.
Lemma tw_edge i : edge_of t i = edge_of s i.
Proof. unfold edge_of. rewrite tw_local, tw_remote. now destruct (tw_idata i) as (_ & -> & _). Qed.
Lemma tw_names : node_names t = node_names s.
Proof. unfold node_names. now rewrite (tw_nds _ _ _ H), (tw_nd _ _ _ H). Qed.
Lemma tw_between u v : ifaces_between t u v = ifaces_between s u v.
Proof. unfold ifaces_between. rewrite (tw_ifs _ _ _ H). apply filter_ext. intros i. now rewrite tw_local, tw_remote. Qed.
Lemma tw_first u v : first_between t u v = first_between s u v.
Proof. unfold first_between. rewrite (tw_ifs _ _ _ H). apply find_ext'. intros i. now rewrite tw_local, tw_remote. Qed.
Lemma tw_perf_path p : perf_path t p = perf_path s p.
Proof. unfold perf_path. apply flat_map_ext. intros [u v]. simpl. now rewrite tw_first. Qed.
Lemma tw_iface_paths G ps : iface_paths k t G ps = iface_paths k s G ps.
Proof. unfold iface_paths. destruct k; auto. apply map_ext. apply tw_perf_path. Qed.
Lemma tw_get_node n : get_node t n = get_node s n.
Proof. unfold get_node. now rewrite (tw_nds _ _ _ H), (tw_nd _ _ _ H). Qed.
Lemma tw_node_eqb a b : node_eqb t a b = node_eqb s a b.
Proof. unfold node_eqb. now rewrite !(tw_nd _ _ _ H). Qed.
Lemma tw_iface_eqb a b : iface_eqb t a b = iface_eqb s a b.
Proof.
  unfold iface_eqb. rewrite !tw_node_eqb. destruct (tw_idata a) as (-> & _ & -> & -> & -> & -> & _). destruct (tw_idata b) as (-> & _ & -> & -> & -> & -> & _). reflexivity.
Qed.
Lemma tw_mem_if i l : mem_if t i l = mem_if s i l.
Proof. unfold mem_if. apply existsb_ext'. intros j. apply tw_iface_eqb. Qed.
Lemma tw_item_eqb a b : item_eqb t a b = item_eqb s a b.
Proof. unfold item_eqb. destruct a, b; auto. apply tw_iface_eqb. Qed.
Lemma tw_mem_item a l : mem_item t a l = mem_item s a l.
Proof. unfold mem_item. apply existsb_ext'. intros j. apply tw_item_eqb. Qed.
Lemma tw_items_eqb a : forall b, items_eqb t a b = items_eqb s a b.
Proof. induction a; intros [|y b]; simpl; auto. now rewrite tw_item_eqb, IHa. Qed.
Lemma tw_group_slice p g : group_slice t p g = group_slice s p g.
Proof.
  unfold group_slice. destruct g as [|l g]; auto. destruct (tw_ldata l) as (L1 & L2 & _). rewrite L1, L2.
  rewrite (pos_where_ext _ (fun it => match it with IIf i => node_eqb s (i_node (h_if s i)) (l_src (h_ls s l)) | ILsp _ => false end)).
  2:{ intros [i|]; [|reflexivity]. rewrite tw_node_eqb. destruct (tw_idata i) as (_ & _ & _ & -> & _). reflexivity. }
  rewrite (pos_where_ext (fun it => match it with IIf i => node_eqb t (i_rem (h_if t i)) _ | _ => false end)
    (fun it => match it with IIf i => node_eqb s (i_rem (h_if s i)) (l_dst (h_ls s l)) | ILsp _ => false end)).
  2:{ intros [i|]; [|reflexivity]. rewrite tw_node_eqb. destruct (tw_idata i) as (_ & _ & _ & _ & -> & _). reflexivity. }
  reflexivity.
Qed.
Lemma tw_insert gs p : insert_lsps t gs p = insert_lsps s gs p.
Proof. unfold insert_lsps. rewrite (map_ext _ _ (tw_group_slice p)). reflexivity. Qed.
Lemma tw_substitute gs ps : substitute_lsps t gs ps = substitute_lsps s gs ps.
Proof.
  unfold substitute_lsps. destruct gs; auto. apply fold_left_ext. intros acc p. rewrite tw_insert. destruct (insert_lsps s _ p); auto.
  apply fold_left_ext. intros a q. rewrite (existsb_ext' (items_eqb t q) (items_eqb s q)); auto. intros. apply tw_items_eqb.
Qed.
Lemma tw_item_src it : item_src t it = item_src s it.
Proof. destruct it; simpl; [apply tw_local|apply tw_lsrc]. Qed.
Lemma tw_item_set ps : item_set t ps = item_set s ps.
Proof.
  unfold item_set. generalize (List.concat ps). induction l as [|x l IH]; simpl; auto. f_equal. rewrite IH. apply filter_ext. intros y. now rewrite tw_item_eqb.
Qed.
Lemma tw_next_hop items n : next_hop_count t items n = next_hop_count s items n.
Proof. unfold next_hop_count. do 2 f_equal. apply filter_ext. intros it. now rewrite tw_item_src. Qed.
Lemma tw_splits items p : forall a, splits_along t items a p = splits_along s items a p.
Proof. induction p as [|x p IH]; intros a; simpl; auto. now rewrite tw_item_src, tw_next_hop, IH. Qed.
Lemma tw_by_circuit u v ci : iface_by_circuit t u v ci = iface_by_circuit s u v ci.
Proof.
  unfold iface_by_circuit. rewrite tw_between.
  rewrite (filter_ext (fun i => cid_eqb (i_cid (h_if t i)) ci) (fun i => cid_eqb (i_cid (h_if s i)) ci)); [reflexivity|].
  intros i. destruct (tw_idata i) as (_ & _ & _ & _ & _ & -> & _); reflexivity.
Qed.
Lemma tw_edge_ends e : edge_ends k t e = edge_ends k s e.
Proof. unfold edge_ends. rewrite !tw_first. destruct (tw_idata (e_i e)) as (_ & _ & _ & _ & _ & -> & _). destruct k; auto. now rewrite !tw_by_circuit. Qed.
Lemma tw_parallel : parallel_links t = parallel_links s.
Proof. unfold parallel_links. rewrite (tw_ifs _ _ _ H). rewrite (map_ext _ (fun i => pair_key (ilocal s i) (iremote s i))); auto. intros i. now rewrite tw_local, tw_remote. Qed.
Lemma tw_srlg : srlg_errors t = srlg_errors s.
Proof. unfold srlg_errors, srlg_nodes. now rewrite (tw_srs _ _ _ H), (tw_nds _ _ _ H), (tw_nd _ _ _ H). Qed.
Lemma tw_dup : dup_node_names t = dup_node_names s.
Proof. unfold dup_node_names. now rewrite tw_names, (tw_nds _ _ _ H). Qed.
Lemma tw_build : build_groups E (lsrc t) (ldst t) (m_lsps t) = build_groups E (lsrc s) (ldst s) (m_lsps s).
Proof. apply build_ext; [now rewrite (tw_nd _ _ _ H)|apply H|]. intros l. destruct (tw_ldata l) as (-> & -> & _). auto. Qed.
Lemma tw_reserved i : (FloatSim.reserved_bw fl t i == fl (reserved_bw s i))%Q.
Proof.
  unfold FloatSim.reserved_bw, reserved_bw. destruct (tw_if _ _ _ H i) as (_ & R & _). rewrite (fl_compat (round1 (i_res (h_if t i))) (round1 (i_res (h_if s i)))); [reflexivity|].
  rewrite !round1_roundd. now rewrite (roundd_compat 10 _ _ R).
Qed.
End Same.

(** ** The graph of all interfaces *)
Definition signs (s t : st) : Prop := forall i, In i (m_ifs s) -> Qleb 0 (FloatSim.reservable_bw fl t i) = Qleb 0 (reservable_bw s i).
Definition tws (c : nat -> nat) (s t : st) : Prop := twin c s t /\ signs s t.

Lemma tws_graph c s t b r : tws c s t -> FloatSim.make_graph fl k t b 0 r = make_graph k s b 0 r.
Proof.
  intros [H S]. unfold FloatSim.make_graph, make_graph. rewrite (tw_names _ _ _ H), (tw_ifs _ _ _ H), (map_ext _ _ (tw_edge _ _ _ H)). do 3 f_equal.
  assert (X : forall l, incl l (m_ifs s) -> filter (FloatSim.considered fl t b 0 r) l = filter (considered s b 0 r) l).
  { induction l as [|i l IH]; intros I; auto. simpl. unfold FloatSim.considered at 1, considered at 1. rewrite (S i) by (apply I; left; auto).
    destruct (tw_idata _ _ _ H i) as (_ & _ & _ & _ & _ & _ & -> & _ & -> & _). rewrite IH; auto. intros x Hx. apply I. now right. }
  apply X. apply incl_refl.
Qed.

Lemma signs_if s t i f g : signs s t ->
  (i_cap (f (h_if s i)) = i_cap (h_if s i) /\ i_pct (f (h_if s i)) = i_pct (h_if s i) /\ i_rsvp (f (h_if s i)) = i_rsvp (h_if s i) /\ i_res (f (h_if s i)) = i_res (h_if s i)) ->
  (i_cap (g (h_if t i)) = i_cap (h_if t i) /\ i_pct (g (h_if t i)) = i_pct (h_if t i) /\ i_rsvp (g (h_if t i)) = i_rsvp (h_if t i) /\ i_res (g (h_if t i)) = i_res (h_if t i)) ->
  signs (upd_if i f s) (upd_if i g t).
Proof.
  intros S (F1 & F2 & F3 & F4) (G1 & G2 & G3 & G4) j Hj. specialize (S j Hj). unfold FloatSim.reservable_bw, reservable_bw, FloatSim.reserved_bw, reserved_bw in *. simpl. unfold fupd.
  destruct (Nat.eqb_spec i j) as [<-|N]; auto. rewrite F1, F2, F3, F4, G1, G2, G3, G4. exact S.
Qed.

(** ** Metrics and groups *)
Lemma lstwin_mm a b m i : lstwin a b -> lstwin (ls_mm m i a) (ls_mm m i b).
Proof. intros (-> & X). split; [reflexivity|exact X]. Qed.
Ltac same_tac := let R := fresh in intros R; injection R as <- <-; eexists _, _; split; [reflexivity|split; [split; assumption|reflexivity]].
Lemma lock_get_mm c l : lock eq (tws c) (tws c) (get_manual_metric l) (get_manual_metric l).
Proof.
  intros s t s' a [H S]. unfold get_manual_metric. rewrite !bind_gets. destruct (tw_ldata _ _ _ H l) as (_ & _ & _ & _ & -> & ->).
  destruct (l_imm (h_ls s l)) as [z|].
  - destruct (Z.eqb z 0); [same_tac|]. destruct (0 <? z)%Z; [|intros R; discriminate].
    rewrite !bind_modify. intros R. injection R as <- <-. eexists _, _. split; [reflexivity|]. split; [|reflexivity]. split; [|exact S].
    apply twin_ls; auto. apply lstwin_mm. apply H.
  - same_tac.
Qed.
Lemma lock_effective c l : lock eq (tws c) (tws c) (effective_metric E k l) (FloatSim.effective_metric fl E k l).
Proof.
  unfold effective_metric, FloatSim.effective_metric. eapply lock_same; [apply lock_get_mm|]. intros [z|].
  - apply (lock_same eq (tws c) (tws c) (tws c)); [apply lock_modify; intros s t [H S]; split; [|exact S]; apply twin_ls; [exact H|]|].
    + destruct (tw_ldata _ _ _ H l) as (_ & _ & _ & _ & -> & _). apply lstwin_mm. apply H.
    + intros _. eapply lock_same; [apply lock_get_mm|]. intros [y|]; apply lock_ret; reflexivity.
  - intros s t s' a [H S]. rewrite !bind_gets. rewrite (tw_says _ _ _ H).
    destruct (says_unrouted (l_path (h_ls s l))); [same_tac|].
    assert (X : fst (FloatSim.get_shortest_path fl E k t (lsrc t l) (ldst t l) 0) = fst (get_shortest_path E k s (lsrc s l) (ldst s l) 0)).
    { unfold FloatSim.get_shortest_path, get_shortest_path. rewrite (tws_graph c s t) by (split; auto). rewrite (tw_lsrc _ _ _ H), (tw_ldst _ _ _ H).
      destruct (nx_asp _ _ _ _); reflexivity. }
    rewrite X. destruct (fst (get_shortest_path E k s (lsrc s l) (ldst s l) 0)); same_tac.
Qed.
Lemma lock_groups c : lock eq (tws c) (tws c) (parallel_lsp_groups E) (parallel_lsp_groups E).
Proof.
  intros s t s' a [H S]. unfold parallel_lsp_groups. rewrite !bind_gets. rewrite (tw_groups _ _ _ H). destruct (m_groups s).
  - rewrite !bind_gets, !bind_modify. rewrite (tw_build _ _ _ H). intros R. injection R as <- <-. eexists _, _. split; [reflexivity|]. split; [|reflexivity].
    split; [|exact S]. now apply twin_groups.
  - same_tac.
Qed.

Ltac lk_step :=
  match goal with
  | |- lock eq ?P ?T (bind _ _) (bind _ _) => apply (lock_same eq P P T); [|intro]
  | |- lock _ _ _ (ret _) (ret _) => apply lock_ret
  | |- lock _ _ _ (raise _) _ => apply lock_raise
  | |- lock eq _ _ (mmap _ _) (mmap _ _) => apply lock_mmap_eq; intros ? _
  | |- lock eq _ _ (mfilter _ _) (mfilter _ _) => apply lock_mfilter; intros ? _
  | |- lock _ _ _ (effective_metric _ _ _) _ => apply lock_effective
  | |- lock _ _ _ (parallel_lsp_groups _) _ => apply lock_groups
  | |- lock _ _ _ (gets _) _ => apply lock_gets; intros ? ? [? ?]
  | |- lock _ _ _ (if ?b then _ else _) _ => destruct b
  | |- lock _ _ _ (match ?x with _ => _ end) _ => destruct x
  end.
Ltac lk_go := repeat (first [lk_step | assumption | reflexivity]).
Lemma tw_filter_routed c s t cands : twin c s t -> filter (lsp_routed s) cands = filter (lsp_routed t) cands.
Proof. intros H. apply filter_ext. intros l. symmetry. apply (tw_routed _ _ _ H). Qed.

Lemma lock_min_metric c key : lock eq (tws c) (tws c) (min_metric_lsps E k key) (FloatSim.min_metric_lsps fl E k key).
Proof. unfold min_metric_lsps, FloatSim.min_metric_lsps. lk_go; [now apply (tw_filter_routed c)|]. symmetry. now apply (tw_routed c). Qed.
Lemma lock_e2e c d : lock eq (tws c) (tws c) (e2e_lsps E k d) (FloatSim.e2e_lsps fl E k d).
Proof.
  unfold e2e_lsps, FloatSim.e2e_lsps. lk_go; [|now apply (tw_filter_routed c)]. now rewrite (tw_dsrc _ _ _ H), (tw_ddst _ _ _ H).
Qed.
Lemma lock_first c src ds : lock eq (tws c) (tws c) (first_lsps E k src ds) (FloatSim.first_lsps fl E k src ds).
Proof. induction ds; cbn [first_lsps FloatSim.first_lsps]; lk_go. apply lock_min_metric. Qed.
Lemma lock_reads_eq {A} c (f g : st -> res A) : (forall s t, twin c s t -> g t = f s) -> lock eq (tws c) (tws c) (reads f) (reads g).
Proof. intros X. apply lock_reads. intros s t a [H _] F. exists a. rewrite (X s t H). auto. Qed.
Lemma lock_path_lsps c full rest : forall sk acc, lock eq (tws c) (tws c) (path_lsps E k full rest sk acc) (FloatSim.path_lsps fl E k full rest sk acc).
Proof.
  induction rest; cbn [path_lsps FloatSim.path_lsps]; intros; lk_go; auto; try apply lock_first; try (apply lock_reads_eq; intros; now apply (tw_get_node c)).
  - now rewrite (tw_nd _ _ _ H).
  - now rewrite (tw_nd _ _ _ H).
  - now rewrite (tw_ldst _ _ _ H).
Qed.
Lemma lock_last c nps : forall acc, lock eq (tws c) (tws c) (last_path_lsps E k nps acc) (FloatSim.last_path_lsps fl E k nps acc).
Proof. induction nps; cbn [last_path_lsps FloatSim.last_path_lsps]; intros; lk_go; auto. apply lock_path_lsps. Qed.
Lemma lock_path_metric c p : lock eq (tws c) (tws c) (path_metric E k p) (FloatSim.path_metric fl E k p).
Proof.
  induction p as [|[i|l] p IH]; cbn [path_metric FloatSim.path_metric]; lk_go. symmetry. apply (tw_idata _ _ _ H).
Qed.
Lemma lock_inspect c ps : lock eq (tws c) (tws c) (inspect_metrics E k ps) (FloatSim.inspect_metrics fl E k ps).
Proof. unfold inspect_metrics, FloatSim.inspect_metrics. lk_go. apply lock_path_metric. Qed.
Lemma lock_shortcuts c ps nps : lock eq (tws c) (tws c) (find_igp_shortcuts E k ps nps) (FloatSim.find_igp_shortcuts fl E k ps nps).
Proof.
  unfold find_igp_shortcuts, FloatSim.find_igp_shortcuts. lk_go; try apply lock_last; try apply lock_inspect; try (apply lock_reads_eq; intros; now apply (tw_get_node c)).
  - now rewrite (tw_nd _ _ _ H).
  - symmetry. now apply (tw_substitute c).
Qed.
Lemma dmtwin_path p a b : dmtwin a b -> dmtwin (dm_path p a) (dm_path p b).
Proof. intros [-> X]. split; [reflexivity|exact X]. Qed.
Lemma lock_dpath c d p : lock eq (tws c) (tws c) (modify (upd_dm d (dm_path p))) (modify (upd_dm d (dm_path p))).
Proof. apply lock_modify. intros s t [H S]. split; [|exact S]. apply twin_dm; auto. apply dmtwin_path. apply H. Qed.
Lemma lock_route_demand c G d : lock eq (tws c) (tws c) (route_demand E k G d) (FloatSim.route_demand fl E k G d).
Proof.
  assert (SC := lock_shortcuts c). unfold route_demand, FloatSim.route_demand. lk_go; try apply lock_dpath; try apply lock_e2e; try apply SC.
  - now rewrite (tw_dsrc _ _ _ H), (tw_ddst _ _ _ H).
  - now rewrite (tw_iface_paths _ _ _ H).
Qed.

(** ** Traffic *)
Variable loose : Prop.
Hypothesis loose_tr : loose -> forall n q f, tr n q f.
Hypothesis loose_sh : loose -> forall x y, sh x y.
Hypothesis tr_zero : forall n, tr n 0 0.
Hypothesis tr_le : forall n m q f, (n <= m)%nat -> tr n q f -> tr m q f.
Hypothesis tr_add : forall n q f x y, tr n q f -> sh x y -> tr (S n) (q + x)%Q (fl (f + y)%Q).

Lemma st_le c c' s t : (forall i, c i <= c' i)%nat \/ loose -> twin c s t -> twin c' s t.
Proof.
  intros L []. constructor; auto. intros i. destruct (tw_if0 i) as (A & B & C). repeat split; auto. unfold same_traffic in *.
  destruct (i_traffic (h_if s i)), (i_traffic (h_if t i)); auto. intros I. destruct L as [L|L]; [eapply tr_le; eauto|auto].
Qed.
Lemma tws_le c c' s t : (forall i, c i <= c' i)%nat \/ loose -> tws c s t -> tws c' s t.
Proof. intros L [H S]. split; auto. eapply st_le; eauto. Qed.
Lemma lock_le {A B} (V : A -> B -> Prop) P c c' m n : (forall i, c i <= c' i)%nat \/ loose -> lock V P (tws c) m n -> lock V P (tws c') m n.
Proof. intros L. apply lock_weak; auto. intros s t. now apply tws_le. Qed.
Definition one (i j : nat) : nat := if Nat.eqb i j then 1%nat else 0%nat.
Lemma lock_add_traffic c i x y : sh x y -> lock eq (tws c) (tws (fun j => one i j + c j)%nat) (add_traffic i x) (FloatSim.add_traffic fl i y).
Proof.
  intros X s t s' a [H S]. unfold add_traffic, FloatSim.add_traffic. rewrite !bind_gets. destruct (tw_if _ _ _ H i) as (A & B & C).
  unfold same_traffic in C. destruct (i_traffic (h_if s i)) as [|q]; [intros R; discriminate|]. destruct (i_traffic (h_if t i)) as [|f] eqn:TT; [destruct C|].
  intros R. injection R as <- <-. eexists _, _. split; [reflexivity|]. split; [|reflexivity]. split.
  - apply (twin_if c); auto.
    + intros j N. unfold one. destruct (Nat.eqb_spec i j); [subst; congruence|reflexivity].
    + unfold one. rewrite Nat.eqb_refl. split; [|split].
      * rewrite A at 1. destruct (h_if s i); reflexivity.
      * exact B.
      * simpl. intros I. apply tr_add; auto.
  - apply signs_if; auto; repeat split.
Qed.

(** loops that count *)
Fixpoint total {A} (w : A -> nat -> nat) (l : list A) (i : nat) : nat := match l with [] => 0%nat | x :: tl => (w x i + total w tl i)%nat end.
Lemma lock_mfor_count {A B} (U : A -> B -> Prop) (w : A -> nat -> nat) l l' f g : Forall2 U l l' ->
  (forall c x y, In x l -> U x y -> lock eq (tws c) (tws (fun i => w x i + c i)%nat) (f x) (g y)) -> forall c,
  lock eq (tws c) (tws (fun i => total w l i + c i)%nat) (mfor l f) (mfor l' g).
Proof.
  induction 1 as [|x y l l' Hxy H IH]; intros F c; cbn [mfor total].
  - eapply lock_le; [left|apply lock_ret; reflexivity]. intros; cbn; lia.
  - eapply lock_same; [apply F; [left; reflexivity|exact Hxy]|]. intros _. eapply lock_le; [left|apply IH; intros; apply F; auto; now right].
    intros i. cbn. lia.
Qed.
Lemma Forall2_refl {A} (l : list A) : Forall2 eq l l.
Proof. induction l; constructor; auto. Qed.
Lemma total_one_le l j : NoDup l -> (total one l j <= 1)%nat.
Proof.
  intros N. assert (X : forall l, ~ In j l -> total one l j = 0%nat).
  { induction l0 as [|x l0 IH]; intros F; auto. simpl. unfold one at 1. destruct (Nat.eqb_spec x j); [exfalso; apply F; left; auto|]. apply IH. intros I. apply F. now right. }
  induction N as [|x l Nx N IH]; simpl; auto. unfold one at 1. destruct (Nat.eqb_spec x j) as [->|]; auto. rewrite X; auto.
Qed.
Lemma total_const {A} (w : A -> nat -> nat) n l j : (forall x, In x l -> w x j <= n)%nat -> (total w l j <= List.length l * n)%nat.
Proof. induction l as [|x l IH]; simpl; intros H; auto. specialize (IH (fun y Hy => H y (or_intror Hy))). specialize (H x (or_introl eq_refl)). lia. Qed.

Lemma lock_adds c l x y : sh x y -> lock eq (tws c) (tws (fun j => total one l j + c j)%nat) (mfor l (fun i => add_traffic i x)) (mfor l (fun i => FloatSim.add_traffic fl i y)).
Proof. intros X. apply (lock_mfor_count eq one l l); [apply Forall2_refl|]. intros c' i i' _ <-. now apply lock_add_traffic. Qed.

Lemma inftwin_items a b : inftwin a b -> pinfo_items b = pinfo_items a.
Proof. intros (A & B & _). unfold pinfo_items. now rewrite A, B. Qed.

Definition w_item (n : nat) (it : item) (j : nat) : nat := match it with IIf i => (if Nat.eqb i j then n else 0)%nat | ILsp _ => 0%nat end.
Lemma lock_item c xs ys it : Forall2 inftwin xs ys -> loose \/ (k = Flex /\ exists i, it = IIf i) ->
  lock eq (tws c) (tws (fun j => w_item (List.length xs) it j + c j)%nat) (add_item_traffic k xs it) (FloatSim.add_item_traffic fl k ys it).
Proof.
  intros F L. unfold add_item_traffic, FloatSim.add_item_traffic. destruct it as [i|l].
  - assert (A : lock eq (tws c) (tws (fun j => w_item (List.length xs) (IIf i) j + c j)%nat)
        (mfor xs (fun inf => b <- gets (fun s => mem_item s (IIf i) (pinfo_items inf)) ;; if b : bool then add_traffic i (pi_traffic inf) else ret tt))
        (mfor ys (fun inf => b <- gets (fun s => mem_item s (IIf i) (pinfo_items inf)) ;; if b : bool then FloatSim.add_traffic fl i (pi_traffic inf) else ret tt))).
    { eapply lock_le; [left|apply (lock_mfor_count inftwin (fun _ => one i) xs ys); [exact F|]].
      - intros j. simpl. apply Nat.add_le_mono_r. unfold one. clear. induction xs as [|x xs IH]; simpl; [destruct (Nat.eqb i j); lia|].
        destruct (Nat.eqb i j); lia.
      - intros c' a b _ Hab. eapply lock_same; [apply lock_gets|].
        + intros s t [H S]. cbn. rewrite (inftwin_items _ _ Hab). symmetry. apply (tw_mem_item _ _ _ H).
        + intros [|]; [apply lock_add_traffic; apply Hab|]. eapply lock_le; [left|apply lock_ret; reflexivity]. intros; cbn; lia. }
    destruct L as [L|[-> _]]; [|exact A]. destruct k; [exact A|].
    eapply (lock_bind (fun _ _ => True)); [apply lock_gets; auto|]. intros x y _. eapply lock_le; [now right|]. apply lock_add_traffic. now apply loose_sh.
  - assert (LL : loose) by (destruct L as [L|(_ & i & X)]; [exact L|discriminate]). destruct k; [|apply lock_raise].
    eapply (lock_bind (fun _ _ => True)); [apply lock_gets; auto|]. intros x y _. eapply lock_same.
    + apply lock_reads. intros s t a [H S] G. exists a. split; auto. now rewrite (tw_interfaces _ _ _ H).
    + intros ifs. eapply lock_le; [now right|]. apply lock_adds. now apply loose_sh.
Qed.
Lemma total_items n l j : NoDup l -> (total (w_item n) l j <= n)%nat.
Proof.
  intros N. assert (X : forall l, ~ In (IIf j) l -> total (w_item n) l j = 0%nat).
  { induction l0 as [|x l0 IH]; intros F; auto. simpl. rewrite IH by (intros I; apply F; now right). destruct x as [i|]; simpl; auto.
    destruct (Nat.eqb_spec i j); [exfalso; apply F; left; congruence|reflexivity]. }
  induction N as [|x l Nx N IH]; simpl; [lia|]. destruct x as [i|m]; simpl; [|exact IH]. destruct (Nat.eqb_spec i j) as [->|]; [rewrite X; auto; lia|exact IH].
Qed.
Lemma item_eqb_refl s it : item_eqb s it it = true.
Proof. destruct it; simpl; [apply iface_eqb_refl|apply Nat.eqb_refl]. Qed.
Lemma item_set_nodup s ps : NoDup (item_set s ps).
Proof.
  unfold item_set. generalize (List.concat ps). intros l. induction l as [|a l IH]; simpl; constructor.
  - rewrite filter_In. intros [_ H]. rewrite item_eqb_refl in H; discriminate.
  - now apply NoDup_filter'.
Qed.
Lemma item_set_in s ps it : In it (item_set s ps) -> exists p, In p ps /\ In it p.
Proof. intros H. apply ShareProofs.dedup_In in H. apply in_concat in H as (p & A & B). eauto. Qed.

(** shares of a demand *)
Variable pos : Q -> Prop.
Hypothesis sh_path : forall t mx, pos t -> (0 <= mx)%Z -> sh (t / inject_Z mx)%Q (fl (fl t / fl (inject_Z mx)))%Q.
Hypothesis sh_lsp : forall t n, pos t -> (0 < n)%Z -> sh (t / inject_Z n)%Q (fl (t / inject_Z n))%Q.

Lemma splits_nonneg s items p : forall a, (0 <= a)%Z -> Forall (fun z => 0 <= z)%Z (map snd (splits_along s items a p)).
Proof.
  induction p as [|x p IH]; intros a Ha; simpl; constructor.
  - simpl. apply Z.mul_nonneg_nonneg; auto. unfold next_hop_count. lia.
  - apply IH. apply Z.mul_nonneg_nonneg; auto. unfold next_hop_count. lia.
Qed.
Lemma Zmax_nonneg l m : Zmax_list l = Some m -> Forall (fun z => 0 <= z)%Z l -> (0 <= m)%Z.
Proof.
  destruct l as [|x l]; intros M F; [discriminate|]. simpl in M. injection M as <-. inversion F as [|? ? Fx Fl]; subst. clear F. revert x Fx.
  induction Fl as [|y l Fy Fl IH]; intros x Fx; simpl; auto. apply IH. lia.
Qed.
Lemma rmap_twin {A B C} (f : A -> res B) (g : A -> res C) (U : B -> C -> Prop) l bs :
  (forall x b, In x l -> f x = Ok b -> exists c, g x = Ok c /\ U b c) -> rmap f l = Ok bs -> exists cs, rmap g l = Ok cs /\ Forall2 U bs cs.
Proof.
  revert bs. induction l as [|x l IH]; simpl; intros bs H R; [injection R as <-; exists []; split; [reflexivity|constructor]|].
  apply rbind_ok in R as (b & Hb & R). apply rbind_ok in R as (bs' & Hbs & R). injection R as <-.
  destruct (H x b (or_introl eq_refl) Hb) as (c & Hc & U1). destruct (IH bs' (fun y d Hy => H y d (or_intror Hy)) Hbs) as (cs & Hcs & U2).
  exists (c :: cs). rewrite Hc, Hcs. split; [reflexivity|constructor; auto].
Qed.
Lemma path_entry_twin c s t items q p b : twin c s t -> pos q -> loose \/ k = Flex -> path_entry k s items q p = Ok b ->
  exists b', FloatSim.path_entry fl k t items q p = Ok b' /\ inftwin b b'.
Proof.
  intros H Pq L. unfold path_entry, FloatSim.path_entry. rewrite (tw_splits _ _ _ H). destruct (Zmax_list _) as [mx|] eqn:M; [|discriminate].
  assert (Hm : (0 <= mx)%Z) by (apply (Zmax_nonneg _ _ M); apply splits_nonneg; lia).
  intros R. injection R as <-. eexists. split; [reflexivity|]. destruct L as [L|K].
  - destruct k; repeat split; simpl; now apply loose_sh.
  - rewrite K. repeat split; simpl. now apply sh_path.
Qed.
Lemma rmap_length {A B} (f : A -> res B) l bs : rmap f l = Ok bs -> List.length bs = List.length l.
Proof.
  revert bs. induction l as [|x l IH]; simpl; intros bs R; [now injection R as <-|]. apply rbind_ok in R as (b & Hb & R). apply rbind_ok in R as (bs' & Hbs & R). injection R as <-.
  simpl. now rewrite (IH bs').
Qed.
Lemma dmtwin_detail a b xs ys : dmtwin a b -> Forall2 inftwin xs ys -> dmtwin (dm_detail (PDInfo xs) a) (dm_detail (PDInfo ys) b).
Proof. intros [-> X] F. split; [reflexivity|]. right. exists xs, ys. auto. Qed.
Lemma lock_detail c d xs ys : Forall2 inftwin xs ys -> lock eq (tws c) (tws c) (modify (upd_dm d (dm_detail (PDInfo xs)))) (modify (upd_dm d (dm_detail (PDInfo ys)))).
Proof. intros F. apply lock_modify. intros s t [H S]. split; [|exact S]. apply twin_dm; auto. apply dmtwin_detail; auto. apply H. Qed.

Definition and_in (P : st -> st -> Prop) (J : st -> Prop) (s t : st) : Prop := P s t /\ J s.
Lemma lock_inv {A B} (V : A -> B -> Prop) P Q (J : st -> Prop) m n : lock V P Q m n -> (forall s s' a, J s -> m s = (s', Ok a) -> J s') ->
  lock V (and_in P J) (and_in Q J) m n.
Proof. intros H X s t s' a [HP HJ] R. destruct (H s t s' a HP R) as (t' & b & R' & HQ & HV). exists t', b. split; [exact R'|]. split; [split; [exact HQ|eapply X; eauto]|exact HV]. Qed.

Lemma lock_igp c d paths : loose \/ (k = Flex /\ forall p it, In p paths -> In it p -> exists i, it = IIf i) ->
  lock eq (and_in (tws c) (fun s => pos (d_traffic (h_dm s d)))) (tws (fun j => List.length paths + c j)%nat)
    (igp_demand_traffic k d paths) (FloatSim.igp_demand_traffic fl k d paths).
Proof.
  intros L s t s' a [HT HP]. assert (H := proj1 HT). unfold igp_demand_traffic, FloatSim.igp_demand_traffic. rewrite !bind_gets.
  rewrite (tw_item_set _ _ _ H). destruct (tw_ddata _ _ _ H d) as (_ & _ & -> & _). intros R.
  apply bind_ok in R as (s1 & infos & R1 & R). unfold reads in R1. injection R1 as <- R1.
  destruct (rmap_twin _ (FloatSim.path_entry fl k t (item_set s paths) (d_traffic (h_dm s d))) inftwin _ _ (fun x b _ => path_entry_twin c s t _ _ x b H HP
     (match L with or_introl l => or_introl l | or_intror r => or_intror (proj1 r) end)) R1) as (infos' & R1' & F).
  rewrite bind_reads, R1'. revert R.
  enough (X : lock eq (tws c) (tws (fun j => List.length paths + c j)%nat)
     (modify (upd_dm d (dm_detail (PDInfo infos))) ;;; mfor (item_set s paths) (add_item_traffic k infos))
     (modify (upd_dm d (dm_detail (PDInfo infos'))) ;;; mfor (item_set s paths) (FloatSim.add_item_traffic fl k infos'))) by (intros R; exact (X _ _ _ _ HT R)).
  eapply lock_same; [now apply lock_detail|]. intros _. rewrite <- (rmap_length _ _ _ R1).
  eapply lock_le; [|apply (lock_mfor_count eq (w_item (List.length infos))); [apply Forall2_refl|]].
  - left. intros j. apply Nat.add_le_mono_r. apply total_items. apply item_set_nodup.
  - intros c' x y Hx <-. apply lock_item; auto. destruct L as [L|[K L]]; [now left|right]. split; auto.
    apply item_set_in in Hx as (p & A & B). eauto.
Qed.

Lemma Forall2_maps {A B C} (U : B -> C -> Prop) (f : A -> B) g l : (forall x, U (f x) (g x)) -> Forall2 U (map f l) (map g l).
Proof. intros H. induction l; simpl; constructor; auto. Qed.
Lemma lock_lsp c d ls : ls <> [] -> loose \/ k = Flex ->
  lock eq (and_in (tws c) (fun s => pos (d_traffic (h_dm s d)) /\ (loose \/ forall l p, In l ls -> lsp_interfaces s l = Ok p -> NoDup p))) (tws (fun j => List.length ls + c j)%nat)
    (lsp_demand_traffic k d ls) (FloatSim.lsp_demand_traffic fl k d ls).
Proof.
  intros Nl L s t s' a (HT & HP & HD). assert (H := proj1 HT). unfold lsp_demand_traffic, FloatSim.lsp_demand_traffic. rewrite !bind_gets.
  destruct (tw_ddata _ _ _ H d) as (_ & _ & -> & _). set (q := d_traffic (h_dm s d)) in *. set (n := Z.of_nat (List.length ls)).
  assert (Hn : (0 < n)%Z) by (destruct ls; [congruence|]; subst n; cbn [List.length]; lia).
  assert (Sh := sh_lsp q n HP Hn). set (x := (q / inject_Z n)%Q) in *. set (y := fl x) in *.
  set (J := fun s0 : st => forall l, lsp_interfaces s0 l = lsp_interfaces s l).
  assert (JT : forall i v, (forall s0 s1 b, J s0 -> add_traffic i v s0 = (s1, Ok b) -> J s1)).
  { intros i v s0 s1 b J0 R l. unfold add_traffic in R. rewrite bind_gets in R. destruct (i_traffic (h_if s0 i)); [discriminate|]. injection R as <- _. exact (J0 l). }
  assert (A : forall c, lock eq (and_in (tws c) J) (tws (fun j => List.length ls + c j)%nat)
     (mfor ls (fun l => ifs <- reads (fun s => lsp_interfaces s l) ;; mfor ifs (fun i => add_traffic i x)))
     (mfor ls (fun l => ifs <- reads (fun s => lsp_interfaces s l) ;; mfor ifs (fun i => FloatSim.add_traffic fl i y)))).
  { clear HT H. clearbody x y. clear Nl n Hn. induction ls as [|l ls IH]; intros c0; cbn [mfor List.length].
    - intros s0 t0 s1 u [T0 _] R. injection R as <- <-. exists t0, tt. split; [reflexivity|]. split; [exact T0|reflexivity].
    - eapply (lock_same _ _ (and_in (tws (fun j => 1 + c0 j)%nat) J)).
      + intros s0 t0 s1 u [T0 J0] R. apply bind_ok in R as (s2 & p & R1 & R). unfold reads in R1. injection R1 as <- R1.
        assert (B := lock_adds c0 p x y Sh s0 t0 s1 u T0 R). destruct B as (t1 & v & B1 & B2 & B3). exists t1, v. rewrite bind_reads.
        rewrite (tw_interfaces _ _ _ (proj1 T0)), R1. split; [exact B1|]. split; [|exact B3]. split.
        * apply (tws_le _ (fun j => 1 + c0 j)%nat) in B2; [exact B2|]. destruct HD as [HD|HD]; [now right|left]. intros j. apply Nat.add_le_mono_r.
          apply total_one_le. apply (HD l); [now left|]. now rewrite <- (J0 l).
        * clear B1 B2 B3. revert s0 s1 u J0 R T0 R1. clear - JT. intros s0 s1 u J0 R _ _. revert s0 J0 R. induction p as [|i p IHp]; intros s0 J0 R.
          -- apply ret_ok in R as [-> _]. exact J0.
          -- destruct u. apply mfor_cons_ok in R as (s3 & R1 & R2). eapply IHp; [|exact R2]. eapply JT; eauto.
      + intros _. eapply lock_le; [|apply IH]; [left; intros j; cbn; lia|]. destruct HD as [HD|HD]; [now left|right]. intros l' p' Hl. apply HD. now right. }
  destruct L as [L|K].
  - destruct k.
    + intros R. rewrite bind_modify in R |- *. refine (A c _ _ _ _ _ R).
      split; [|intros l; reflexivity]. destruct HT as [HT HS]. split; [|exact HS]. apply twin_dm; [exact HT|]. apply dmtwin_detail; [apply HT|].
      apply Forall2_maps. intros l. repeat split; exact Sh.
    + intros R. apply bind_ok in R as (s1 & u & R1 & R2). destruct (A c s t s1 u (conj HT (fun l => eq_refl)) R1) as (t1 & v & B1 & B2 & _).
      rewrite (bind_run _ _ _ _ _ B1). injection R2 as <- <-. eexists _, _. split; [reflexivity|]. split; [|reflexivity]. destruct B2 as [B2 B3]. split; [|exact B3].
      apply twin_dm; [exact B2|]. apply dmtwin_detail; [apply B2|]. apply Forall2_maps. intros l. repeat split; now apply loose_sh.
  - rewrite K. intros R. rewrite bind_modify in R |- *. refine (A c _ _ _ _ _ R).
    split; [|intros l; reflexivity]. destruct HT as [HT HS]. split; [|exact HS]. apply twin_dm; [exact HT|]. apply dmtwin_detail; [apply HT|].
    apply Forall2_maps. intros l. repeat split; exact Sh.
Qed.

(** what the exact routing must be like for traffic to be followed *)
Definition plain (s2 : st) : Prop := loose \/ (k = Flex /\
  (forall d ps ls, In d (m_dms s2) -> d_path (h_dm s2 d) = DPaths ps -> own_lsps E k s2 d = Ok ls ->
     (ls = [] -> forall p it, In p ps -> In it p -> exists i, it = IIf i) /\ (ls <> [] -> List.length ls <= List.length ps)%nat) /\
  (forall d ls l p, In d (m_dms s2) -> own_lsps E k s2 d = Ok ls -> In l ls -> lsp_interfaces s2 l = Ok p -> NoDup p)).
Definition ways (s2 : st) (d : nat) : nat := match d_path (h_dm s2 d) with DPaths ps => List.length ps | DUnrouted => 0%nat end.

Lemma lock_demand s2 c d : plain s2 -> pos (d_traffic (h_dm s2 d)) -> In d (m_dms s2) ->
  lock eq (and_in (tws c) (tframe E s2)) (and_in (tws (fun j => ways s2 d + c j)%nat) (tframe E s2)) (demand_traffic E k d) (FloatSim.demand_traffic fl E k d).
Proof.
  intros PL HP Hd s t s' a [HT HF] R.
  assert (HF' : tframe E s2 s') by (eapply (po_trans _ (tframe_preorder E)); [exact HF|exact (pres_run _ _ _ _ _ (tframe_demand E k d) R)]).
  enough (X : exists t' b, FloatSim.demand_traffic fl E k d t = (t', Ok b) /\ tws (fun j => ways s2 d + c j)%nat s' t' /\ a = b).
  { destruct X as (t' & b & X1 & X2 & X3). exists t', b. split; [exact X1|]. split; [split; assumption|assumption]. }
  clear HF'. assert (H := proj1 HT). unfold demand_traffic in R. unfold FloatSim.demand_traffic, ways. rewrite bind_gets in R |- *.
  destruct (tw_ddata _ _ _ H d) as (_ & _ & _ & _ & ->). rewrite (tf_path _ _ _ HF) in *. destruct (d_path (h_dm s2 d)) as [|ps] eqn:DP.
  - injection R as <- <-. exists t, tt. auto.
  - rewrite bind_gets in R |- *. rewrite (tw_dsrc _ _ _ H), (tw_ddst _ _ _ H). apply bind_ok in R as (s1 & ls & R1 & R).
    destruct (lock_min_metric c _ s t s1 ls HT R1) as (t1 & ls' & R1' & HT1 & <-). rewrite (bind_run _ _ _ _ _ R1').
    assert (F1 : tframe E s2 s1).
    { eapply (po_trans _ (tframe_preorder E)); [exact HF|]. apply quiet_tframe. pose proof (proj1 (Qm_min_metric E k (pair_key (dsrc s d) (ddst s d))) s) as Q. rewrite R1 in Q. exact Q. }
    assert (O : own_lsps E k s2 d = Ok ls) by (rewrite <- (rs_own_lsps E k s2 s d (tf_same _ _ _ HF)); unfold own_lsps; now rewrite R1).
    assert (HP1 : pos (d_traffic (h_dm s1 d))) by now rewrite (rs_traffic E s2 s1 d (tf_same _ _ _ F1)).
    destruct ls as [|l ls].
    + eapply lock_igp; [|split; [exact HT1|exact HP1]|exact R]. destruct PL as [PL|(K & PL & _)]; [now left|right]. split; auto. apply (PL d ps [] Hd DP O). reflexivity.
    + assert (X : lock eq (and_in (tws c) (fun s => pos (d_traffic (h_dm s d)) /\ (loose \/ forall l' p, In l' (l :: ls) -> lsp_interfaces s l' = Ok p -> NoDup p)))
        (tws (fun j => List.length ps + c j)%nat) (lsp_demand_traffic k d (l :: ls)) (FloatSim.lsp_demand_traffic fl k d (l :: ls))).
      { eapply lock_le; [|apply lock_lsp; [discriminate|]]; destruct PL as [PL|(K & PL & _)]; auto. left. intros j. apply Nat.add_le_mono_r.
        apply (PL d ps (l :: ls) Hd DP O). discriminate. }
      eapply X; [|exact R]. split; [exact HT1|]. split; [exact HP1|]. destruct PL as [PL|(_ & _ & PL)]; [now left|right].
      intros l' p' Hl. rewrite (rs_interfaces E s2 s1 (tf_same _ _ _ F1)). exact (PL d _ l' p' Hd O Hl).
Qed.

Definition all_ways (s2 : st) (ds : list nat) : nat := fold_right (fun d n => ways s2 d + n)%nat 0%nat ds.
Lemma lock_demands s2 ds : plain s2 -> (forall d, In d ds -> pos (d_traffic (h_dm s2 d)) /\ In d (m_dms s2)) -> forall c,
  lock eq (and_in (tws c) (tframe E s2)) (and_in (tws (fun j => all_ways s2 ds + c j)%nat) (tframe E s2)) (mfor ds (demand_traffic E k)) (mfor ds (FloatSim.demand_traffic fl E k)).
Proof.
  intros PL. induction ds as [|d ds IH]; intros HD c; cbn [mfor].
  - apply lock_ret. reflexivity.
  - eapply lock_same; [apply lock_demand; auto; apply HD; now left|]. intros _.
    eapply lock_weak; [| | |apply (IH (fun x Hx => HD x (or_intror Hx)) (fun j => ways s2 d + c j)%nat)]; auto.
    intros s t [A B]. split; auto. eapply tws_le; [left|exact A]. intros j. unfold all_ways. cbn [fold_right]. lia.
Qed.

Lemma signs_with s t f h h' : signs s t ->
  (forall i, i_cap (f i) = i_cap (h_if s i) /\ i_pct (f i) = i_pct (h_if s i) /\ i_rsvp (f i) = i_rsvp (h_if s i) /\ i_res (f i) = i_res (h_if s i)) ->
  (forall i, h i = f i) ->
  (forall i, i_cap (h' i) = i_cap (h_if t i) /\ i_pct (h' i) = i_pct (h_if t i) /\ i_rsvp (h' i) = i_rsvp (h_if t i) /\ i_res (h' i) = i_res (h_if t i)) ->
  signs (CircuitProofs.with_if s h) (CircuitProofs.with_if t h').
Proof.
  intros S F X G j Hj. specialize (S j Hj). unfold FloatSim.reservable_bw, reservable_bw, FloatSim.reserved_bw, reserved_bw in *. simpl.
  rewrite X. destruct (F j) as (-> & -> & -> & ->). destruct (G j) as (-> & -> & -> & ->). exact S.
Qed.

Lemma lock_util c s2 : plain s2 -> (forall d, In d (m_dms s2) -> pos (d_traffic (h_dm s2 d))) ->
  lock eq (and_in (tws c) (eq s2)) (and_in (tws (fun _ => all_ways s2 (m_dms s2))) (tframe E s2)) (update_interface_utilization E k) (FloatSim.update_interface_utilization fl E k).
Proof.
  intros PL HD s t s' a [HT <-]. assert (H := proj1 HT). unfold update_interface_utilization, FloatSim.update_interface_utilization.
  rewrite !bind_gets. rewrite (tw_ifs _ _ _ H). set (F := fun r => if_traffic (if i_failed r then TDown else TNum 0) r).
  destruct (mfor_upd_if F (m_ifs s2) (fun r => eq_refl) s2) as (h & R1 & X1). destruct (mfor_upd_if F (m_ifs s2) (fun r => eq_refl) t) as (h' & R2 & X2).
  rewrite (bind_run _ _ _ _ _ R1), (bind_run _ _ _ _ _ R2), !bind_gets. simpl m_dms. rewrite (tw_dms _ _ _ H).
  assert (FR : tframe E s2 (CircuitProofs.with_if s2 h)).
  { replace (CircuitProofs.with_if s2 h) with (fst (mfor (m_ifs s2) (fun i => modify (upd_if i F)) s2)) by now rewrite R1.
    apply (pres_mfor _ (tframe_preorder E)). intros i _. apply pres_modify. intros s0. apply tframe_traffic. unfold F. eauto. }
  assert (T0 : tws (fun _ => 0%nat) (CircuitProofs.with_if s2 h) (CircuitProofs.with_if t h')).
  { split.
    - destruct H. constructor; auto. intros i. simpl. rewrite X1, X2. specialize (tw_if0 i). destruct (mem_nat i (m_ifs s2)) eqn:M.
      + unfold F. eapply iftwin_traffic; [exact tw_if0|]. rewrite (iftwin_failed _ _ _ _ tw_if0). destruct (i_failed (h_if s2 i)); simpl; auto.
      + destruct tw_if0 as (A & B & C). split; [exact A|split; [exact B|]]. assert (NI : ~ In i (m_ifs s2)) by (intros I; apply mem_nat_In in I; congruence).
        unfold same_traffic in *. destruct (i_traffic (h_if s2 i)), (i_traffic (h_if t i)); auto. tauto.
    - apply (signs_with s2 t h); auto; [apply HT| |]; intros i; [rewrite X1|rewrite X2]; destruct (mem_nat i (m_ifs s2)); repeat split. }
  intros R. destruct (lock_demands s2 (m_dms s2) PL (fun d Hd => conj (HD d Hd) Hd) (fun _ => 0%nat) _ _ _ _ (conj T0 FR) R) as (t' & b & A & [B C] & D).
  exists t', b. split; [exact A|]. split; [|exact D]. split; [|exact C]. eapply tws_le; [left|exact B]. intros j. cbn. lia.
Qed.

Lemma route_demands_twin c s t s' : tws c s t -> route_demands E k s = (s', Ok tt) ->
  (forall s2, mfor (m_dms s) (route_demand E k (make_graph k s false 0 false)) s = (s2, Ok tt) -> update_interface_utilization E k s2 = (s', Ok tt) ->
     plain s2 /\ forall d, In d (m_dms s2) -> pos (d_traffic (h_dm s2 d))) ->
  exists t', FloatSim.route_demands fl E k t = (t', Ok tt) /\ tws (fun _ => all_ways s' (m_dms s')) s' t'.
Proof.
  intros HT R PL. assert (H := proj1 HT). unfold route_demands in R. unfold FloatSim.route_demands. rewrite !bind_gets in R |- *.
  rewrite (tws_graph c s t) by exact HT. rewrite (tw_dms _ _ _ H). apply bind_ok in R as (s2 & [] & R1 & R).
  assert (X : lock eq (tws c) (tws c) (mfor (m_dms s) (route_demand E k (make_graph k s false 0 false))) (mfor (m_dms s) (FloatSim.route_demand fl E k (make_graph k s false 0 false)))).
  { apply lock_mfor. intros d _. apply lock_route_demand. }
  destruct (X s t s2 tt HT R1) as (t2 & [] & R1' & HT2 & _). rewrite (bind_run _ _ _ _ _ R1'). destruct (PL s2 R1 R) as [P1 P2].
  destruct (lock_util c s2 P1 P2 s2 t2 s' tt (conj HT2 eq_refl) R) as (t' & [] & R' & [HT' F] & _). exists t'. split; [exact R'|].
  assert (Y : all_ways s' (m_dms s') = all_ways s2 (m_dms s2)).
  { rewrite (rs_dms _ _ _ (tf_same _ _ _ F)). assert (W : forall d, ways s' d = ways s2 d) by (intros d; unfold ways; now rewrite (tf_path _ _ _ F)).
    clear - W. unfold all_ways. generalize (m_dms s2). induction l as [|d ds IH]; simpl; [reflexivity|]. now rewrite IH, W. }
  rewrite Y. exact HT'.
Qed.

(** ** Validation *)
Lemma lock_ckt c i f : (forall a, i_traffic (f a) = i_traffic a /\ i_res (f a) = i_res a /\ i_cap (f a) = i_cap a /\ i_pct (f a) = i_pct a /\ i_rsvp (f a) = i_rsvp a) ->
  (forall a v w, f (if_traffic v (if_res w a)) = if_traffic v (if_res w (f a))) -> lock eq (tws c) (tws c) (modify (upd_if i f)) (modify (upd_if i f)).
Proof.
  intros F C. apply lock_modify. intros s t [H S]. split.
  - apply (twin_if c); auto. destruct (tw_if _ _ _ H i) as (A & B & D). destruct (F (h_if s i)) as (F1 & F2 & _), (F (h_if t i)) as (G1 & G2 & _).
    split; [|split]; [|now rewrite F2, G2|now rewrite F1, G1]. rewrite G1, G2, <- C, <- A. reflexivity.
  - apply signs_if; auto; repeat split; apply F.
Qed.
Lemma lock_pair_edges c es : forall num acc, lock eq (tws c) (tws c) (pair_edges k es num acc) (pair_edges k es num acc).
Proof.
  assert (EE : forall s t e, twin c s t -> edge_ends k t e = edge_ends k s e) by (intros; eapply tw_edge_ends; eauto).
  induction es as [|e es IH]; intros num acc; cbn [pair_edges]; [apply lock_ret; reflexivity|].
  eapply lock_same; [apply lock_reads_eq; intros s t H; apply (EE s t e H)|]. intros [a b]. eapply lock_same; [apply lock_gets; intros s t [H _]|].
  - destruct (tw_idata _ _ _ H a) as (_ & _ & _ & _ & _ & _ & _ & _ & _ & _ & ->). destruct (tw_idata _ _ _ H b) as (_ & _ & _ & _ & _ & _ & _ & _ & _ & _ & ->). reflexivity.
  - intros [|]; [|apply IH]. eapply lock_same; [apply lock_ckt; repeat split|]. intros _. eapply lock_same; [apply lock_ckt; repeat split|]. intros _.
    apply (lock_same eq (tws c) (tws c) (tws c)); [|intros _; apply IH]. destruct k; [apply lock_ret; reflexivity|].
    eapply lock_same; [apply lock_ckt; repeat split|]. intros _. apply lock_ckt; repeat split.
Qed.
Lemma lock_make_circuits c : lock eq (tws c) (tws c) (make_circuits E k) (FloatSim.make_circuits fl E k).
Proof.
  unfold make_circuits, FloatSim.make_circuits. eapply lock_same; [apply lock_gets; intros s t HT; rewrite (tws_graph c s t) by exact HT; reflexivity|]. intros es.
  eapply lock_same; [apply lock_gets; intros s t [H _]; symmetry; apply H|]. intros ifs. eapply lock_same; [apply lock_mfor; intros i _; apply lock_ckt; repeat split|]. intros _.
  eapply lock_same; [apply lock_pair_edges|]. intros cs. destruct (existsb _ es); [apply lock_raise|]. apply lock_modify. intros s t [H S]. split; [now apply twin_ckts|exact S].
Qed.
Lemma lock_check c p : lock eq (twin c) (twin c) (check_circuit p) (check_circuit p).
Proof.
  assert (ST : forall i, lock eq (twin c) (twin c) (iface_set_failed i true) (iface_set_failed i true)).
  { intros i. unfold iface_set_failed. apply lock_modify. intros s t H. apply (twin_if c); auto. destruct (tw_if _ _ _ H i) as (A & B & D).
    split; [|split; [reflexivity|exact D]]. destruct (h_if s i), (h_if t i). simpl in *. injection A. intros. subst. reflexivity. }
  destruct p as [a b]. unfold check_circuit.
  eapply lock_same; [apply lock_gets; intros s t H; symmetry; apply (tw_idata _ _ _ H a)|]. intros fa.
  eapply lock_same; [apply lock_gets; intros s t H; symmetry; apply (tw_idata _ _ _ H b)|]. intros fb.
  apply (lock_same eq (twin c) (twin c) (twin c)).
  - destruct (Bool.eqb fa fb); [apply lock_ret; reflexivity|]. eapply lock_same; [apply ST|]. intros _. apply ST.
  - intros _. apply lock_gets. intros s t H. destruct (tw_idata _ _ _ H a) as (_ & _ & -> & _), (tw_idata _ _ _ H b) as (_ & _ & -> & _). reflexivity.
Qed.

Definition vframe (s s' : st) : Prop := h_ls s' = h_ls s /\ m_lsps s' = m_lsps s /\ m_ifs s' = m_ifs s /\ forall i, i_res (h_if s' i) = i_res (h_if s i).
Lemma vframe_preorder : preorder vframe.
Proof. split; [repeat split|]. intros a b c (A1 & A2 & A3 & A4) (B1 & B2 & B3 & B4). repeat split; try congruence. Qed.
Lemma vframe_upd i f s : (forall a, i_res (f a) = i_res a) -> vframe s (upd_if i f s).
Proof. intros F. repeat split. intros j. simpl. unfold fupd. destruct (Nat.eqb_spec i j) as [<-|]; auto. Qed.
Lemma vframe_circuits : pres vframe (make_circuits E k).
Proof.
  assert (PE : forall es num acc, pres vframe (pair_edges k es num acc)).
  { induction es as [|e es IH]; intros num acc; cbn [pair_edges]; repeat first [apply IH | pres_step vframe_preorder | (apply pres_modify; intros; apply vframe_upd; reflexivity)]. }
  unfold make_circuits. repeat first [apply PE | pres_step vframe_preorder | (apply pres_modify; intros; first [apply vframe_upd; reflexivity | repeat split])].
Qed.

Definition sums_ok (s t : st) : Prop :=
  (forall i, In i (m_ifs s) -> res_too_high s i = false -> FloatSim.res_too_high fl t i = false) /\
  (forall info, int_info s = Ok info -> exists info', FloatSim.int_info fl t = Ok info' /\
     forall i, In i (m_ifs s) -> res_sum_wrong s info i = false -> FloatSim.res_sum_wrong fl t info' i = false).
Variable J : st -> Prop.
Hypothesis J_frame : forall s s', vframe s s' -> J s -> J s'.
Hypothesis J_ok : forall c s t, twin c s t -> J s -> sums_ok s t.

Lemma existsb_implied {A} (f g : A -> bool) l : existsb f l = false -> (forall x, In x l -> f x = false -> g x = false) -> existsb g l = false.
Proof.
  induction l as [|x l IH]; simpl; auto. intros H X. apply orb_false_iff in H as [H1 H2]. rewrite (X x), IH; auto.
Qed.
Lemma when_nil b v : when b v = [] -> b = false.
Proof. destruct b; [discriminate|reflexivity]. Qed.
Lemma lock_validate c : lock eq (and_in (tws c) J) (twin c) (validate_model E k) (FloatSim.validate_model fl E k).
Proof.
  intros s t s' a [HT HJ] R. unfold validate_model in R. unfold FloatSim.validate_model.
  apply bind_ok in R as (s1 & [] & R1 & R). destruct (lock_make_circuits c s t s1 tt HT R1) as (t1 & [] & R1' & HT1 & _). rewrite (bind_run _ _ _ _ _ R1').
  assert (HJ1 : J s1) by (eapply J_frame; [exact (pres_run _ _ _ _ _ vframe_circuits R1)|exact HJ]). clear HT HJ R1 R1' s t. rename s1 into s, t1 into t.
  assert (H := proj1 HT1). destruct (J_ok c s t H HJ1) as [J1 J2].
  apply bind_ok in R as (s1 & info & R1 & R). unfold reads in R1. injection R1 as <- R1. destruct (J2 info R1) as (info' & R1' & J3).
  rewrite bind_reads, R1'. rewrite !bind_gets in R. rewrite !bind_gets. rewrite (tw_ifs _ _ _ H), (tw_ckts _ _ _ H).
  apply bind_ok in R as (s1 & caps & R2 & R).
  assert (X : lock eq (twin c) (twin c) (mmap check_circuit (m_ckts s)) (mmap check_circuit (m_ckts s))) by (apply lock_mmap_eq; intros; apply lock_check).
  destruct (X s t s1 caps H R2) as (t1 & caps' & R2' & H1 & <-). rewrite (bind_run _ _ _ _ _ R2'). rewrite !bind_gets in R. rewrite !bind_gets.
  rewrite (tw_srlg _ _ _ H1), (tw_dup _ _ _ H1).
  replace (match k with Flex => false | Perf => parallel_links t1 end) with (match k with Flex => false | Perf => parallel_links s1 end)
    by (destruct k; auto; now rewrite (tw_parallel _ _ _ H1)).
  replace (match k with Flex => false | Perf => existsb (fun n => n_shortcuts (h_nd t n)) (m_nds t) end) with (match k with Flex => false | Perf => existsb (fun n => n_shortcuts (h_nd s n)) (m_nds s) end)
    by (destruct k; auto; now rewrite (tw_nd _ _ _ H), (tw_nds _ _ _ H)).
  set (hi := existsb (res_too_high s) (m_ifs s)) in *. set (su := existsb (res_sum_wrong s info) (m_ifs s)) in *.
  destruct hi eqn:Hi; [discriminate|]. destruct su eqn:Su; [discriminate|]. subst hi su.
  rewrite (existsb_implied _ (FloatSim.res_too_high fl t) _ Hi J1), (existsb_implied _ (FloatSim.res_sum_wrong fl t info') _ Su J3).
  destruct (when false VResTooHigh ++ _) eqn:W; [|discriminate]. injection R as <- <-. exists t1, tt. split; [reflexivity|]. split; [exact H1|reflexivity].
Qed.
End Lock.
