(** IndepProofs.v - two runs of update_simulation from states that differ in the
    results of earlier runs only: a relational proof. *)
From Verif Require Import Base Graph Objects Sim Spec SpecCkt SpecMetric SpecFresh GraphProofs MonadProofs ObjProofs QuietProofs Frames CircuitProofs PathProofs RouteProofs TrafficProofs.

Ltac sp3 := split; [|split].

Section Indep.
Variable E : env.
Variable k : kind.

(** The two states agree on all that is read later *)
Record eqv (s t : st) : Prop := {
  ev_nd : forall n, h_nd t n = h_nd s n;
  ev_ifs : m_ifs t = m_ifs s; ev_nds : m_nds t = m_nds s; ev_dms : m_dms t = m_dms s; ev_lsps : m_lsps t = m_lsps s; ev_srs : m_srs t = m_srs s;
  ev_if : forall i, h_if t i = if_inckt (i_inckt (h_if t i)) (h_if s i);
  ev_dm : forall d, h_dm t d = dm_detail (d_detail (h_dm t d)) (h_dm s d);
  ev_ls : forall l, h_ls t l = ls_res (l_res (h_ls t l)) (ls_setup (l_setup (h_ls t l)) (ls_mm (l_mm (h_ls t l)) (l_imm (h_ls t l)) (h_ls s l)));
  ev_mm : forall l, omm (h_ls t l) = omm (h_ls s l);
  ev_gr : egroups E t = egroups E s;
  ev_sig : forall l, l_path (h_ls s l) <> PUnrouted -> l_res (h_ls t l) = l_res (h_ls s l) /\ l_setup (h_ls t l) = l_setup (h_ls s l);
  ev_rng : same_draws E s t }.

Definition sig_at (s t : st) (l : nat) : Prop := l_res (h_ls t l) = l_res (h_ls s l) /\ l_setup (h_ls t l) = l_setup (h_ls s l).
Definition det_at (s t : st) (d : nat) : Prop := d_path (h_dm s d) <> DUnrouted -> d_detail (h_dm t d) = d_detail (h_dm s d).

(** LSPs in [D] have been signalled and demands in [F] have been laid out *)
Definition P (D F : nat -> Prop) (s t : st) : Prop :=
  eqv s t /\ (forall l, D l -> sig_at s t l) /\ (forall d, F d -> det_at s t d).

Lemma eqv_rsame s t : eqv s t -> rsame E s t.
Proof.
  intros H. constructor; try apply H; intros.
  - rewrite (ev_if _ _ H i). destruct (h_if s i); reflexivity.
  - rewrite (ev_dm _ _ H d). destruct (h_dm s d); reflexivity.
Qed.

Definition rel {A} (Pre : st -> st -> Prop) (m : M A) (Q : A -> st -> st -> Prop) : Prop :=
  forall s t, Pre s t -> eqv (fst (m s)) (fst (m t)) /\ snd (m t) = snd (m s) /\ (forall a, snd (m s) = Ok a -> Q a (fst (m s)) (fst (m t))).

Definition in_eqv (Pre : st -> st -> Prop) : Prop := forall s t, Pre s t -> eqv s t.

Lemma rel_conseq {A} (P1 P2 : st -> st -> Prop) (m : M A) (Q1 Q2 : A -> st -> st -> Prop) : rel P1 m Q1 -> (forall s t, P2 s t -> P1 s t) -> (forall a s t, Q1 a s t -> Q2 a s t) -> rel P2 m Q2.
Proof. intros H X Y s t p. destruct (H s t (X _ _ p)) as (A1 & A2 & A3). sp3; auto. Qed.
Lemma rel_ret {A} (a : A) Pre : in_eqv Pre -> rel Pre (ret a) (fun _ => Pre).
Proof. intros I s t p. simpl. sp3; auto. Qed.
Lemma rel_raise {A} e Pre Q : in_eqv Pre -> rel Pre (@raise A e) Q.
Proof. intros I s t p. simpl. sp3; auto. intros a X. discriminate X. Qed.
Lemma rel_gets {A} (f : st -> A) Pre : in_eqv Pre -> (forall s t, Pre s t -> f t = f s) -> rel Pre (gets f) (fun _ => Pre).
Proof. intros I F s t p. simpl. rewrite (F _ _ p). sp3; auto. Qed.
Lemma rel_gets_val {A} (f : st -> A) Pre : in_eqv Pre -> (forall s t, Pre s t -> f t = f s) -> rel Pre (gets f) (fun a s t => Pre s t /\ a = f s).
Proof. intros I F s t p. simpl. rewrite (F _ _ p). sp3; auto. intros a X. injection X as <-. auto. Qed.
Lemma rel_reads {A} (f : st -> res A) Pre : in_eqv Pre -> (forall s t, Pre s t -> f t = f s) -> rel Pre (reads f) (fun _ => Pre).
Proof. intros I F s t p. simpl. rewrite (F _ _ p). sp3; auto. Qed.
Lemma rel_reads_val {A} (f : st -> res A) Pre : in_eqv Pre -> (forall s t, Pre s t -> f t = f s) -> rel Pre (reads f) (fun a s t => Pre s t /\ f s = Ok a).
Proof. intros I F s t p. simpl. rewrite (F _ _ p). sp3; auto. Qed.
Lemma rel_modify f (Pre Q : st -> st -> Prop) : (forall s t, Pre s t -> eqv (f s) (f t) /\ Q (f s) (f t)) -> rel Pre (modify f) (fun _ => Q).
Proof. intros F s t p. simpl. destruct (F _ _ p). sp3; auto. Qed.
Lemma rel_bind {A B} (m : M A) (f : A -> M B) Pre Q R : rel Pre m Q -> (forall a, rel (Q a) (f a) R) -> rel Pre (bind m f) R.
Proof.
  intros H1 H2 s t p. destruct (H1 _ _ p) as (A1 & A2 & A3). unfold bind. destruct (m s) as [s1 r1], (m t) as [t1 r2]. cbn [fst snd] in *. subst r2.
  destruct r1 as [a|e]; cbn [fst snd].
  - apply H2. auto.
  - sp3; auto. intros a X. discriminate X.
Qed.
Lemma rel_mfor {A} (l : list A) body (I : st -> st -> Prop) : in_eqv I -> (forall x, In x l -> rel I (body x) (fun _ => I)) -> rel I (mfor l body) (fun _ => I).
Proof.
  intros J. induction l as [|x l IH]; intros H; cbn [mfor]; [now apply rel_ret|]. eapply rel_bind; [apply H; left; auto|]. intros ?. apply IH. intros; apply H; right; auto.
Qed.
(** with a growing set of handled elements *)
Lemma rel_mfor_grow (l : list nat) body (I : (nat -> Prop) -> st -> st -> Prop) : (forall D, in_eqv (I D)) ->
  (forall D D' : nat -> Prop, (forall x, D' x -> D x) -> forall s t, I D s t -> I D' s t) ->
  (forall x D, In x l -> rel (I D) (body x) (fun _ => I (fun y => y = x \/ D y))) ->
  forall D, rel (I D) (mfor l body) (fun _ => I (fun y => In y l \/ D y)).
Proof.
  intros J W. induction l as [|x l IH]; intros H D; cbn [mfor].
  - eapply rel_conseq; [apply rel_ret, J|intros ? ? X; exact X|]. intros ? s t X. eapply W; [|exact X]. intros y [[]|]; auto.
  - eapply rel_bind; [apply H; left; auto|]. intros ?. eapply rel_conseq; [apply IH; intros; apply H; right; auto|intros ? ? X; exact X|].
    intros ? s t X. eapply W; [|exact X]. simpl. intros y [[->|]|]; auto.
Qed.
Lemma rel_mmap {A B} (body : A -> M B) l (I : st -> st -> Prop) : in_eqv I -> (forall x, In x l -> rel I (body x) (fun _ => I)) -> rel I (mmap body l) (fun _ => I).
Proof.
  intros J. induction l as [|x l IH]; intros H; cbn [mmap]; [now apply rel_ret|]. eapply rel_bind; [apply H; left; auto|]. intros a.
  eapply rel_bind; [apply IH; intros; apply H; right; auto|]. intros b. now apply rel_ret.
Qed.
Lemma rel_mfilter {A} (body : A -> M bool) l (I : st -> st -> Prop) : in_eqv I -> (forall x, In x l -> rel I (body x) (fun _ => I)) -> rel I (mfilter body l) (fun _ => I).
Proof.
  intros J. induction l as [|x l IH]; intros H; cbn [mfilter]; [now apply rel_ret|]. eapply rel_bind; [apply H; left; auto|]. intros a.
  eapply rel_bind; [apply IH; intros; apply H; right; auto|]. intros b. now apply rel_ret.
Qed.

Lemma P_in D F : in_eqv (P D F).
Proof. intros s t H. apply H. Qed.
Hint Resolve P_in : core.
Lemma P_weak (D F D' F' : nat -> Prop) s t : (forall x, D' x -> D x) -> (forall x, F' x -> F x) -> P D F s t -> P D' F' s t.
Proof. intros A B (H1 & H2 & H3). sp3; auto; apply H2; auto. Qed.

(** ** Calls that only read, or move metrics and the group cache *)
Lemma eqv_quiet s t s' t' : eqv s t -> quiet E s s' -> quiet E t t' -> eqv s' t'.
Proof.
  intros H (A & A1 & A2 & A3 & A4 & A5 & A6 & A7 & A8) (B & B1 & B2 & B3 & B4 & B5 & B6 & B7 & B8). constructor.
  - intros n. rewrite (rs_nd _ _ _ A), (rs_nd _ _ _ B). apply H.
  - rewrite (rs_ifs _ _ _ A), (rs_ifs _ _ _ B). apply H.
  - rewrite (rs_nds _ _ _ A), (rs_nds _ _ _ B). apply H.
  - rewrite (rs_dms _ _ _ A), (rs_dms _ _ _ B). apply H.
  - rewrite (rs_lsps _ _ _ A), (rs_lsps _ _ _ B). apply H.
  - rewrite A4, B4. apply H.
  - rewrite A1, B1. apply H.
  - rewrite A3, B3. apply H.
  - intros l. rewrite (rs_ls _ _ _ B l). rewrite (rs_ls _ _ _ A l). rewrite (ev_ls _ _ H l). reflexivity.
  - intros l. rewrite (rs_mm _ _ _ B), (rs_mm _ _ _ A). apply H.
  - rewrite (rs_gr _ _ _ B), (rs_gr _ _ _ A). apply H.
  - intros l. rewrite (rs_path _ _ _ A). destruct (A8 l) as [-> ->], (B8 l) as [-> ->]. apply H.
  - intros n. rewrite A7, B7. apply H.
Qed.
Lemma P_quiet D F s t s' t' : P D F s t -> quiet E s s' -> quiet E t t' -> P D F s' t'.
Proof.
  intros (H1 & H2 & H3) A B. split; [eapply eqv_quiet; eauto|]. destruct A as (A & A1 & A2 & A3 & A4 & A5 & A6 & A7 & A8), B as (B & B1 & B2 & B3 & B4 & B5 & B6 & B7 & B8). split.
  - intros l Dl. destruct (H2 l Dl) as [X Y]. unfold sig_at. destruct (A8 l) as [-> ->], (B8 l) as [-> ->]. auto.
  - intros d Fd. unfold det_at. rewrite A3, B3. now apply H3.
Qed.
Lemma rel_Qm {A} (m : M A) D F : Qm E m -> rel (P D F) m (fun _ => P D F).
Proof.
  intros [Q1 Q2] s t p. assert (X : P D F (fst (m s)) (fst (m t))) by (eapply P_quiet; eauto). sp3; [apply X|apply Q2; apply eqv_rsame; apply p|auto].
Qed.

(** ** Updates *)
Lemma eqv_if i f g s t : eqv s t -> g (h_if t i) = if_inckt (i_inckt (g (h_if t i))) (f (h_if s i)) -> eqv (upd_if i f s) (upd_if i g t).
Proof.
  intros H X. constructor; try apply H. intros j. simpl. unfold fupd. destruct (Nat.eqb_spec i j) as [<-|]; [exact X|apply H].
Qed.
Lemma P_if D F i f g s t : P D F s t -> g (h_if t i) = if_inckt (i_inckt (g (h_if t i))) (f (h_if s i)) -> P D F (upd_if i f s) (upd_if i g t).
Proof. intros (H1 & H2 & H3) X. split; [now apply eqv_if|]. split; auto. Qed.
Lemma eqv_ls l f g s t : eqv s t -> (forall r, l_src (f r) = l_src r /\ l_dst (f r) = l_dst r /\ l_src (g r) = l_src r /\ l_dst (g r) = l_dst r) ->
  (let r := f (h_ls s l) in let r' := g (h_ls t l) in
   r' = ls_res (l_res r') (ls_setup (l_setup r') (ls_mm (l_mm r') (l_imm r') r)) /\ omm r' = omm r /\
   (l_path r <> PUnrouted -> l_res r' = l_res r /\ l_setup r' = l_setup r)) ->
  eqv (upd_ls l f s) (upd_ls l g t).
Proof.
  intros H K (X1 & X2 & X3). constructor; try (apply H; fail).
  - intros m. simpl. unfold fupd. destruct (Nat.eqb_spec l m) as [<-|]; [exact X1|apply H].
  - intros m. simpl. unfold fupd. destruct (Nat.eqb_spec l m) as [<-|]; [exact X2|apply H].
  - transitivity (egroups E t); [|transitivity (egroups E s); [apply H|symmetry]]; apply egroups_ext; auto; apply build_ext; auto; intros x; simpl;
      unfold fupd; destruct (Nat.eqb_spec l x) as [<-|]; auto; split; apply K.
  - intros m. simpl. unfold fupd. destruct (Nat.eqb_spec l m) as [<-|]; [exact X3|apply H].
Qed.
Lemma P_ls D F l f g s t : P D F s t -> (forall r, l_src (f r) = l_src r /\ l_dst (f r) = l_dst r /\ l_src (g r) = l_src r /\ l_dst (g r) = l_dst r) ->
  (let r := f (h_ls s l) in let r' := g (h_ls t l) in
   r' = ls_res (l_res r') (ls_setup (l_setup r') (ls_mm (l_mm r') (l_imm r') r)) /\ omm r' = omm r /\
   (l_path r <> PUnrouted \/ D l -> l_res r' = l_res r /\ l_setup r' = l_setup r)) ->
  P D F (upd_ls l f s) (upd_ls l g t).
Proof.
  intros (H1 & H2 & H3) K (X1 & X2 & X3). split; [apply eqv_ls; auto|]. split; auto. intros m Dm. unfold sig_at. simpl. unfold fupd.
  destruct (Nat.eqb_spec l m) as [<-|]; [auto|now apply H2].
Qed.

(** what each side reads *)
Section Reads.
Variables (s t : st).
Hypothesis H : eqv s t.
Let R := eqv_rsame s t H.
Lemma ev_path l : l_path (h_ls t l) = l_path (h_ls s l). Proof. apply (rs_path E s t R). Qed.
Lemma ev_cfg l : l_cfg (h_ls t l) = l_cfg (h_ls s l). Proof. apply (rs_ldata E s t R). Qed.
Lemma ev_traffic i : i_traffic (h_if t i) = i_traffic (h_if s i). Proof. rewrite (ev_if _ _ H i). reflexivity. Qed.
Lemma ev_dpath d : d_path (h_dm t d) = d_path (h_dm s d). Proof. rewrite (ev_dm _ _ H d). reflexivity. Qed.
Lemma ev_reserved i : reserved_bw t i = reserved_bw s i. Proof. unfold reserved_bw. rewrite (ev_if _ _ H i). reflexivity. Qed.
Lemma ev_mem_if i l : mem_if t i l = mem_if s i l.
Proof. unfold mem_if. apply existsb_ext'. intros j. apply (rs_iface_eqb E s t R). Qed.
Lemma ev_eff cur r i : eff_reservable t cur r i = eff_reservable s cur r i.
Proof. unfold eff_reservable. now rewrite ev_mem_if, (rs_reservable E s t R). Qed.
Lemma ev_eligible cur r bw i : eligible_routed t cur r bw i = eligible_routed s cur r bw i.
Proof. unfold eligible_routed. rewrite ev_eff. rewrite (ev_if _ _ H i). reflexivity. Qed.
Lemma ev_graph_routed cur r bw : make_graph_routed k t cur r bw = make_graph_routed k s cur r bw.
Proof.
  unfold make_graph_routed. rewrite (rs_names E s t R), (ev_ifs _ _ H). rewrite (filter_ext _ _ (ev_eligible cur r bw)), (map_ext _ _ (rs_edge E s t R)). reflexivity.
Qed.
Lemma ev_paths_routed u v cur r bw : paths_for_routed_lsp E k t u v cur r bw = paths_for_routed_lsp E k s u v cur r bw.
Proof.
  unfold paths_for_routed_lsp. rewrite ev_graph_routed. destruct (nx_asp _ _ _ _); auto. destruct k.
  - apply map_ext. intros p. unfold flex_routed_path. apply flat_map_ext. intros [a b]. rewrite (rs_between E s t R). apply filter_ext. intros i.
    unfold flex_routed_ok. now rewrite ev_mem_if, (rs_reservable E s t R).
  - apply map_ext. apply (rs_perf_path E s t R).
Qed.
Lemma ev_min_res p : path_min_reservable t p = path_min_reservable s p.
Proof. unfold path_min_reservable. now rewrite (map_ext _ _ (rs_reservable E s t R)). Qed.
Lemma ev_costs p : Zsum (map (fun i => i_cost (h_if t i)) p) = Zsum (map (fun i => i_cost (h_if s i)) p).
Proof. f_equal. apply map_ext. intros i. apply (rs_cost E s t R). Qed.
Lemma ev_dgroups : parallel_demand_groups E t = parallel_demand_groups E s.
Proof.
  unfold parallel_demand_groups, build_groups. rewrite (ev_dms _ _ H). rewrite (map_ext _ _ (rs_dsrc E s t R)), (map_ext _ _ (rs_ddst E s t R)).
  apply fold_left_ext. intros d sn. apply fold_left_ext. intros d' dn.
  rewrite (filter_ext (fun o => String.eqb (dsrc t o) sn && String.eqb (ddst t o) dn) (fun o => String.eqb (dsrc s o) sn && String.eqb (ddst s o) dn)); auto.
  intros o. now rewrite (rs_dsrc E s t R), (rs_ddst E s t R).
Qed.
Lemma ev_dtraffic d : d_traffic (h_dm t d) = d_traffic (h_dm s d). Proof. rewrite (ev_dm _ _ H d). reflexivity. Qed.
Lemma ev_group_traffic dg key : group_traffic t dg key = group_traffic s dg key.
Proof. unfold group_traffic. destruct (dict_get key dg); auto. f_equal. apply map_ext. apply ev_dtraffic. Qed.
End Reads.

Ltac go := repeat first [ apply rel_raise; auto; fail | eapply rel_conseq; [apply rel_ret; auto| |]; auto; fail ].

Lemma rel_P_gets {A} (f : st -> A) D F : (forall s t, eqv s t -> f t = f s) -> rel (P D F) (gets f) (fun _ => P D F).
Proof. intros X. apply rel_gets; auto. intros s t p. apply X, p. Qed.
Lemma rel_P_reads {A} (f : st -> res A) D F : (forall s t, eqv s t -> f t = f s) -> rel (P D F) (reads f) (fun _ => P D F).
Proof. intros X. apply rel_reads; auto. intros s t p. apply X, p. Qed.
Lemma rel_P_modify f D F : (forall s t, P D F s t -> P D F (f s) (f t)) -> rel (P D F) (modify f) (fun _ => P D F).
Proof. intros X. apply rel_modify. intros s t p. split; [apply X, p|auto]. Qed.

(** ** Signalling *)
Lemma rel_add_reserved i x (D F : nat -> Prop) : rel (P D F) (add_reserved i x) (fun _ => P D F).
Proof.
  apply rel_P_modify. intros s t p. apply P_if; auto. rewrite (ev_reserved s t (proj1 p)). rewrite (ev_if _ _ (proj1 p) i). reflexivity.
Qed.

Lemma rel_random {A} (d : A) l (D F : nat -> Prop) : rel (P D F) (random_choice E d l) (fun _ => P D F).
Proof.
  intros s t (H1 & H2 & H3). unfold random_choice. rewrite !bind_gets, !bind_modify. cbn [ret fst snd].
  assert (V := ev_rng _ _ H1 0%nat). rewrite !Nat.add_0_r in V. rewrite V.
  assert (X : eqv (bump_rng s) (bump_rng t)).
  { constructor; try apply H1. intros n. simpl. rewrite <- !Nat.add_succ_r. apply H1. }
  sp3; auto. intros a ?. sp3; auto.
Qed.
Lemma rel_choose c (D F : nat -> Prop) : rel (P D F) (choose_path E c) (fun _ => P D F).
Proof.
  unfold choose_path. destruct c as [|p [|q c]]; try (apply rel_ret; auto; fail).
  destruct (Nmin_list _); [|apply rel_ret; auto]. destruct (filter _ _) as [|a [|b f]]; first [apply rel_random | apply rel_ret; auto].
Qed.

Definition PR (l : nat) D F s t := P D F s t /\ l_res (h_ls t l) = l_res (h_ls s l).


Lemma rel_set_res l q (D F : nat -> Prop) : rel (P D F) (modify (upd_ls l (ls_res (RNum q)))) (fun _ => PR l D F).
Proof.
  apply rel_modify. intros s t p. assert (X : P D F (upd_ls l (ls_res (RNum q)) s) (upd_ls l (ls_res (RNum q)) t)).
  { apply P_ls; auto. cbv zeta. destruct p as (H1 & H2 & H3). assert (L := ev_ls _ _ H1 l). split; [|split].
    - rewrite L. destruct (h_ls s l); reflexivity.
    - apply (ev_mm _ _ H1).
    - simpl. intros [Y|Y]; split; auto; [apply (ev_sig _ _ H1 l Y)|apply (H2 l Y)]. }
  split; [apply X|]. split; auto. simpl. rewrite !fupd_same. reflexivity.
Qed.

Lemma rel_set_setup_gen l q D F (Pre : st -> st -> Prop) : (forall s t, Pre s t -> PR l D F s t) -> rel Pre (set_setup_bw l q) (fun _ => P (fun x => x = l \/ D x) F).
Proof.
  intros I. assert (IP : in_eqv Pre) by (intros s t p; apply I in p; apply p).
  assert (W : forall v, rel Pre (modify (upd_ls l (ls_setup (RNum v)))) (fun _ => P (fun x => x = l \/ D x) F)).
  { intros v. apply rel_modify. intros s t p. apply I in p as [p X].
    assert (Y : P D F (upd_ls l (ls_setup (RNum v)) s) (upd_ls l (ls_setup (RNum v)) t)).
    { apply P_ls; auto. cbv zeta. destruct p as (H1 & H2 & H3). assert (L := ev_ls _ _ H1 l). split; [|split].
      - rewrite L. destruct (h_ls s l); reflexivity.
      - apply (ev_mm _ _ H1).
      - simpl. auto. }
    split; [apply Y|]. destruct Y as (Y1 & Y2 & Y3). split; auto. split; auto. intros m [->|Dm]; auto. unfold sig_at. simpl. rewrite !fupd_same. simpl. auto. }
  unfold set_setup_bw. intros s t p. rewrite !bind_gets. assert (pp := p). apply I in pp as [pp _]. rewrite (ev_cfg s t (proj1 pp)).
  destruct (l_cfg (h_ls s l)) as [c|].
  - destruct (Qeqb c 0); [destruct (Qleb 0 q)|]; first [exact (W _ s t p) | exact (rel_raise _ Pre (fun _ => P (fun x => x = l \/ D x) F) IP s t p)].
  - destruct (Qleb 0 q); first [exact (W _ s t p) | exact (rel_raise _ Pre (fun _ => P (fun x => x = l \/ D x) F) IP s t p)].
Qed.

Lemma rel_path l q (D F : nat -> Prop) : D l -> (forall s t, eqv s t -> q t = q s) -> rel (P D F) (modify (fun s => upd_ls l (ls_path (q s)) s)) (fun _ => P D F).
Proof.
  intros Dl X. apply rel_P_modify. intros s t p. apply P_ls; auto. cbv zeta. destruct p as (H1 & H2 & H3). rewrite (X s t H1). assert (L := ev_ls _ _ H1 l). split; [|split].
  - rewrite L. destruct (h_ls s l); reflexivity.
  - apply (ev_mm _ _ H1).
  - intros ?. simpl. apply (H2 l Dl).
Qed.

Lemma rel_unrouted l (D F : nat -> Prop) : D l -> rel (P D F) (modify (upd_ls l (fun r => ls_res RUnrouted (ls_path PUnrouted r)))) (fun _ => P D F).
Proof.
  intros Dl. apply rel_P_modify. intros s t p. apply P_ls; auto. cbv zeta. destruct p as (H1 & H2 & H3). assert (L := ev_ls _ _ H1 l). split; [|split].
  - rewrite L. destruct (h_ls s l); reflexivity.
  - apply (ev_mm _ _ H1).
  - intros ?. simpl. split; auto. apply (H2 l Dl).
Qed.

Lemma rel_determine l q (D F : nat -> Prop) : rel (P D F) (determine_lsp E k l q) (fun _ => P (fun x => x = l \/ D x) F).
Proof.
  unfold determine_lsp. eapply rel_bind; [apply rel_P_gets; intros s t H; apply (ev_cfg s t H)|]. intros cfg. cbv zeta.
  set (want := match cfg with None => q | Some c => c end).
  eapply rel_bind; [apply rel_set_res|]. intros ?. eapply rel_bind; [eapply rel_set_setup_gen; intros s t X; exact X|]. intros ?.
  set (D' := fun x => x = l \/ D x). assert (Dl : D' l) by (left; auto).
  eapply rel_bind; [apply rel_gets; auto|]. { intros s t (_ & H2 & _). unfold lsp_setup_value. now rewrite (proj2 (H2 l Dl)). }
  intros setup. eapply rel_bind; [apply rel_P_gets; intros s t H; apply (rs_graph E k s t), eqv_rsame, H|]. intros G.
  eapply rel_bind; [apply (rel_path l (fun _ => PEmpty) D' F); auto|]. intros ?.
  eapply rel_bind; [apply rel_P_gets|]. { intros s t H. now rewrite (rs_lsrc E s t (eqv_rsame s t H)), (rs_ldst E s t (eqv_rsame s t H)). }
  intros ends. destruct (nx_asp E G (fst ends) (snd ends)) as [ps| |]; [|apply rel_unrouted; auto|apply rel_raise; auto].
  eapply rel_bind; [apply rel_P_gets; intros s t H; apply (rs_iface_paths E k s t), eqv_rsame, H|]. intros cands.
  eapply rel_bind; [apply rel_mfilter; auto|].
  { intros p _. eapply rel_bind; [apply rel_P_reads; intros s t H; apply (ev_min_res s t H)|]. intros b. apply rel_ret; auto. }
  intros wb. destruct wb as [|w wb]; [apply rel_unrouted; auto|].
  eapply rel_bind; [apply rel_choose|]. intros p. eapply rel_bind.
  - unfold add_lsp_path_data. eapply rel_bind; [apply rel_P_reads; intros s t H; apply (ev_min_res s t H)|]. intros b.
    apply (rel_path l (fun s => PRouted p (Zsum (map (fun i => i_cost (h_if s i)) p)) b) D' F); auto. intros s t H. now rewrite (ev_costs s t H).
  - intros ?. apply rel_mfor; auto. intros i _. apply rel_add_reserved.
Qed.

Lemma rel_find l bw (D F : nat -> Prop) : D l -> rel (P D F) (find_rsvp_path_w_bw E k l bw) (fun _ => P D F).
Proof.
  intros Dl. unfold find_rsvp_path_w_bw.
  eapply rel_bind; [apply rel_P_reads; intros s t H; apply (rs_interfaces E s t), eqv_rsame, H|]. intros cur.
  eapply rel_bind; [apply rel_reads; auto|]. { intros s t (_ & H2 & _). now rewrite (proj1 (H2 l Dl)). } intros resv.
  eapply rel_bind; [apply rel_P_gets|].
  { intros s t H. now rewrite (ev_paths_routed s t H), (rs_lsrc E s t (eqv_rsame s t H)), (rs_ldst E s t (eqv_rsame s t H)). }
  intros cands. eapply rel_bind; [apply rel_mmap; auto|].
  { intros p _ s t pp. rewrite !bind_gets. rewrite (map_ext _ _ (ev_eff s t (proj1 pp) cur resv)), (ev_costs s t (proj1 pp)).
    destruct (Qmin_list _); [now apply (rel_ret _ (P D F))|exact (rel_raise _ (P D F) (fun _ => P D F) (P_in D F) s t pp)]. }
  intros infos.
  assert (Fin : forall i, rel (P D F) (bind (modify (upd_ls l (ls_path i))) (fun _ => bind (modify (upd_ls l (ls_res (RNum bw)))) (fun _ => set_setup_bw l bw))) (fun _ => P D F)).
  { intros i. eapply rel_bind; [apply (rel_path l (fun _ => i) D F); auto|]. intros ?. eapply rel_bind; [apply rel_set_res|]. intros ?.
    eapply rel_conseq; [eapply rel_set_setup_gen; intros s t X; exact X|intros ? ? X; exact X|]. intros ? s t X. eapply P_weak; [| |exact X]; cbv beta; auto. }
  destruct infos as [|i [|j infos]]; [apply rel_ret; auto|apply Fin|]. eapply rel_bind; [apply rel_random|]. intros x. apply Fin.
Qed.

Lemma rel_optimize l bw (D F : nat -> Prop) : D l -> rel (P D F) (optimize_lsp E k bw l) (fun _ => P D F).
Proof.
  intros Dl. unfold optimize_lsp.
  assert (RI : rel (P D F) (reads (fun s => lsp_interfaces s l)) (fun _ => P D F)) by (apply rel_P_reads; intros s t H; apply (rs_interfaces E s t), eqv_rsame, H).
  assert (RB : rel (P D F) (reads (fun s => num_bw (l_res (h_ls s l)))) (fun _ => P D F)) by (apply rel_reads; auto; intros s t (_ & H2 & _); now rewrite (proj1 (H2 l Dl))).
  eapply rel_bind; [apply RI|]. intros before. eapply rel_bind; [apply RB|]. intros rb. eapply rel_bind; [apply rel_find; auto|]. intros ?.
  eapply rel_bind; [apply RB|]. intros ra. destruct (Qeqb rb ra); [apply rel_ret; auto|].
  eapply rel_bind; [apply rel_mfor; auto; intros; apply rel_add_reserved|]. intros ?. eapply rel_bind; [apply RI|]. intros after.
  apply rel_mfor; auto. intros; apply rel_add_reserved.
Qed.

Lemma rel_group dg g (D F : nat -> Prop) : rel (P D F) (route_lsp_group E k dg g) (fun _ => P (fun x => In x (snd g) \/ D x) F).
Proof.
  destruct g as [key lsps]. unfold route_lsp_group. eapply rel_bind; [apply rel_P_gets; intros s t H; apply (ev_group_traffic s t H)|]. intros total. cbv zeta.
  eapply rel_bind.
  { apply (rel_mfor_grow lsps _ (fun D => P D F)); auto; [intros; eapply P_weak; eauto|]. intros x D0 _. apply rel_determine. }
  intros ?. cbn [snd]. set (D' := fun y => In y lsps \/ D y).
  eapply rel_bind; [apply rel_gets_val; auto|]. { intros s t p. apply filter_ext. intros l. now rewrite (ev_path s t (proj1 p)). }
  intros routed. intros s t [p V]. destruct (_ && _)%bool; [|now apply (rel_ret tt (P D' F))].
  apply (rel_mfor routed (optimize_lsp E k (total / inject_Z (Z.of_nat (List.length routed)))%Q) (P D' F)); auto.
  intros l Hl. apply rel_optimize. left. rewrite V in Hl. apply filter_In in Hl. apply Hl.
Qed.

Definition grouped (s : st) (l : nat) : Prop := exists g, In g (egroups E s) /\ In l (snd g).

Lemma rel_groups_loop dg gs : forall D F, rel (P D F) (mfor gs (route_lsp_group E k dg)) (fun _ => P (fun x => (exists g, In g gs /\ In x (snd g)) \/ D x) F).
Proof.
  induction gs as [|g gs IH]; intros D F; cbn [mfor].
  - eapply rel_conseq; [apply rel_ret; auto|intros ? ? X; exact X|]. intros ? s t X. eapply P_weak; [| |exact X]; cbv beta; auto. intros x [(g & [] & _)|]; auto.
  - eapply rel_bind; [apply rel_group|]. intros ?. eapply rel_conseq; [apply IH|intros s t X; exact X|]. intros ? s t X. eapply P_weak; [| |exact X]; cbv beta; auto.
    simpl. intros x [(g' & [<-|Hg] & Hx)|Dx]; auto. left. eauto.
Qed.


Lemma rel_route_lsps D F s0 : rel (fun s t => P D F s t /\ egroups E s = egroups E s0) (route_lsps E k) (fun _ => P (fun x => grouped s0 x \/ D x) F).
Proof.
  intros s t [p G]. destruct (route_lsps_start E k s) as (s1 & R1 & I1 & A1 & A2 & A3 & A4 & A5 & A6 & A7 & A8 & A9 & A10 & A11 & A12 & A13 & A14).
  destruct (route_lsps_start E k t) as (t1 & R2 & I2 & B1 & B2 & B3 & B4 & B5 & B6 & B7 & B8 & B9 & B10 & B11 & B12 & B13 & B14). rewrite R1, R2.
  destruct p as (H1 & H2 & H3). rewrite (ev_gr _ _ H1), (ev_dgroups s t H1), G.
  assert (Q : P D F s1 t1).
  { split; [|split; [intros l Dl; unfold sig_at; rewrite A4, B4; now apply H2|intros d Fd; unfold det_at; rewrite A3, B3; now apply H3]]. constructor; try (rewrite ?A1, ?A2, ?A5, ?A6, ?A7, ?A8, ?A9, ?B1, ?B2, ?B5, ?B6, ?B7, ?B8, ?B9; apply H1).
    - intros i. rewrite (B13 i), (A13 i), I1, I2, (ev_ifs _ _ H1). rewrite (ev_if _ _ H1 i). destruct (mem_nat i (m_ifs s)); reflexivity.
    - rewrite A3, B3. apply H1.
    - rewrite A4, B4. apply H1.
    - rewrite A4, B4. apply H1.
    - rewrite A14, B14. apply H1.
    - rewrite A4, B4. apply H1.
    - intros n. rewrite A12, B12. apply H1. }
  exact (rel_groups_loop _ _ D F s1 t1 Q).
Qed.

(** ** Demands *)
Lemma P_dm D F d f g s t : P D F s t -> g (h_dm t d) = dm_detail (d_detail (g (h_dm t d))) (f (h_dm s d)) ->
  (F d -> d_path (f (h_dm s d)) <> DUnrouted -> d_detail (g (h_dm t d)) = d_detail (f (h_dm s d))) -> P D F (upd_dm d f s) (upd_dm d g t).
Proof.
  intros (H1 & H2 & H3) X Y. split; [|split; auto].
  - constructor; try apply H1. intros x. simpl. unfold fupd. destruct (Nat.eqb_spec d x) as [<-|]; [exact X|apply H1].
  - intros x Fx. unfold det_at. simpl. unfold fupd. destruct (Nat.eqb_spec d x) as [<-|]; [auto|now apply H3].
Qed.
Definition none (d : nat) : Prop := False.

Lemma rel_dpath D d q : rel (P D none) (modify (upd_dm d (dm_path q))) (fun _ => P D none).
Proof. apply rel_P_modify. intros s t p. apply P_dm; auto. { rewrite (ev_dm _ _ (proj1 p) d). reflexivity. } intros []. Qed.

Lemma rel_route_demand D G d : rel (P D none) (route_demand E k G d) (fun _ => P D none).
Proof.
  unfold route_demand. eapply rel_bind; [apply rel_dpath|]. intros ?. eapply rel_bind; [apply rel_Qm, Qm_e2e|]. intros ls. destruct ls; [|apply rel_dpath].
  eapply rel_bind; [apply rel_P_gets|]. { intros s t H. now rewrite (rs_dsrc E s t (eqv_rsame s t H)), (rs_ddst E s t (eqv_rsame s t H)). }
  intros ends. destruct (nx_asp E G (fst ends) (snd ends)); [|apply rel_dpath|apply rel_raise; auto].
  eapply rel_bind; [apply rel_P_gets; intros s t H; now rewrite (rs_iface_paths E k s t (eqv_rsame s t H))|]. intros qs.
  eapply rel_bind; [|intros qs'; apply rel_dpath].
  assert (X : rel (P D none) (find_igp_shortcuts E k qs ps) (fun _ => P D none)) by (apply rel_Qm, Qm_shortcuts).
  destruct k; [exact X|apply rel_ret; auto].
Qed.

Lemma rel_add_traffic D F i x : rel (P D F) (add_traffic i x) (fun _ => P D F).
Proof.
  unfold add_traffic. eapply rel_bind; [apply rel_P_gets; intros s t H; apply (ev_traffic s t H)|]. intros [|q]; [apply rel_raise; auto|].
  apply rel_P_modify. intros s t p. apply P_if; auto. rewrite (ev_if _ _ (proj1 p) i). reflexivity.
Qed.
Lemma rel_item D F infos it : rel (P D F) (add_item_traffic k infos it) (fun _ => P D F).
Proof.
  assert (T : rel (P D F) (gets (fun s => round1 (item_traffic s infos it))) (fun _ => P D F)).
  { apply rel_P_gets. intros s t H. now rewrite (rs_item_traffic E s t infos it (eqv_rsame s t H)). }
  unfold add_item_traffic. destruct k, it as [i|l].
  - apply rel_mfor; auto. intros inf _. eapply rel_bind; [apply rel_P_gets; intros s t H; apply (rs_mem_item E s t), eqv_rsame, H|].
    intros b. destruct b; [apply rel_add_traffic|apply rel_ret; auto].
  - eapply rel_bind; [exact T|]. intros x. eapply rel_bind; [apply rel_P_reads; intros s t H; apply (rs_interfaces E s t), eqv_rsame, H|]. intros ifs.
    apply rel_mfor; auto. intros; apply rel_add_traffic.
  - eapply rel_bind; [exact T|]. intros x. apply rel_add_traffic.
  - apply rel_raise; auto.
Qed.
Lemma rel_detail D F d infos : rel (P D F) (modify (upd_dm d (dm_detail infos))) (fun _ => P D (fun x => x = d \/ F x)).
Proof.
  apply rel_modify. intros s t p. assert (X : P D F (upd_dm d (dm_detail infos) s) (upd_dm d (dm_detail infos) t)).
  { apply P_dm; auto. rewrite (ev_dm _ _ (proj1 p) d). reflexivity. }
  split; [apply X|]. destruct X as (X1 & X2 & X3). split; auto. split; auto. intros x [->|Fx]; auto. intros ?. simpl. rewrite !fupd_same. reflexivity.
Qed.

Lemma rel_demand D F d : rel (P D F) (demand_traffic E k d) (fun _ => P D (fun x => x = d \/ F x)).
Proof.
  set (F' := fun x => x = d \/ F x). unfold demand_traffic. eapply rel_bind; [apply rel_gets_val; auto|]. { intros s t p. apply (ev_dpath s t (proj1 p)). }
  intros p. destruct p as [|paths].
  - intros s t [q V]. cbn [ret fst snd]. split; [apply q|]. split; auto. intros ? _. destruct q as (X1 & X2 & X3). split; auto. split; auto.
    intros x [->|Fx]; auto. intros Nq. now rewrite <- V in Nq.
  - eapply rel_conseq with (P1 := P D F); [|intros s t X; apply X|intros a s t X; exact X].
    eapply rel_bind; [apply rel_P_gets|]. { intros s t H. now rewrite (rs_dsrc E s t (eqv_rsame s t H)), (rs_ddst E s t (eqv_rsame s t H)). }
    intros key. eapply rel_bind; [apply rel_Qm, Qm_min_metric|]. intros ls.
    assert (T : rel (P D F) (gets (fun s => d_traffic (h_dm s d))) (fun _ => P D F)) by (apply rel_P_gets; intros s t H; apply (ev_dtraffic s t H)).
    destruct ls as [|l ls].
    + unfold igp_demand_traffic. eapply rel_bind; [apply rel_P_gets; intros s t H; apply (rs_item_set E s t), eqv_rsame, H|]. intros items.
      eapply rel_bind; [exact T|]. intros q. eapply rel_bind; [apply rel_P_reads|].
      { intros s t H. apply rmap_ext. intros x _. apply (rs_path_entry E), eqv_rsame, H. }
      intros infos. eapply rel_bind; [apply rel_detail|]. intros ?. apply rel_mfor; auto. intros it _. apply rel_item.
    + unfold lsp_demand_traffic. eapply rel_bind; [exact T|]. intros q. cbv zeta. set (ls' := l :: ls).
      assert (AD : forall F0 e, rel (P D F0) (mfor ls' (fun l => ifs <- reads (fun s => lsp_interfaces s l) ;; mfor ifs (fun i => add_traffic i e))) (fun _ => P D F0)).
      { intros F0 e. apply rel_mfor; auto. intros x _. eapply rel_bind; [apply rel_P_reads; intros s t H; apply (rs_interfaces E s t), eqv_rsame, H|].
        intros ifs. apply rel_mfor; auto. intros; apply rel_add_traffic. }
      destruct k.
      * eapply rel_bind; [apply rel_detail|]. intros ?. apply AD.
      * eapply rel_bind; [apply AD|]. intros ?. apply rel_detail.
Qed.

Lemma rel_util D F : rel (P D F) (update_interface_utilization E k) (fun _ s t => P D (fun d => In d (m_dms s) \/ F d) s t).
Proof.
  unfold update_interface_utilization. eapply rel_bind; [apply rel_P_gets; intros s t H; apply H|]. intros ifs.
  eapply rel_bind; [apply rel_mfor; auto|].
  { intros i _. apply rel_P_modify. intros s t p. apply P_if; auto. rewrite (ev_if _ _ (proj1 p) i). reflexivity. }
  intros ?. eapply rel_bind; [apply rel_gets_val; auto; intros s t p; apply (ev_dms _ _ (proj1 p))|]. intros ds.
  intros s t [p V]. subst ds.
  destruct (rel_mfor_grow (m_dms s) (demand_traffic E k) (fun F0 => P D F0) (fun F0 => P_in D F0) ltac:(intros; eapply P_weak; eauto) ltac:(intros; apply rel_demand) F s t p) as (A1 & A2 & A3).
  split; [exact A1|]. split; [exact A2|]. intros b Hb. specialize (A3 b Hb).
  assert (M : m_dms (fst (mfor (m_dms s) (demand_traffic E k) s)) = m_dms s).
  { assert (PF : pres (tframe E) (mfor (m_dms s) (demand_traffic E k))) by (apply (pres_mfor _ (tframe_preorder E)); intros; apply tframe_demand).
    specialize (PF s). apply (rs_dms _ _ _ (tf_same _ _ _ PF)). }
  rewrite M. exact A3.
Qed.

Lemma rel_route_demands D : rel (P D none) (route_demands E k) (fun _ s t => P D (fun d => In d (m_dms s)) s t).
Proof.
  unfold route_demands. eapply rel_bind; [apply rel_P_gets; intros s t H; apply (rs_graph E k s t), eqv_rsame, H|]. intros G.
  eapply rel_bind; [apply rel_P_gets; intros s t H; apply H|]. intros ds. eapply rel_bind; [apply rel_mfor; auto; intros; apply rel_route_demand|]. intros ?.
  eapply rel_conseq; [apply rel_util|intros s t X; exact X|]. intros ? s t X. eapply P_weak; [| |exact X]; cbv beta; auto.
Qed.

(** ** Validation *)
Definition V D F s t := P D F s t /\ (forall i, In i (m_ifs s) -> i_inckt (h_if t i) = i_inckt (h_if s i)).
Lemma V_in D F : in_eqv (V D F).
Proof. intros s t H. apply H. Qed.
Hint Resolve V_in : core.

Lemma V_if D F i f s t : V D F s t -> (forall b r, f (if_inckt b r) = if_inckt (i_inckt (f (if_inckt b r))) (f r)) -> (forall r, i_inckt (f r) = i_inckt r) ->
  V D F (upd_if i f s) (upd_if i f t).
Proof.
  intros [H K] X Y. split.
  - apply P_if; auto. rewrite (ev_if _ _ (proj1 H) i). apply X.
  - intros j Hj. simpl in *. unfold fupd. destruct (Nat.eqb_spec i j) as [<-|]; [|auto]. rewrite !Y. now apply K.
Qed.
Lemma V_mark D F i s t : V D F s t -> V D F (upd_if i (if_inckt true) s) (upd_if i (if_inckt true) t).
Proof.
  intros [H K]. split.
  - apply P_if; auto. rewrite (ev_if _ _ (proj1 H) i). reflexivity.
  - intros j Hj. simpl in *. unfold fupd. destruct (Nat.eqb_spec i j) as [<-|]; [reflexivity|auto].
Qed.

Lemma ev_edge_ends s t e : eqv s t -> edge_ends k t e = edge_ends k s e.
Proof.
  intros H. assert (R := eqv_rsame s t H).
  assert (C : forall i, i_cid (h_if t i) = i_cid (h_if s i)) by (intros; rewrite (ev_if _ _ H i); reflexivity).
  unfold edge_ends. destruct k.
  - rewrite C. unfold iface_by_circuit.
    assert (X : forall u v c, filter (fun i => cid_eqb (i_cid (h_if t i)) c) (ifaces_between t u v) = filter (fun i => cid_eqb (i_cid (h_if s i)) c) (ifaces_between s u v)).
    { intros u v c. rewrite (rs_between E s t R). apply filter_ext. intros i. now rewrite C. }
    rewrite !X, !(rs_between E s t R). reflexivity.
  - rewrite !(rs_first E s t R). reflexivity.
Qed.

Lemma rel_V_modify D F f : (forall s t, V D F s t -> V D F (f s) (f t)) -> rel (V D F) (modify f) (fun _ => V D F).
Proof. intros X. apply rel_modify. intros s t p. split; [apply X, p|auto]. Qed.

Lemma rel_pair D F es : forall num acc, rel (V D F) (pair_edges k es num acc) (fun _ => V D F).
Proof.
  induction es as [|e es IH]; intros num acc; cbn [pair_edges]; [apply rel_ret; auto|].
  eapply rel_bind; [apply rel_reads_val; auto; intros s t p; apply ev_edge_ends, p|]. intros [a b] s t [p X].
  apply edge_ends_in in X as (Ia & Ib & _). rewrite !bind_gets. rewrite (proj2 p a Ia), (proj2 p b Ib).
  destruct (_ && _)%bool; [|now apply IH]. revert s t p Ia Ib.
  assert (L : rel (V D F) (modify (upd_if a (if_inckt true)) ;;; modify (upd_if b (if_inckt true)) ;;;
        match k with Flex => ret tt | Perf => modify (upd_if a (if_cid (CInt num))) ;;; modify (upd_if b (if_cid (CInt num))) end ;;;
        pair_edges k es (num + 1)%Z (acc ++ [(a, b)])) (fun _ => V D F)).
  { eapply rel_bind; [apply rel_V_modify; intros; now apply V_mark|]. intros ?. eapply rel_bind; [apply rel_V_modify; intros; now apply V_mark|]. intros ?.
    eapply rel_bind; [|intros ?; apply IH].
    assert (C : forall i, rel (V D F) (modify (upd_if i (if_cid (CInt num)))) (fun _ => V D F)) by (intros i; apply rel_V_modify; intros; now apply V_if).
    destruct k; [apply rel_ret; auto|]. eapply rel_bind; [apply C|]. intros ?. apply C. }
  intros s t p _ _. exact (L s t p).
Qed.

Lemma rel_circuits D F : rel (P D F) (make_circuits E k) (fun _ s t => V D F s t /\ m_ckts t = m_ckts s).
Proof.
  intros s t p. unfold make_circuits. rewrite !bind_gets. rewrite (rs_graph E k s t (eqv_rsame s t (proj1 p))), (ev_ifs _ _ (proj1 p)).
  destruct (mfor_upd_if (if_inckt false) (m_ifs s) (fun r => eq_refl) s) as (h1 & R1 & X1).
  destruct (mfor_upd_if (if_inckt false) (m_ifs s) (fun r => eq_refl) t) as (h2 & R2 & X2).
  rewrite (bind_run _ _ _ _ _ R1), (bind_run _ _ _ _ _ R2).
  assert (W : V D F (with_if s h1) (with_if t h2)).
  { destruct p as (H1 & H2 & H3). split.
    - split; [|split; auto]. constructor; try apply H1. intros i. simpl. rewrite X1, X2. destruct (mem_nat i (m_ifs s)); [|apply H1]. rewrite (ev_if _ _ H1 i). reflexivity.
    - intros i Hi. simpl in *. rewrite X1, X2. assert (M : mem_nat i (m_ifs s) = true) by now apply mem_nat_In. now rewrite M. }
  generalize (edge_iter E (g_edges (make_graph k s true 0 false))). intros es. clear X1 X2 R1 R2 p. revert W. generalize (with_if s h1), (with_if t h2). clear s t h1 h2.
  assert (L : rel (V D F) (cs <- pair_edges k (filter (fun e => has_edge es (e_v e) (e_u e)) es) 1 [] ;;
     if existsb (fun e => negb (has_edge es (e_v e) (e_u e))) es then raise (ModelException "These interfaces were not matched into a circuit") else modify (set_ckts cs))
     (fun _ s t => V D F s t /\ m_ckts t = m_ckts s)).
  { eapply rel_bind; [apply rel_pair|]. intros cs. destruct (existsb _ es); [apply rel_raise; auto|]. apply rel_modify. intros s t p.
    assert (X : V D F (set_ckts cs s) (set_ckts cs t)).
    { destruct p as ((H1 & H2 & H3) & K). split; [|exact K]. split; [|split; auto]. constructor; apply H1. }
    split; [apply X|]. split; auto. }
  exact L.
Qed.

Definition VC D F s t := V D F s t /\ m_ckts t = m_ckts s.
Lemma VC_in D F : in_eqv (VC D F).
Proof. intros s t H. apply H. Qed.
Hint Resolve VC_in : core.
Lemma rel_VC_gets {A} (f : st -> A) D F : (forall s t, eqv s t -> f t = f s) -> rel (VC D F) (gets f) (fun _ => VC D F).
Proof. intros X. apply rel_gets; auto. intros s t p. apply X, p. Qed.

Lemma ev_info s t : eqv s t -> int_info t = int_info s.
Proof.
  intros H. assert (R := eqv_rsame s t H). unfold int_info. rewrite (ev_lsps _ _ H), (filter_ext _ _ (rs_routed E s t R)). f_equal. apply rmap_ext. intros l Hl.
  apply filter_In in Hl as [_ Hl]. rewrite (rs_interfaces E s t R). destruct (lsp_interfaces s l) as [ifs|]; auto. cbn [rbind]. apply rmap_ext. intros i _.
  assert (K : forall x, ikey t x = ikey s x) by (intros; unfold ikey; rewrite (rs_local E s t R), (ev_if _ _ H x); reflexivity).
  rewrite (ev_ifs _ _ H), (existsb_ext' _ (fun j => key2_eqb (ikey s j) (ikey s i))) by (intros; now rewrite !K). rewrite K.
  destruct (ev_sig _ _ H l) as [-> _]; auto. unfold lsp_routed in Hl. intros C. rewrite C in Hl. discriminate.
Qed.

Lemma rel_fail D F i : rel (VC D F) (iface_set_failed i true) (fun _ => VC D F).
Proof.
  unfold iface_set_failed. apply rel_modify. intros s t [p C]. assert (X : V D F (upd_if i (fun r => if_res 0%Q (if_failed true r)) s) (upd_if i (fun r => if_res 0%Q (if_failed true r)) t)).
  { apply V_if; auto. }
  split; [apply X|]. split; auto.
Qed.
Lemma rel_check D F c : rel (VC D F) (check_circuit c) (fun _ => VC D F).
Proof.
  destruct c as [a b]. unfold check_circuit.
  assert (FG : forall i, rel (VC D F) (gets (fun s => i_failed (h_if s i))) (fun _ => VC D F)) by (intros i; apply rel_VC_gets; intros s t H; rewrite (ev_if _ _ H i); reflexivity).
  eapply rel_bind; [apply FG|]. intros fa. eapply rel_bind; [apply FG|]. intros fb. eapply rel_bind.
  - destruct (Bool.eqb fa fb); [apply rel_ret; auto|]. eapply rel_bind; [apply rel_fail|]. intros ?. apply rel_fail.
  - intros ?. apply rel_VC_gets. intros s t H. rewrite (ev_if _ _ H a), (ev_if _ _ H b). reflexivity.
Qed.

Lemma rel_validate D F : rel (P D F) (validate_model E k) (fun _ => VC D F).
Proof.
  unfold validate_model. eapply rel_bind; [apply rel_circuits|]. intros ?. eapply rel_bind; [apply (rel_reads int_info (VC D F)); auto; intros s t p; apply ev_info, p|]. intros info.
  eapply rel_bind; [apply rel_VC_gets; intros s t H; apply H|]. intros ifs.
  eapply rel_bind; [apply rel_VC_gets|].
  { intros s t H. apply existsb_ext'. intros i. unfold res_too_high. rewrite (ev_reserved s t H), (ev_if _ _ H i). reflexivity. }
  intros hi. eapply rel_bind; [apply rel_VC_gets|].
  { intros s t H. apply existsb_ext'. intros i. unfold res_sum_wrong, ikey. rewrite (ev_reserved s t H), (rs_local E s t (eqv_rsame s t H)), (ev_if _ _ H i). reflexivity. }
  intros su. eapply rel_bind; [apply rel_VC_gets; auto|]. intros un.
  eapply rel_bind; [apply rel_VC_gets; intros s t H; destruct k; auto; rewrite (ev_nds _ _ H); apply existsb_ext'; intros n; now rewrite (ev_nd _ _ H)|]. intros sc.
  eapply rel_bind; [apply rel_gets; auto; intros s t p; apply p|]. intros cs.
  eapply rel_bind; [apply rel_mmap; auto; intros c _; apply rel_check|]. intros caps.
  eapply rel_bind; [apply rel_VC_gets|].
  { intros s t H. assert (R := eqv_rsame s t H). destruct k; auto. unfold parallel_links. rewrite (ev_ifs _ _ H).
    rewrite (map_ext (fun i => pair_key (ilocal t i) (iremote t i)) (fun i => pair_key (ilocal s i) (iremote s i))); auto.
    intros i. now rewrite (rs_local E s t R), (rs_remote E s t R). }
  intros pl. eapply rel_bind; [apply rel_VC_gets|].
  { intros s t H. unfold srlg_errors, srlg_nodes. rewrite (ev_srs _ _ H), (ev_nds _ _ H). apply existsb_ext'. intros g.
    rewrite (filter_ext _ (fun n => mem_nat g (n_srlgs (h_nd s n)))) by (intros n; now rewrite (ev_nd _ _ H)). apply existsb_ext'. intros n. now rewrite (ev_nd _ _ H). }
  intros se. eapply rel_bind; [apply rel_VC_gets|].
  { intros s t H. unfold dup_node_names. rewrite (ev_nds _ _ H), (rs_names E s t (eqv_rsame s t H)). reflexivity. }
  intros dn. cbv zeta. destruct (_ ++ _)%list; [destruct un; [apply rel_ret|apply rel_raise]|apply rel_raise]; auto.
Qed.

(** ** update_simulation *)
Lemma omm_read a b : snd (mstep (mstate_of b) MRead) = snd (mstep (mstate_of a) MRead) -> omm b = omm a.
Proof.
  unfold mstep, mstate_of, omm. destruct (l_imm a) as [x|], (l_imm b) as [y|]; intros H; cbn in *; repeat match goal with
  | H : context [Z.eqb ?z 0] |- _ => destruct (Z.eqb z 0); cbn in *
  | H : context [Z.ltb 0 ?z] |- _ => destruct (Z.ltb 0 z); cbn in *
  end; congruence.
Qed.

Lemma start_eqv s t s1 t1 : same_input s t -> same_draws E s t -> prepared s s1 -> prepared t t1 -> P none none s1 t1 /\ egroups E s1 = build_groups E (lsrc s) (ldst s) (m_lsps s).
Proof.
  intros I Dr A B. destruct I. split; [split; [|split; intros ? []]|].
  - assert (LS : forall l, l_src (h_ls t1 l) = l_src (h_ls s1 l) /\ l_dst (h_ls t1 l) = l_dst (h_ls s1 l)).
    { intros l. rewrite (pr_ls _ _ A), (pr_ls _ _ B), si_m_lsps. destruct (mem_nat l (m_lsps s)) eqn:M; [|apply mem_nat_false in M; now rewrite si_out_lsps].
      apply mem_nat_In in M. simpl. destruct (si_lsps l M) as (X1 & X2 & _). auto. }
    constructor.
    + rewrite (pr_nd _ _ A), (pr_nd _ _ B). auto.
    + rewrite (pr_ifs _ _ A), (pr_ifs _ _ B). auto.
    + rewrite (pr_nds _ _ A), (pr_nds _ _ B). auto.
    + rewrite (pr_dms _ _ A), (pr_dms _ _ B). auto.
    + rewrite (pr_lsps _ _ A), (pr_lsps _ _ B). auto.
    + rewrite (pr_srs _ _ A), (pr_srs _ _ B). auto.
    + intros i. rewrite (pr_if _ _ A), (pr_if _ _ B), si_m_ifs. destruct (mem_nat i (m_ifs s)) eqn:M.
      * apply mem_nat_In in M. destruct (si_ifs i M) as (X1 & X2 & X3 & X4 & X5 & X6 & X7 & X8 & X9 & X10).
        destruct (h_if s i), (h_if t i); cbn in *; subst; reflexivity.
      * apply mem_nat_false in M. rewrite si_out_ifs by auto. destruct (h_if s i); reflexivity.
    + intros d. rewrite (pr_dm _ _ A), (pr_dm _ _ B), si_m_dms. destruct (mem_nat d (m_dms s)) eqn:M.
      * apply mem_nat_In in M. destruct (si_dms d M) as (X1 & X2 & X3 & X4). destruct (h_dm s d), (h_dm t d); cbn in *; subst; reflexivity.
      * apply mem_nat_false in M. rewrite si_out_dms by auto. destruct (h_dm s d); reflexivity.
    + intros l. rewrite (pr_ls _ _ A), (pr_ls _ _ B), si_m_lsps. destruct (mem_nat l (m_lsps s)) eqn:M.
      * apply mem_nat_In in M. destruct (si_lsps l M) as (X1 & X2 & X3 & X4 & _). destruct (h_ls s l), (h_ls t l); cbn in *; subst; reflexivity.
      * apply mem_nat_false in M. rewrite si_out_lsps by auto. destruct (h_ls s l); reflexivity.
    + intros l. rewrite (pr_ls _ _ A), (pr_ls _ _ B), si_m_lsps. destruct (mem_nat l (m_lsps s)) eqn:M.
      * apply mem_nat_In in M. destruct (si_lsps l M) as (_ & _ & _ & _ & X). apply omm_read in X. exact X.
      * apply mem_nat_false in M. now rewrite si_out_lsps.
    + apply egroups_ext; [now rewrite (pr_groups _ _ A), (pr_groups _ _ B)|]. apply build_ext; auto.
      * rewrite (pr_nd _ _ A), (pr_nd _ _ B). auto.
      * rewrite (pr_lsps _ _ A), (pr_lsps _ _ B). auto.
    + intros l. rewrite (pr_ls _ _ A), (pr_ls _ _ B), si_m_lsps. destruct (mem_nat l (m_lsps s)) eqn:M; [simpl; congruence|].
      apply mem_nat_false in M. now rewrite si_out_lsps.
    + intros n. rewrite (pr_rng _ _ A), (pr_rng _ _ B). apply Dr.
  - unfold egroups. rewrite (pr_groups _ _ A). apply build_ext; [now rewrite (pr_nd _ _ A)|apply A|]. intros l. rewrite (pr_ls _ _ A). destruct (mem_nat l (m_lsps s)); auto.
Qed.

Lemma eqv_results s t : eqv s t -> same_results s t.
Proof.
  intros H. constructor.
  - intros i _. rewrite (ev_if _ _ H i). repeat split; reflexivity.
  - intros l _. split; [apply (ev_path s t H)|apply H].
  - intros d _. apply (ev_dpath s t H).
Qed.

Lemma update_lsps s : m_lsps (fst (update_simulation E k s)) = m_lsps s.
Proof.
  apply (pres_update_simulation E k (fun s t => m_lsps t = m_lsps s)); try (intros; unfold c_groups, c_ckts, c_rng, c_if, c_ls, c_dm; intros; reflexivity).
  split; [reflexivity|intros a b c; congruence].
Qed.
Lemma validate_dms s : m_dms (fst (validate_model E k s)) = m_dms s.
Proof.
  apply (pres_validate_model E k (fun s t => m_dms t = m_dms s)); try (intros; unfold c_groups, c_ckts, c_rng, c_if, c_ls, c_dm; intros; reflexivity).
  split; [reflexivity|intros a b c; congruence].
Qed.

Lemma update_indep s t : same_input s t -> same_draws E s t ->
  let s' := fst (update_simulation E k s) in let t' := fst (update_simulation E k t) in
  snd (update_simulation E k t) = snd (update_simulation E k s) /\ same_results s' t' /\ m_lsps s' = m_lsps s /\
  (snd (update_simulation E k s) = Ok tt -> same_details s' t' /\
    forall g l, In g (build_groups E (lsrc s) (ldst s) (m_lsps s)) -> In l (snd g) -> l_res (h_ls t' l) = l_res (h_ls s' l) /\ l_setup (h_ls t' l) = l_setup (h_ls s' l)).
Proof.
  intros I Dr. cbv zeta. assert (ML := update_lsps s).
  destruct (update_start E k s) as (s1 & A & RA), (update_start E k t) as (t1 & B & RB). rewrite RA in ML |- *. rewrite RB.
  destruct (start_eqv s t s1 t1 I Dr A B) as [p G].
  assert (L : rel (fun s t => P none none s t /\ egroups E s = egroups E s1) (bind (route_lsps E k) (fun _ => bind (route_demands E k) (fun _ => validate_model E k)))
     (fun _ s t => P (fun x => grouped s1 x \/ none x) (fun d => In d (m_dms s)) s t /\ (forall i, In i (m_ifs s) -> i_inckt (h_if t i) = i_inckt (h_if s i)) /\ m_ckts t = m_ckts s)).
  { eapply rel_bind; [apply rel_route_lsps|]. intros ?. eapply rel_bind; [apply rel_route_demands|]. intros ? s0 t0 q.
    destruct (rel_validate (fun x => grouped s1 x \/ none x) (fun d => In d (m_dms s0)) s0 t0 q) as (Y1 & Y2 & Y3). split; [exact Y1|]. split; [exact Y2|].
    intros b Hb. destruct (Y3 b Hb) as ((Z1 & Z2) & Z3). split; auto. eapply P_weak; [| |exact Z1]; auto. intros d Hd.
    now rewrite <- (validate_dms s0). }
  destruct (L s1 t1 (conj p eq_refl)) as (Y1 & Y2 & Y3). split; [exact Y2|]. split; [now apply eqv_results|]. split; [exact ML|].
  intros Ho. destruct (Y3 tt Ho) as ((Z1 & Z2 & Z3) & Z4 & Z5). split.
  - constructor; auto.
  - intros g l Hg Hl. apply (Z2 l). left. exists g. rewrite G. auto.
Qed.
End Indep.
