(** FloatFail.v - the exact simulation and the float simulation in lockstep, also when they
    stop with an error. *)
From Verif Require Import Base Graph Objects Sim Float GraphProofs ObjProofs MonadProofs RoundProofs FloatProofs QuietProofs RouteProofs TrafficProofs FloatLock.
From Verif Require FloatSim ShareProofs.
From Coq Require Import Lqa.

(** ** The second run succeeds when the first does, and fails with the same error when it does *)
Definition fails {A B} (P : st -> st -> Prop) (m : M A) (n : M B) : Prop :=
  forall s t s' e, P s t -> m s = (s', Err e) -> exists t', n t = (t', Err e).
Definition both {A B} (V : A -> B -> Prop) (P Q : st -> st -> Prop) (m : M A) (n : M B) : Prop := lock V P Q m n /\ fails P m n.

Lemma both_ret {A B} (V : A -> B -> Prop) P a b : V a b -> both V P P (ret a) (ret b).
Proof. intros H. split; [now apply lock_ret|]. intros s t s' e _ R. discriminate. Qed.
Lemma both_raise {A B} (V : A -> B -> Prop) P Q e : both V P Q (raise e) (raise e).
Proof. split; [apply lock_raise|]. intros s t s' x _ R. injection R as <- <-. exists t. reflexivity. Qed.
Lemma both_gets {A B} (V : A -> B -> Prop) (P : st -> st -> Prop) f g : (forall s t, P s t -> V (f s) (g t)) -> both V P P (gets f) (gets g).
Proof. intros H. split; [now apply lock_gets|]. intros s t s' e _ R. discriminate. Qed.
Lemma both_modify (P Q : st -> st -> Prop) f g : (forall s t, P s t -> Q (f s) (g t)) -> both eq P Q (modify f) (modify g).
Proof. intros H. split; [now apply lock_modify|]. intros s t s' e _ R. discriminate. Qed.
Lemma both_reads {A} (P : st -> st -> Prop) (f g : st -> res A) : (forall s t, P s t -> g t = f s) -> both eq P P (reads f) (reads g).
Proof.
  intros H. split; [apply lock_reads; intros s t a HP F; exists a; rewrite (H s t HP); auto|].
  intros s t s' e HP R. exists t. unfold reads in *. rewrite (H s t HP). injection R as <- ->. reflexivity.
Qed.
Lemma bind_err {A B} (m : M A) (f : A -> M B) s s' e : bind m f s = (s', Err e) -> m s = (s', Err e) \/ exists s1 a, m s = (s1, Ok a) /\ f a s1 = (s', Err e).
Proof. unfold bind. destruct (m s) as [s1 [a|x]]; intros R; [right; eauto|left; congruence]. Qed.
Lemma both_bind {A B C D} (U : A -> B -> Prop) (V : C -> D -> Prop) P Q T m n (f : A -> M C) (g : B -> M D) :
  both U P Q m n -> (forall a b, U a b -> both V Q T (f a) (g b)) -> both V P T (bind m f) (bind n g).
Proof.
  intros [H1 F1] H2. split; [eapply lock_bind; [exact H1|]; intros a b X; apply (H2 a b X)|].
  intros s t s' e HP R. apply bind_err in R as [R|(s1 & a & R1 & R2)].
  - destruct (F1 s t s' e HP R) as (t' & X). exists t'. unfold bind. now rewrite X.
  - destruct (H1 s t s1 a HP R1) as (t1 & b & N1 & Q1 & U1). destruct (proj2 (H2 a b U1) s1 t1 s' e Q1 R2) as (t' & X). exists t'. now rewrite (bind_run _ _ _ _ _ N1).
Qed.
Lemma both_same {A C D} (V : C -> D -> Prop) P Q T (m n : M A) f g :
  both eq P Q m n -> (forall a, both V Q T (f a) (g a)) -> both V P T (bind m f) (bind n g).
Proof. intros H1 H2. eapply both_bind; [exact H1|]. intros a b ->. apply H2. Qed.
Lemma both_weak {A B} (V W : A -> B -> Prop) (P P' Q Q' : st -> st -> Prop) m n : (forall s t, P' s t -> P s t) -> (forall s t, Q s t -> Q' s t) -> (forall a b, V a b -> W a b) ->
  both V P Q m n -> both W P' Q' m n.
Proof. intros A1 A2 A3 [H F]. split; [eapply lock_weak; eauto|]. intros s t s' e HP R. eapply F; eauto. Qed.
Lemma both_mfor2 {A} P (R : A -> A -> Prop) l l' f g : Forall2 R l l' -> (forall x y, In x l -> R x y -> both eq P P (f x) (g y)) -> both eq P P (mfor l f) (mfor l' g).
Proof.
  induction 1 as [|x y l l' Hxy H IH]; intros F; cbn [mfor]; [apply both_ret; reflexivity|].
  eapply both_same; [apply F; [left; reflexivity|exact Hxy]|]. intros _. apply IH. intros a b Ha. apply F. right. exact Ha.
Qed.
Lemma both_mfor {A} P (l : list A) f g : (forall x, In x l -> both eq P P (f x) (g x)) -> both eq P P (mfor l f) (mfor l g).
Proof. intros H. apply (both_mfor2 P eq); [apply Forall2_refl|]. intros x y Hx <-. now apply H. Qed.
Lemma both_mmap_eq {A B} P (l : list A) (f g : A -> M B) : (forall x, In x l -> both eq P P (f x) (g x)) -> both eq P P (mmap f l) (mmap g l).
Proof.
  induction l as [|x l IH]; intros H; cbn [mmap]; [apply both_ret; reflexivity|].
  eapply both_same; [apply H; left; reflexivity|]. intros b. eapply both_same; [apply IH; intros y Hy; apply H; right; exact Hy|].
  intros ys. apply both_ret. reflexivity.
Qed.
Lemma both_mfilter {A} P (l : list A) f g : (forall x, In x l -> both eq P P (f x) (g x)) -> both eq P P (mfilter f l) (mfilter g l).
Proof.
  induction l as [|x l IH]; intros H; cbn [mfilter]; [apply both_ret; reflexivity|].
  eapply both_same; [apply H; left; reflexivity|]. intros b. eapply both_same; [apply IH; intros y Hy; apply H; right; exact Hy|].
  intros ys. apply both_ret. reflexivity.
Qed.

Section Fail.
Variables (E : env) (k : kind).
(** amounts of traffic do not matter here *)
Definition any_tr : nat -> Q -> Q -> Prop := fun _ _ _ => True.
Definition any_sh : Q -> Q -> Prop := fun _ _ => True.
Notation c0 := (fun _ : nat => 0%nat).
Notation twn := (twin any_tr any_sh c0).
Notation two := (tws any_tr any_sh c0).
Lemma any_le c s t : tws any_tr any_sh c s t -> two s t.
Proof. apply (tws_le any_tr any_sh True); auto. Qed.
Lemma lock_any {A B} (V : A -> B -> Prop) P c m n : lock V P (tws any_tr any_sh c) m n -> lock V P two m n.
Proof. apply lock_weak; auto. intros s t. apply any_le. Qed.

Lemma both_get_mm l : both eq two two (get_manual_metric l) (get_manual_metric l).
Proof.
  split; [apply lock_get_mm|]. intros s t s' e [H S]. unfold get_manual_metric. rewrite !bind_gets. destruct (tw_ldata _ _ _ _ _ H l) as (_ & _ & _ & _ & -> & ->).
  destruct (l_imm (h_ls s l)) as [z|]; [|intros R; discriminate]. destruct (Z.eqb z 0); [intros R; discriminate|]. destruct (0 <? z)%Z.
  - rewrite !bind_modify. intros R. discriminate.
  - intros R. injection R as <- <-. eexists. reflexivity.
Qed.
Lemma both_effective l : both eq two two (effective_metric E k l) (FloatSim.effective_metric fl E k l).
Proof.
  split; [apply lock_effective|]. 
  assert (X : both eq two two (mm <- get_manual_metric l ;; match mm with Some _ => modify (fun s => upd_ls l (fun r => ls_mm (l_mm r) None r) s) ;;; mm' <- get_manual_metric l ;; match mm' with Some z => ret (MInt z) | None => ret MNone end | None => ret MNone end)
    (mm <- get_manual_metric l ;; match mm with Some _ => modify (fun s => upd_ls l (fun r => ls_mm (l_mm r) None r) s) ;;; mm' <- get_manual_metric l ;; match mm' with Some z => ret (MInt z) | None => ret MNone end | None => ret MNone end)).
  { eapply both_same; [apply both_get_mm|]. intros [z|]; [|apply both_ret; reflexivity].
    apply (both_same eq two two two); [apply both_modify; intros s t [H S]; split; [|exact S]; apply twin_ls; [exact H|]|].
    - destruct (tw_ldata _ _ _ _ _ H l) as (_ & _ & _ & _ & -> & _). apply lstwin_mm. apply H.
    - intros _. eapply both_same; [apply both_get_mm|]. intros [y|]; apply both_ret; reflexivity. }
  intros s t s' e HT R. unfold effective_metric, FloatSim.effective_metric in *. apply bind_err in R as [R|(s1 & mm & R1 & R2)].
  - destruct (proj2 (both_get_mm l) s t s' e HT R) as (t' & Y). exists t'. unfold bind. now rewrite Y.
  - destruct mm as [z|].
    + destruct (proj2 X s t s' e HT) as (t' & Y); [now rewrite (bind_run _ _ _ _ _ R1)|]. destruct (proj1 (both_get_mm l) s t s1 _ HT R1) as (t1 & b & N1 & _ & <-).
      rewrite (bind_run _ _ _ _ _ N1) in Y. rewrite (bind_run _ _ _ _ _ N1). eauto.
    + rewrite bind_gets in R2. destruct (says_unrouted _); [discriminate|]. destruct (fst _); discriminate.
Qed.
Lemma both_groups : both eq two two (parallel_lsp_groups E) (parallel_lsp_groups E).
Proof.
  split; [apply lock_groups|]. intros s t s' e [H S]. unfold parallel_lsp_groups. rewrite !bind_gets. destruct (m_groups s); intros R; [|discriminate].
  rewrite bind_gets, bind_modify in R. discriminate.
Qed.

Ltac bt_step :=
  match goal with
  | |- both eq ?P ?T (bind _ _) (bind _ _) => apply (both_same eq P P T); [|intro]
  | |- both _ _ _ (ret _) (ret _) => apply both_ret
  | |- both _ _ _ (raise _) (raise _) => apply both_raise
  | |- both eq _ _ (mmap _ _) (mmap _ _) => apply both_mmap_eq; intros ? _
  | |- both eq _ _ (mfilter _ _) (mfilter _ _) => apply both_mfilter; intros ? _
  | |- both _ _ _ (effective_metric _ _ _) _ => apply both_effective
  | |- both _ _ _ (parallel_lsp_groups _) _ => apply both_groups
  | |- both _ _ _ (gets _) _ => apply both_gets; intros ? ? [? ?]
  | |- both _ _ _ (if ?b then _ else _) _ => destruct b
  | |- both _ _ _ (match ?x with _ => _ end) _ => destruct x
  end.
Ltac bt_go := repeat (first [bt_step | assumption | reflexivity]).
Lemma routed_both s t cands : twn s t -> filter (lsp_routed s) cands = filter (lsp_routed t) cands.
Proof. apply (tw_filter_routed any_tr any_sh). Qed.

Lemma both_min_metric key : both eq two two (min_metric_lsps E k key) (FloatSim.min_metric_lsps fl E k key).
Proof. unfold min_metric_lsps, FloatSim.min_metric_lsps. bt_go; [now apply routed_both|]. symmetry. eapply tw_routed; eassumption. Qed.
Lemma both_e2e d : both eq two two (e2e_lsps E k d) (FloatSim.e2e_lsps fl E k d).
Proof.
  unfold e2e_lsps, FloatSim.e2e_lsps. bt_go; [|now apply routed_both]. now rewrite (tw_dsrc _ _ _ _ _ H), (tw_ddst _ _ _ _ _ H).
Qed.
Lemma both_first src ds : both eq two two (first_lsps E k src ds) (FloatSim.first_lsps fl E k src ds).
Proof. induction ds; cbn [first_lsps FloatSim.first_lsps]; bt_go. apply both_min_metric. Qed.
Lemma both_node n : both eq two two (reads (fun s => get_node s n)) (reads (fun s => get_node s n)).
Proof. apply both_reads. intros s t [H _]. eapply tw_get_node; exact H. Qed.
Lemma both_path_lsps full rest : forall sk acc, both eq two two (path_lsps E k full rest sk acc) (FloatSim.path_lsps fl E k full rest sk acc).
Proof.
  induction rest; cbn [path_lsps FloatSim.path_lsps]; intros; bt_go; auto; try apply both_first; try apply both_node.
  - now rewrite (tw_nd _ _ _ _ _ H).
  - now rewrite (tw_nd _ _ _ _ _ H).
  - now rewrite (tw_ldst _ _ _ _ _ H).
Qed.
Lemma both_last nps : forall acc, both eq two two (last_path_lsps E k nps acc) (FloatSim.last_path_lsps fl E k nps acc).
Proof. induction nps; cbn [last_path_lsps FloatSim.last_path_lsps]; intros; bt_go; auto. apply both_path_lsps. Qed.
Lemma both_path_metric p : both eq two two (path_metric E k p) (FloatSim.path_metric fl E k p).
Proof.
  induction p as [|[i|l] p IH]; cbn [path_metric FloatSim.path_metric]; bt_go. symmetry. apply (tw_idata _ _ _ _ _ H).
Qed.
Lemma both_inspect ps : both eq two two (inspect_metrics E k ps) (FloatSim.inspect_metrics fl E k ps).
Proof. unfold inspect_metrics, FloatSim.inspect_metrics. bt_go. apply both_path_metric. Qed.
Lemma both_shortcuts ps nps : both eq two two (find_igp_shortcuts E k ps nps) (FloatSim.find_igp_shortcuts fl E k ps nps).
Proof.
  unfold find_igp_shortcuts, FloatSim.find_igp_shortcuts. bt_go; try apply both_last; try apply both_inspect; try apply both_node.
  - now rewrite (tw_nd _ _ _ _ _ H).
  - symmetry. eapply tw_substitute; eassumption.
Qed.
Lemma both_dpath d p : both eq two two (modify (upd_dm d (dm_path p))) (modify (upd_dm d (dm_path p))).
Proof. apply both_modify. intros s t [H S]. split; [|exact S]. apply twin_dm; auto. apply dmtwin_path. apply H. Qed.
Lemma both_route_demand G d : both eq two two (route_demand E k G d) (FloatSim.route_demand fl E k G d).
Proof.
  assert (SC := both_shortcuts). unfold route_demand, FloatSim.route_demand. bt_go; try apply both_dpath; try apply both_e2e; try apply SC.
  - now rewrite (tw_dsrc _ _ _ _ _ H), (tw_ddst _ _ _ _ _ H).
  - now rewrite (tw_iface_paths _ _ _ _ _ _ H).
Qed.

(** ** Traffic *)
Lemma both_add_traffic i x y : both eq two two (add_traffic i x) (FloatSim.add_traffic fl i y).
Proof.
  split; [eapply lock_any; apply (lock_add_traffic any_tr any_sh); exact (fun _ _ _ _ _ _ _ => I) || exact I|].
  intros s t s' e [H S]. unfold add_traffic, FloatSim.add_traffic. rewrite !bind_gets. destruct (tw_if _ _ _ _ _ H i) as (_ & _ & C).
  destruct (i_traffic (h_if s i)) as [|q], (i_traffic (h_if t i)) as [|f]; simpl in C; try tauto; intros R; [|discriminate]. injection R as <- <-. eexists. reflexivity.
Qed.
Lemma both_lsp_ifs l : both eq two two (reads (fun s => lsp_interfaces s l)) (reads (fun s => lsp_interfaces s l)).
Proof. apply both_reads. intros s t [H _]. eapply tw_interfaces; exact H. Qed.
Lemma both_item xs ys it : Forall2 (inftwin any_sh) xs ys -> both eq two two (add_item_traffic k xs it) (FloatSim.add_item_traffic fl k ys it).
Proof.
  intros F. assert (G : forall f g, both (fun _ _ : Q => True) two two (gets f) (gets g)) by (intros f g; apply both_gets; auto).
  unfold add_item_traffic, FloatSim.add_item_traffic. destruct k, it as [i|l].
  - apply (both_mfor2 _ (inftwin any_sh)); [exact F|]. intros a b _ Hab. eapply both_same; [apply both_gets|].
    + intros s t [H S]. cbn. rewrite (inftwin_items _ _ _ Hab). symmetry. apply (tw_mem_item _ _ _ _ _ H).
    + intros [|]; [apply both_add_traffic|apply both_ret; reflexivity].
  - eapply both_bind; [apply G|]. intros x y _. eapply both_same; [apply both_lsp_ifs|]. intros ifs. apply both_mfor. intros i _. apply both_add_traffic.
  - eapply both_bind; [apply G|]. intros x y _. apply both_add_traffic.
  - apply both_raise.
Qed.
Lemma rmap_both {A B C} (f : A -> res B) (g : A -> res C) l : (forall x b, f x = Ok b -> exists c, g x = Ok c) -> (forall x e, f x = Err e -> g x = Err e) ->
  forall e, rmap f l = Err e -> rmap g l = Err e.
Proof.
  intros H1 H2. induction l as [|x l IH]; simpl; intros e R; [discriminate|]. destruct (f x) as [b|e0] eqn:Fx; simpl in R.
  - destruct (H1 x b Fx) as (c & ->). simpl. destruct (rmap f l) as [bs|e1]; simpl in R; [discriminate|]. rewrite (IH e1 eq_refl). simpl. congruence.
  - rewrite (H2 x e0 Fx). simpl. congruence.
Qed.
Lemma both_igp d paths : both eq two two (igp_demand_traffic k d paths) (FloatSim.igp_demand_traffic fl k d paths).
Proof.
  assert (PE : forall s t items q x, twn s t -> match path_entry k s items q x, FloatSim.path_entry fl k t items q x with Ok a, Ok b => inftwin any_sh a b | Err e, Err e' => e' = e | _, _ => False end).
  { intros s t items q x H. unfold path_entry, FloatSim.path_entry. rewrite (tw_splits _ _ _ _ _ H). destruct (Zmax_list _); [|reflexivity]. destruct k; repeat split. }
  split.
  - intros s t s' a HT R. destruct (lock_igp k any_tr any_sh True (fun _ _ _ _ => I) (fun _ _ _ => I) (fun _ _ _ _ _ _ => I) (fun _ _ _ _ _ _ _ => I) (fun _ => True) (fun _ _ _ _ => I) c0 d paths (or_introl I) s t s' a (conj HT I) R)
      as (t' & b & X & Y & Z). exists t', b. split; [exact X|]. split; [|exact Z]. eapply any_le; exact Y.
  - intros s t s' e HT. assert (H := proj1 HT). unfold igp_demand_traffic, FloatSim.igp_demand_traffic. rewrite !bind_gets.
    rewrite (tw_item_set _ _ _ _ _ H). destruct (tw_ddata _ _ _ _ _ H d) as (_ & _ & -> & _). rewrite !bind_reads.
    destruct (rmap (path_entry k s _ _) paths) as [infos|e0] eqn:R1; intros R.
    + destruct (rmap_twin (path_entry k s (item_set s paths) (d_traffic (h_dm s d))) (FloatSim.path_entry fl k t (item_set s paths) (d_traffic (h_dm s d))) (inftwin any_sh) paths infos) with (2 := R1) as (infos' & R1' & F).
      { intros x b _ Hb. specialize (PE s t (item_set s paths) (d_traffic (h_dm s d)) x H). rewrite Hb in PE. destruct (FloatSim.path_entry _ _ _ _ _ _) as [b'|]; [|destruct PE]. eauto. }
      rewrite R1'. revert R. enough (X : both eq two two (modify (upd_dm d (dm_detail (PDInfo infos))) ;;; mfor (item_set s paths) (add_item_traffic k infos))
        (modify (upd_dm d (dm_detail (PDInfo infos'))) ;;; mfor (item_set s paths) (FloatSim.add_item_traffic fl k infos'))) by (intros R; exact (proj2 X _ _ _ _ HT R)).
      apply (both_same eq two two two); [apply both_modify|].
      * intros u v [Hu Su]. split; [|exact Su]. apply twin_dm; auto. apply dmtwin_detail; auto. apply Hu.
      * intros _. apply both_mfor. intros it _. now apply both_item.
    + injection R as <- <-. rewrite (rmap_both (path_entry k s (item_set s paths) (d_traffic (h_dm s d))) (FloatSim.path_entry fl k t (item_set s paths) (d_traffic (h_dm s d))) paths) with (3 := R1); [eauto| |].
      * intros x b Hb. specialize (PE s t (item_set s paths) (d_traffic (h_dm s d)) x H). rewrite Hb in PE. destruct (FloatSim.path_entry _ _ _ _ _ _) as [b'|]; [eauto|destruct PE].
      * intros x b Hb. specialize (PE s t (item_set s paths) (d_traffic (h_dm s d)) x H). rewrite Hb in PE. destruct (FloatSim.path_entry _ _ _ _ _ _) as [b'|]; [destruct PE|congruence].
Qed.
Lemma both_lsp d ls : both eq two two (lsp_demand_traffic k d ls) (FloatSim.lsp_demand_traffic fl k d ls).
Proof.
  unfold lsp_demand_traffic, FloatSim.lsp_demand_traffic. eapply (both_same _ _ two); [apply both_gets; intros s t [H _]; symmetry; apply (tw_ddata _ _ _ _ _ H d)|]. intros q.
  assert (A : forall x y, both eq two two (mfor ls (fun l => ifs <- reads (fun s => lsp_interfaces s l) ;; mfor ifs (fun i => add_traffic i x)))
     (mfor ls (fun l => ifs <- reads (fun s => lsp_interfaces s l) ;; mfor ifs (fun i => FloatSim.add_traffic fl i y)))).
  { intros x y. apply both_mfor. intros l _. eapply both_same; [apply both_lsp_ifs|]. intros ifs. apply both_mfor. intros i _. apply both_add_traffic. }
  assert (D : forall f g, (forall l, inftwin any_sh (f l) (g l)) -> both eq two two (modify (upd_dm d (dm_detail (PDInfo (map f ls))))) (modify (upd_dm d (dm_detail (PDInfo (map g ls)))))).
  { intros f g F. apply both_modify. intros u v [Hu Su]. split; [|exact Su]. apply twin_dm; auto. apply dmtwin_detail; [apply Hu|]. now apply Forall2_maps. }
  cbv zeta. destruct k.
  - eapply both_same; [apply D; repeat split|]. intros _. apply A.
  - eapply both_same; [apply A|]. intros _. apply D. repeat split.
Qed.
Lemma both_demand d : both eq two two (demand_traffic E k d) (FloatSim.demand_traffic fl E k d).
Proof.
  unfold demand_traffic, FloatSim.demand_traffic. eapply both_same; [apply both_gets; intros s t [H _]; symmetry; apply (tw_ddata _ _ _ _ _ H d)|]. intros [|ps]; [apply both_ret; reflexivity|].
  eapply both_same; [apply both_gets; intros s t [H _]; rewrite (tw_dsrc _ _ _ _ _ H), (tw_ddst _ _ _ _ _ H); reflexivity|]. intros key. eapply both_same; [apply both_min_metric|].
  intros [|l ls]; [apply both_igp|apply both_lsp].
Qed.
Lemma both_util : both eq two two (update_interface_utilization E k) (FloatSim.update_interface_utilization fl E k).
Proof.
  unfold update_interface_utilization, FloatSim.update_interface_utilization. eapply both_same; [apply both_gets; intros s t [H _]; symmetry; apply H|]. intros ifs.
  eapply both_same; [apply both_mfor; intros i _; apply both_modify|].
  - intros s t [H S]. split; [|apply signs_if; auto; repeat split]. apply (twin_if _ _ c0); auto. eapply iftwin_traffic; [apply H|].
    rewrite (iftwin_failed _ _ _ _ _ (tw_if _ _ _ _ _ H i)). destruct (i_failed (h_if s i)); simpl; auto. intros _. exact I.
  - intros _. eapply both_same; [apply both_gets; intros s t [H _]; symmetry; apply H|]. intros ds. apply both_mfor. intros d _. apply both_demand.
Qed.
Lemma both_demands : both eq two two (route_demands E k) (FloatSim.route_demands fl E k).
Proof.
  unfold route_demands, FloatSim.route_demands. eapply both_same; [apply both_gets; intros s t HT; symmetry; apply (tws_graph k any_tr any_sh c0); exact HT|]. intros G.
  eapply both_same; [apply both_gets; intros s t [H _]; symmetry; apply H|]. intros ds. eapply both_same; [apply both_mfor; intros d _; apply both_route_demand|]. intros _. apply both_util.
Qed.

(** ** Validation *)
Lemma both_ckt i f : (forall a, i_traffic (f a) = i_traffic a /\ i_res (f a) = i_res a /\ i_cap (f a) = i_cap a /\ i_pct (f a) = i_pct a /\ i_rsvp (f a) = i_rsvp a) ->
  (forall a v w, f (if_traffic v (if_res w a)) = if_traffic v (if_res w (f a))) -> both eq two two (modify (upd_if i f)) (modify (upd_if i f)).
Proof. intros F C. split; [now apply lock_ckt|]. intros s t s' e _ R. discriminate. Qed.
Lemma both_pair_edges es : forall num acc, both eq two two (pair_edges k es num acc) (pair_edges k es num acc).
Proof.
  assert (EE : forall s t e, twn s t -> edge_ends k t e = edge_ends k s e) by (intros; eapply tw_edge_ends; eauto).
  induction es as [|e es IH]; intros num acc; cbn [pair_edges]; [apply both_ret; reflexivity|].
  eapply both_same; [apply both_reads; intros s t [H _]; apply (EE s t e H)|]. intros [a b]. eapply both_same; [apply both_gets; intros s t [H _]|].
  - destruct (tw_idata _ _ _ _ _ H a) as (_ & _ & _ & _ & _ & _ & _ & _ & _ & _ & ->). destruct (tw_idata _ _ _ _ _ H b) as (_ & _ & _ & _ & _ & _ & _ & _ & _ & _ & ->). reflexivity.
  - intros [|]; [|apply IH]. eapply both_same; [apply both_ckt; repeat split|]. intros _. eapply both_same; [apply both_ckt; repeat split|]. intros _.
    apply (both_same eq two two two); [|intros _; apply IH]. destruct k; [apply both_ret; reflexivity|].
    eapply both_same; [apply both_ckt; repeat split|]. intros _. apply both_ckt; repeat split.
Qed.
Lemma both_make_circuits : both eq two two (make_circuits E k) (FloatSim.make_circuits fl E k).
Proof.
  unfold make_circuits, FloatSim.make_circuits. eapply both_same; [apply both_gets; intros s t HT; rewrite (tws_graph k any_tr any_sh c0 s t) by exact HT; reflexivity|]. intros es.
  eapply both_same; [apply both_gets; intros s t [H _]; symmetry; apply H|]. intros ifs. eapply both_same; [apply both_mfor; intros i _; apply both_ckt; repeat split|]. intros _.
  eapply both_same; [apply both_pair_edges|]. intros cs. destruct (existsb _ es); [apply both_raise|]. apply both_modify. intros s t [H S]. split; [now apply twin_ckts|exact S].
Qed.
Lemma both_check p : both eq twn twn (check_circuit p) (check_circuit p).
Proof.
  split; [apply lock_check|]. intros s t s' e _ R. exfalso. destruct p as [a b]. unfold check_circuit in R. rewrite !bind_gets in R. apply bind_err in R as [R|(s1 & u & _ & R)]; [|discriminate].
  destruct (Bool.eqb _ _); [discriminate|]. unfold iface_set_failed in R. rewrite bind_modify in R. discriminate.
Qed.

Definition sums_same (s t : st) : Prop :=
  (forall i, In i (m_ifs s) -> FloatSim.res_too_high fl t i = res_too_high s i) /\
  match int_info s, FloatSim.int_info fl t with
  | Ok a, Ok b => forall i, In i (m_ifs s) -> FloatSim.res_sum_wrong fl t b i = res_sum_wrong s a i
  | Err e, Err e' => e' = e
  | _, _ => False
  end.
Variable J : st -> Prop.
Hypothesis J_frame : forall s s', vframe s s' -> J s -> J s'.
Hypothesis J_ok : forall s t, twn s t -> J s -> sums_same s t.
Lemma existsb_in {A} (f g : A -> bool) l : (forall x, In x l -> g x = f x) -> existsb g l = existsb f l.
Proof. induction l as [|x l IH]; simpl; auto. intros H. rewrite (H x), IH; auto. Qed.
Lemma validate_fails : fails (and_in two J) (validate_model E k) (FloatSim.validate_model fl E k).
Proof.
  intros s t s' e [HT HJ] R. unfold validate_model in R. unfold FloatSim.validate_model.
  apply bind_err in R as [R|(s1 & [] & R1 & R)].
  { destruct (proj2 both_make_circuits s t s' e HT R) as (t' & X). exists t'. unfold bind at 1. now rewrite X. }
  destruct (proj1 both_make_circuits s t s1 tt HT R1) as (t1 & [] & R1' & HT1 & _). rewrite (bind_run _ _ _ _ _ R1').
  assert (HJ1 : J s1) by (eapply J_frame; [exact (pres_run _ _ _ _ _ (vframe_circuits E k) R1)|exact HJ]). clear HT HJ R1 R1' s t. rename s1 into s, t1 into t.
  assert (H := proj1 HT1). destruct (J_ok s t H HJ1) as [J1 J2]. rewrite bind_reads in R |- *.
  destruct (int_info s) as [info|e0], (FloatSim.int_info fl t) as [info'|e1]; try (now destruct J2).
  2:{ subst. injection R as <- <-. eexists. reflexivity. }
  rewrite !bind_gets in R. rewrite !bind_gets. rewrite (tw_ifs _ _ _ _ _ H), (tw_ckts _ _ _ _ _ H).
  rewrite (existsb_in _ _ _ J1), (existsb_in _ _ _ J2).
  replace (match k with Flex => false | Perf => existsb (fun n => n_shortcuts (h_nd t n)) (m_nds t) end) with (match k with Flex => false | Perf => existsb (fun n => n_shortcuts (h_nd s n)) (m_nds s) end)
    by (destruct k; auto; now rewrite (tw_nd _ _ _ _ _ H), (tw_nds _ _ _ _ _ H)).
  assert (UN : unique_interface_truthy t = unique_interface_truthy s).
  { reflexivity. }
  rewrite UN. clear UN.
  assert (X : both eq twn twn (mmap check_circuit (m_ckts s)) (mmap check_circuit (m_ckts s))) by (apply both_mmap_eq; intros; apply both_check).
  apply bind_err in R as [R|(s1 & caps & R2 & R)].
  { destruct (proj2 X s t s' e H R) as (t' & Y). exists t'. unfold bind at 1. now rewrite Y. }
  destruct (proj1 X s t s1 caps H R2) as (t1 & caps' & R2' & H1 & <-). rewrite (bind_run _ _ _ _ _ R2'). rewrite !bind_gets in R. rewrite !bind_gets.
  rewrite (tw_srlg _ _ _ _ _ H1), (tw_dup _ _ _ _ _ H1).
  replace (match k with Flex => false | Perf => parallel_links t1 end) with (match k with Flex => false | Perf => parallel_links s1 end)
    by (destruct k; auto; now rewrite (tw_parallel _ _ _ _ _ H1)).
  cbv zeta in R |- *. destruct (_ ++ _); [destruct (unique_interface_truthy s); [discriminate|]|]; injection R as <- <-; eexists; reflexivity.
Qed.
End Fail.
