(** TrafficProofs.v - what _update_interface_utilization adds to interfaces and
    writes into path_detail. *)
From Verif Require Import Base Graph Objects Sim Spec SpecCkt SpecSim GraphProofs MonadProofs ResProofs ObjProofs CircuitProofs
  ValidateProofs GroupProofs PathProofs QuietProofs RouteProofs Ecmp.
From Coq Require Import Lqa.

(** ** Lists of additions *)
Definition at_if (i : nat) (L : list (nat * Q)) : list Q := map snd (filter (fun p => Nat.eqb (fst p) i) L).
Lemma at_if_app i a b : at_if i (a ++ b) = at_if i a ++ at_if i b.
Proof. unfold at_if. now rewrite filter_app, map_app. Qed.

Definition added (t : traf) (x : list Q) (t' : traf) : Prop :=
  match t with TDown => t' = TDown /\ x = [] | TNum q => exists q', t' = TNum q' /\ (q' == q + Qsum x)%Q end.
Lemma added_nil t : added t [] t.
Proof. destruct t as [|q]; simpl; auto. exists q. split; auto. ring. Qed.
Lemma added_app t x t' y t'' : added t x t' -> added t' y t'' -> added t (x ++ y) t''.
Proof.
  destruct t as [|q]; simpl.
  - intros [-> ->] [-> ->]. auto.
  - intros (q' & -> & A) (q'' & -> & B). exists q''. split; auto. rewrite B, A, Qsum_app. ring.
Qed.

Definition applied (s s' : st) (L : list (nat * Q)) : Prop := forall i, added (i_traffic (h_if s i)) (at_if i L) (i_traffic (h_if s' i)).
Lemma applied_nil s : applied s s []. Proof. intros i. apply added_nil. Qed.
Lemma applied_app s t s' a b : applied s t a -> applied t s' b -> applied s s' (a ++ b).
Proof. intros A B i. rewrite at_if_app. eapply added_app; [apply A|apply B]. Qed.

Lemma flat_map_ext_in' {A B} (f g : A -> list B) l : (forall x, In x l -> f x = g x) -> flat_map f l = flat_map g l.
Proof. induction l as [|x l IH]; intros H; auto. simpl. rewrite (H x), IH; simpl; auto. intros. apply H. simpl; auto. Qed.

Section Traffic.
Variable E : env.
Variable k : kind.

(** [m], when it returns, adds [A] (computed from the routing data) and leaves
    the demands alone *)
Definition Adds (m : M unit) (A : st -> list (nat * Q)) : Prop :=
  pres (tframe E) m /\ (forall s t, rsame E s t -> A t = A s) /\
  forall s s', m s = (s', Ok tt) -> applied s s' (A s) /\ h_dm s' = h_dm s.

Lemma Adds_ret : Adds (ret tt) (fun _ => []).
Proof.
  split; [apply (pres_ret _ (tframe_preorder E))|]. split; [auto|]. intros s s' H. apply ret_ok in H as [-> _]. split; [apply applied_nil|auto].
Qed.
Lemma Adds_add i x : Adds (add_traffic i x) (fun _ => [(i, x)]).
Proof.
  split; [apply tframe_add|]. split; [auto|]. intros s s' H. unfold add_traffic in H. rewrite bind_gets in H. destruct (i_traffic (h_if s i)) as [|q] eqn:T; [discriminate|].
  injection H as <-. split; [|reflexivity]. intros j. simpl. unfold at_if. simpl. destruct (Nat.eqb_spec i j) as [<-|N].
  - rewrite fupd_same, T. simpl. exists (q + x)%Q. split; auto. ring.
  - rewrite fupd_other by auto. apply added_nil.
Qed.
Lemma Adds_mfor {X} (b : X -> M unit) (A : X -> st -> list (nat * Q)) l : (forall x, In x l -> Adds (b x) (A x)) ->
  Adds (mfor l b) (fun s => flat_map (fun x => A x s) l).
Proof.
  intros H. split; [apply (pres_mfor _ (tframe_preorder E)); intros x Hx; apply (proj1 (H x Hx))|]. split.
  - intros s t R. induction l as [|x l IH]; auto. simpl. rewrite IH by (intros; apply H; simpl; auto). f_equal. apply H; simpl; auto.
  - induction l as [|x l IH]; intros s s' R.
    + apply ret_ok in R as [-> _]. split; [apply applied_nil|auto].
    + apply mfor_cons_ok in R as (s1 & R1 & R2). destruct (H x (or_introl eq_refl)) as (P & Iv & Run). destruct (Run _ _ R1) as [A1 D1].
      destruct (IH (fun y Hy => H y (or_intror Hy)) _ _ R2) as [A2 D2]. split; [|congruence]. simpl. eapply applied_app; [exact A1|].
      rewrite <- (flat_map_ext_in' (fun y => A y s1) (fun y => A y s) l); [exact A2|]. intros y Hy. apply (H y (or_intror Hy)).
      apply (tf_same _ _ _ (pres_run _ _ _ _ _ P R1)).
Qed.
Lemma Adds_gets {X} (f : st -> X) (b : X -> M unit) (A : X -> st -> list (nat * Q)) : (forall s t, rsame E s t -> f t = f s) ->
  (forall x, Adds (b x) (A x)) -> Adds (bind (gets f) b) (fun s => A (f s) s).
Proof.
  intros F H. split; [apply (pres_bind _ (tframe_preorder E)); [apply (pres_gets _ (tframe_preorder E))|intros x; apply (proj1 (H x))]|]. split.
  - intros s t R. rewrite (F _ _ R). now apply H.
  - intros s s' R. rewrite bind_gets in R. destruct (H (f s)) as (_ & _ & Run). now apply Run.
Qed.
Lemma Adds_reads {X} (f : st -> res X) (b : X -> M unit) (A : X -> st -> list (nat * Q)) : (forall s t, rsame E s t -> f t = f s) ->
  (forall x, Adds (b x) (A x)) -> Adds (bind (reads f) b) (fun s => match f s with Ok x => A x s | Err _ => [] end).
Proof.
  intros F H. split; [apply (pres_bind _ (tframe_preorder E)); [apply (pres_reads _ (tframe_preorder E))|intros x; apply (proj1 (H x))]|]. split.
  - intros s t R. rewrite (F _ _ R). destruct (f s); auto. now apply H.
  - intros s s' R. unfold bind, reads in R. destruct (f s) as [x|e]; [|discriminate]. destruct (H x) as (_ & _ & Run). now apply Run.
Qed.

Lemma rs_mem_item s t x l : rsame E s t -> mem_item t x l = mem_item s x l.
Proof. intros R. unfold mem_item. apply existsb_ext'. intros y. apply (rs_item_eqb E s t R). Qed.
Lemma rs_item_traffic s t infos x : rsame E s t -> item_traffic t infos x = item_traffic s infos x.
Proof.
  intros R. unfold item_traffic. f_equal. apply map_ext. intros inf. do 4 f_equal. apply filter_ext. intros y. apply (rs_item_eqb E s t R).
Qed.

(** the additions for one item of an IGP-routed demand *)
Definition item_adds (infos : list pinfo) (it : item) (s : st) : list (nat * Q) :=
  match k, it with
  | Flex, IIf i => flat_map (fun inf => if mem_item s it (pinfo_items inf) then [(i, pi_traffic inf)] else []) infos
  | Flex, ILsp l => match lsp_interfaces s l with
                    | Ok ifs => flat_map (fun i => [(i, round1 (item_traffic s infos it))]) ifs
                    | Err _ => []
                    end
  | Perf, IIf i => [(i, round1 (item_traffic s infos it))]
  | Perf, ILsp _ => []
  end.
Lemma Adds_item infos it : Adds (add_item_traffic k infos it) (item_adds infos it).
Proof.
  unfold add_item_traffic, item_adds. destruct k, it as [i|l].
  - apply Adds_mfor. intros inf _. apply (Adds_gets (fun s => mem_item s (IIf i) (pinfo_items inf)) _ (fun b s => if b then [(i, pi_traffic inf)] else [])).
    + intros s t R. now apply rs_mem_item.
    + intros []; [apply Adds_add|apply Adds_ret].
  - apply (Adds_gets (fun s => round1 (item_traffic s infos (ILsp l))) _
      (fun x s => match lsp_interfaces s l with Ok ifs => flat_map (fun i => [(i, x)]) ifs | Err _ => [] end)).
    + intros s t R. now rewrite (rs_item_traffic s t _ _ R).
    + intros x. apply (Adds_reads (fun s => lsp_interfaces s l) _ (fun ifs s => flat_map (fun i => [(i, x)]) ifs)).
      * intros s t R. apply (rs_interfaces E s t R).
      * intros ifs. apply (Adds_mfor _ (fun i s => [(i, x)])). intros. apply Adds_add.
  - apply (Adds_gets (fun s => round1 (item_traffic s infos (IIf i))) _ (fun x s => [(i, x)])).
    + intros s t R. now rewrite (rs_item_traffic s t _ _ R).
    + intros x. apply Adds_add.
  - split; [apply (pres_raise _ (tframe_preorder E))|]. split; [auto|]. intros s s' H. discriminate.
Qed.

Definition lsp_adds (ls : list nat) (each : Q) (s : st) : list (nat * Q) :=
  flat_map (fun l => match lsp_interfaces s l with Ok ifs => flat_map (fun i => [(i, each)]) ifs | Err _ => [] end) ls.
Lemma Adds_lsps ls each : Adds (mfor ls (fun l => ifs <- reads (fun s => lsp_interfaces s l) ;; mfor ifs (fun i => add_traffic i each))) (lsp_adds ls each).
Proof.
  unfold lsp_adds. apply (Adds_mfor _ (fun l s => match lsp_interfaces s l with Ok ifs => flat_map (fun i => [(i, each)]) ifs | Err _ => [] end)).
  intros l _. apply (Adds_reads (fun s => lsp_interfaces s l) _ (fun ifs s => flat_map (fun i => [(i, each)]) ifs)).
  - intros s t R. apply (rs_interfaces E s t R).
  - intros ifs. apply (Adds_mfor _ (fun i s => [(i, each)])). intros. apply Adds_add.
Qed.

(** ** One demand *)
Definition share_of (s : st) (d : nat) (ls : list nat) : Q := (d_traffic (h_dm s d) / inject_Z (Z.of_nat (List.length ls)))%Q.
Definition lsp_detail (s : st) (d : nat) (ls : list nat) : pdetail :=
  let n := Z.of_nat (List.length ls) in
  match k with
  | Flex => PDInfo (map (fun l => mkPinfo (Some [ILsp l]) None None (share_of s d ls)) ls)
  | Perf => PDInfo (map (fun l => mkPinfo (Some [ILsp l]) None (Some [(ILsp l, n)]) (round4 (share_of s d ls))) ls)
  end.
Definition own_lsps (s : st) (d : nat) : res (list nat) := snd (min_metric_lsps E k (pair_key (dsrc s d) (ddst s d)) s).

(** additions and detail for a demand with the given paths *)
Definition plan (s : st) (d : nat) (ps : list (list item)) : res (list (nat * Q) * pdetail) :=
  rbind (own_lsps s d) (fun ls =>
    match ls with
    | [] => rbind (rmap (path_entry k s (item_set s ps) (d_traffic (h_dm s d))) ps) (fun infos =>
              Ok (flat_map (fun it => item_adds infos it s) (item_set s ps), PDInfo infos))
    | _ => Ok (lsp_adds ls (share_of s d ls) s, lsp_detail s d ls)
    end).

Lemma rs_item_set s t ps : rsame E s t -> item_set t ps = item_set s ps.
Proof.
  intros R. unfold item_set. generalize (List.concat ps). intros l. induction l as [|x l IH]; auto. simpl. rewrite IH. f_equal.
  apply filter_ext. intros y. now rewrite (rs_item_eqb E s t R).
Qed.
Lemma rs_item_src s t it : rsame E s t -> item_src t it = item_src s it.
Proof. intros R. destruct it; simpl; [apply (rs_local E s t R)|apply (rs_lsrc E s t R)]. Qed.
Lemma rs_next_hop s t items n : rsame E s t -> next_hop_count t items n = next_hop_count s items n.
Proof. intros R. unfold next_hop_count. do 2 f_equal. apply filter_ext. intros it. now rewrite (rs_item_src s t it R). Qed.
Lemma rs_splits s t items p : rsame E s t -> forall acc, splits_along t items acc p = splits_along s items acc p.
Proof. intros R. induction p as [|it p IH]; intros acc; auto. simpl. rewrite (rs_item_src s t it R), (rs_next_hop s t items _ R), IH. reflexivity. Qed.
Lemma rs_path_entry s t items q p : rsame E s t -> path_entry k t items q p = path_entry k s items q p.
Proof. intros R. unfold path_entry. now rewrite (rs_splits s t items p R). Qed.
Lemma rs_own_lsps s t d : rsame E s t -> own_lsps t d = own_lsps s d.
Proof.
  intros R. unfold own_lsps. rewrite (rs_dsrc _ _ _ R), (rs_ddst _ _ _ R). apply (proj2 (Qm_min_metric E k _) s t R).
Qed.
Lemma rs_traffic s t d : rsame E s t -> d_traffic (h_dm t d) = d_traffic (h_dm s d).
Proof. intros R. apply (rs_ddata E s t R d). Qed.
Lemma rs_share s t d ls : rsame E s t -> share_of t d ls = share_of s d ls.
Proof. intros R. unfold share_of. now rewrite (rs_traffic s t d R). Qed.
Lemma rs_lsp_adds s t ls e : rsame E s t -> lsp_adds ls e t = lsp_adds ls e s.
Proof. intros R. unfold lsp_adds. apply flat_map_ext. intros l. now rewrite (rs_interfaces E s t R). Qed.
Lemma rs_plan s t d ps : rsame E s t -> plan t d ps = plan s d ps.
Proof.
  intros R. unfold plan. rewrite (rs_own_lsps s t d R). destruct (own_lsps s d) as [[|l ls]|e]; cbn [rbind]; auto.
  - rewrite (rs_item_set s t ps R), (rs_traffic s t d R).
    rewrite (rmap_ext _ (path_entry k s (item_set s ps) (d_traffic (h_dm s d)))); [|intros; now apply rs_path_entry].
    destruct (rmap _ ps) as [infos|e]; cbn [rbind]; auto. do 2 f_equal. apply flat_map_ext. intros it. apply (Adds_item infos it). exact R.
  - rewrite (rs_share s t d _ R), (rs_lsp_adds s t _ _ R). unfold lsp_detail. now rewrite (rs_share s t d _ R).
Qed.

Lemma demand_traffic_run d s s' : demand_traffic E k d s = (s', Ok tt) ->
  match d_path (h_dm s d) with
  | DUnrouted => s' = s
  | DPaths ps => exists A det, plan s d ps = Ok (A, det) /\ applied s s' A /\ d_detail (h_dm s' d) = det /\
                   (forall x, x <> d -> h_dm s' x = h_dm s x)
  end.
Proof.
  unfold demand_traffic. rewrite bind_gets. destruct (d_path (h_dm s d)) as [|ps]; [intros H; now apply ret_ok in H|].
  rewrite bind_gets. intros H. apply bind_ok in H as (s1 & ls & H1 & H). unfold plan, own_lsps.
  assert (Q := proj1 (Qm_min_metric E k (pair_key (dsrc s d) (ddst s d))) s). rewrite H1 in Q |- *. simpl in Q. cbn [snd rbind].
  assert (R := proj1 Q). assert (I1 : forall x, h_if s1 x = h_if s x) by (intros; now rewrite (proj1 (proj2 Q))).
  assert (D1 := quiet_dm _ _ _ Q).
  destruct ls as [|l ls].
  - unfold igp_demand_traffic in H. rewrite !bind_gets in H. apply bind_ok in H as (s2 & infos & H2 & H). unfold reads in H2. injection H2 as <- H2.
    rewrite bind_modify in H. rewrite (rs_item_set s s1 ps R) in *. rewrite (rs_traffic s s1 d R) in H2.
    rewrite (rmap_ext _ (path_entry k s (item_set s ps) (d_traffic (h_dm s d)))) in H2; [|intros; now apply rs_path_entry]. rewrite H2. cbn [rbind].
    eexists _, _. split; [reflexivity|]. 
    set (s2 := upd_dm d (dm_detail (PDInfo infos)) s1) in *.
    assert (AA := Adds_mfor (add_item_traffic k infos) (item_adds infos) (item_set s ps) (fun x _ => Adds_item infos x)).
    destruct AA as (_ & Iv & Run). destruct (Run _ _ H) as [A D]. rewrite D. split; [|split].
    + intros i. specialize (A i). rewrite (Iv s s2) in A; [|eapply rsame_trans; [exact R|apply (tframe_detail E d (PDInfo infos) s1)]].
      change (h_if s2 i) with (h_if s1 i) in A. rewrite I1 in A. exact A.
    + simpl. now rewrite fupd_same.
    + intros x Nx. simpl. rewrite fupd_other by auto. now rewrite D1.
  - unfold lsp_demand_traffic in H. rewrite bind_gets in H. rewrite (rs_traffic s s1 d R) in H. fold (share_of s d (l :: ls)) in H.
    eexists _, _. split; [reflexivity|]. destruct (Adds_lsps (l :: ls) (share_of s d (l :: ls))) as (_ & Iv & Run). unfold lsp_detail. destruct k.
    + rewrite bind_modify in H. destruct (Run _ _ H) as [A D]. rewrite D. split; [|split].
      * intros i. specialize (A i). rewrite (Iv s) in A; [|eapply rsame_trans; [exact R|apply tframe_detail]]. simpl in A. rewrite I1 in A. exact A.
      * simpl. now rewrite fupd_same.
      * intros x Nx. simpl. rewrite fupd_other by auto. now rewrite D1.
    + apply bind_ok in H as (s2 & [] & H2 & H). injection H as <-. destruct (Run _ _ H2) as [A D]. split; [|split].
      * intros i. specialize (A i). rewrite (Iv s) in A by exact R. simpl. rewrite I1 in A. exact A.
      * simpl. now rewrite fupd_same.
      * intros x Nx. simpl. rewrite fupd_other by auto. now rewrite D, D1.
Qed.

(** ** All demands *)
Definition plan_adds (s : st) (d : nat) : list (nat * Q) :=
  match d_path (h_dm s d) with
  | DUnrouted => []
  | DPaths ps => match plan s d ps with Ok (A, _) => A | Err _ => [] end
  end.
Lemma plan_adds_tframe s t d : tframe E s t -> plan_adds t d = plan_adds s d.
Proof. intros F. unfold plan_adds. rewrite (tf_path _ _ _ F). destruct (d_path (h_dm s d)); auto. now rewrite (rs_plan s t d _ (tf_same _ _ _ F)). Qed.

Lemma demands_run ds : forall s s', mfor ds (demand_traffic E k) s = (s', Ok tt) ->
  applied s s' (flat_map (plan_adds s) ds) /\
  (forall d, In d ds -> match d_path (h_dm s d) with
     | DUnrouted => d_detail (h_dm s' d) = d_detail (h_dm s d)
     | DPaths ps => exists A, plan s d ps = Ok (A, d_detail (h_dm s' d))
     end) /\
  (forall d, ~ In d ds -> h_dm s' d = h_dm s d).
Proof.
  induction ds as [|d ds IH]; intros s s' H.
  - apply ret_ok in H as [-> _]. split; [apply applied_nil|]. split; [intros d []|auto].
  - apply mfor_cons_ok in H as (s1 & H1 & H2). assert (F := pres_run _ _ _ _ _ (tframe_demand E k d) H1).
    destruct (IH _ _ H2) as (A2 & D2 & O2). assert (R := demand_traffic_run _ _ _ H1).
    assert (A1 : applied s s1 (plan_adds s d)).
    { unfold plan_adds. destruct (d_path (h_dm s d)) as [|ps]; [subst; apply applied_nil|]. destruct R as (A & det & -> & R & _). exact R. }
    split; [|split].
    + simpl. eapply applied_app; [exact A1|]. rewrite <- (flat_map_ext (plan_adds s1)); [exact A2|]. intros x. now apply plan_adds_tframe.
    + intros x [<-|Hx].
      * destruct (in_dec Nat.eq_dec d ds) as [Hd|Hd].
        -- specialize (D2 d Hd). rewrite (tf_path _ _ _ F) in D2. destruct (d_path (h_dm s d)) as [|ps].
           ++ rewrite D2, R. auto.
           ++ destruct D2 as (A & D2). exists A. rewrite <- D2. symmetry. apply rs_plan. apply F.
        -- rewrite (O2 d Hd). destruct (d_path (h_dm s d)) as [|ps]; [now rewrite R|]. destruct R as (A & det & P & _ & <- & _). eauto.
      * specialize (D2 x Hx). rewrite (tf_path _ _ _ F) in D2. destruct (Nat.eq_dec x d) as [->|Nx].
        -- destruct (d_path (h_dm s d)) as [|ps]; [rewrite D2, R; auto|]. destruct D2 as (A & D2). exists A. rewrite <- D2. symmetry. apply rs_plan. apply F.
        -- assert (X : h_dm s1 x = h_dm s x) by (destruct (d_path (h_dm s d)) as [|ps0]; [now rewrite R|]; destruct R as (? & ? & _ & _ & _ & R); auto).
           rewrite X in D2. destruct (d_path (h_dm s x)) as [|ps]; auto. destruct D2 as (A & D2). exists A. rewrite <- D2. symmetry. apply rs_plan. apply F.
    + intros x Hx. simpl in Hx. rewrite O2 by auto. destruct (d_path (h_dm s d)) as [|ps]; [now rewrite R|]. destruct R as (? & ? & _ & _ & _ & R). auto.
Qed.

Lemma util_run s s' : update_interface_utilization E k s = (s', Ok tt) ->
  (forall i, In i (m_ifs s) -> if i_failed (h_if s i) then i_traffic (h_if s' i) = TDown /\ at_if i (flat_map (plan_adds s) (m_dms s)) = []
     else exists q, i_traffic (h_if s' i) = TNum q /\ (q == Qsum (at_if i (flat_map (plan_adds s) (m_dms s))))%Q) /\
  (forall d, In d (m_dms s) -> match d_path (h_dm s d) with
     | DUnrouted => d_detail (h_dm s' d) = d_detail (h_dm s d)
     | DPaths ps => exists A, plan s d ps = Ok (A, d_detail (h_dm s' d))
     end).
Proof.
  unfold update_interface_utilization. rewrite bind_gets.
  destruct (mfor_upd_if (fun r => if_traffic (if i_failed r then TDown else TNum 0) r) (m_ifs s) (fun r => eq_refl) s) as (h & R & X).
  intros H. rewrite (bind_run _ _ _ _ _ R) in H. rewrite bind_gets in H. simpl in H.
  assert (F : tframe E s (with_if s h)).
  { replace (with_if s h) with (fst (mfor (m_ifs s) (fun i => modify (upd_if i (fun r => if_traffic (if i_failed r then TDown else TNum 0) r))) s)) by now rewrite R.
    apply (pres_mfor _ (tframe_preorder E)). intros i _. apply pres_modify. intros s0. apply tframe_traffic. eauto. }
  destruct (demands_run _ _ _ H) as (A & D & _). rewrite (flat_map_ext _ (plan_adds s)) in A by (intros; now apply plan_adds_tframe). split.
  - intros i Hi. specialize (A i). simpl in A. rewrite X in A. apply (proj2 (mem_nat_In i (m_ifs s))) in Hi. rewrite Hi in A. simpl in A.
    destruct (i_failed (h_if s i)); simpl in A; auto. destruct A as (q & A & B). exists q. split; auto. rewrite B. ring.
  - intros d Hd. specialize (D d Hd). simpl in D. destruct (d_path (h_dm s d)); auto. destruct D as (A0 & D). exists A0. rewrite <- D. symmetry. apply rs_plan. apply F.
Qed.
End Traffic.
