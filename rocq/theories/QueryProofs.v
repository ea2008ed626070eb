(** QueryProofs.v - properties of the read-only queries and of manual_metric. *)
From Verif Require Import Base Graph Objects Sim Api Spec SpecMetric MonadProofs GraphProofs RoundProofs Frames ObjProofs.

(** ** Remote interface (C49) *)
Lemma get_remote_unique s i j : In i (m_ifs s) -> sole_other_end s i j -> get_remote_interface s i = Ok j.
Proof.
  intros Hi [Hj Hu]. destruct (get_remote_total s i) as [x Hx].
  - exists j; auto.
  - intros x Hx L C. rewrite (Hu x Hx L C). apply Hj.
  - rewrite Hx. f_equal. assert (O := get_remote_ok s i x Hi Hx). apply Hu; apply O.
Qed.

Lemma get_remote_involution s : (forall i, In i (m_ifs s) -> exists j, sole_other_end s i j) ->
  forall i, In i (m_ifs s) -> exists j, get_remote_interface s i = Ok j /\ other_end s i j /\ get_remote_interface s j = Ok i.
Proof.
  intros H i Hi. destruct (H i Hi) as [j Hj]. exists j. split; [apply get_remote_unique; auto|]. split; [apply Hj|].
  destruct Hj as [(J1 & J2 & J3 & J4) J5]. destruct (H j J1) as [i' Hi']. apply get_remote_unique; auto.
  assert (i = i'); [|now subst]. destruct Hi' as [_ U]. apply U; auto.
Qed.

(** ** manual_metric (C42) *)
Lemma only_metric_upd s l m im : only_metric s (upd_ls l (ls_mm m im) s) l.
Proof.
  repeat split; simpl; auto.
  - intros x Hx. apply fupd_other. auto.
  - rewrite fupd_same. reflexivity.
Qed.






(** ** Interface.lsps, Interface.demands, demands_on_lsp (C46) *)
Lemma map_fst_filter {A} (f : A -> bool) l :
  map fst (filter (fun db : A * bool => snd db) (map (fun x => (x, f x)) l)) = filter f l.
Proof. induction l as [|x l IH]; simpl; auto. destruct (f x); simpl; now rewrite IH. Qed.

Definition lsp_ifs (s : st) (l : nat) : list nat :=
  match l_path (h_ls s l) with PRouted ifs _ _ => ifs | _ => [] end.

Lemma iface_lsps_exact s i : NoDup (map (if_key s) (m_ifs s)) -> In i (m_ifs s) ->
  (forall l ifs c b, In l (m_lsps s) -> l_path (h_ls s l) = PRouted ifs c b -> forall j, In j ifs -> In j (m_ifs s)) ->
  (forall l, In l (m_lsps s) -> l_path (h_ls s l) <> PEmpty) ->
  exists ls, iface_lsps s i = Ok ls /\ (NoDup (m_lsps s) -> NoDup ls) /\
    forall l, In l ls <-> In l (m_lsps s) /\ exists ifs c b, l_path (h_ls s l) = PRouted ifs c b /\ In i ifs.
Proof.
  intros Hk Hi Hp He. unfold iface_lsps.
  rewrite (rmap_total _ (fun l => (l, mem_if s i (lsp_ifs s l)))).
  2: { intros l Hl. apply filter_In in Hl as [Hl Hr]. unfold lsp_interfaces, lsp_ifs.
       unfold lsp_routed, says_unrouted in Hr. specialize (He l Hl). destruct (l_path (h_ls s l)); try discriminate; try congruence. reflexivity. }
  simpl. rewrite map_fst_filter. eexists. split; [reflexivity|]. split.
  - intros Hnd. now apply NoDup_filter', NoDup_filter'.
  - intros l. rewrite !filter_In. split.
    + intros [[Hl Hr] Hm]. split; auto. unfold lsp_ifs in Hm. destruct (l_path (h_ls s l)) eqn:P; try discriminate.
      exists ifs, cost, baseline. split; auto. apply (proj1 (mem_if_In s i ifs Hk Hi (Hp _ _ _ _ Hl P))). auto.
    + intros [Hl (ifs & c & b & P & Hin)]. unfold lsp_routed, lsp_ifs. rewrite P. repeat split; auto.
      apply mem_if_refl; auto.
Qed.

Lemma demands_on_lsp_exact s l d :
  In d (demands_on_lsp s l) <->
  In d (m_dms s) /\ exists ps p, d_path (h_dm s d) = DPaths ps /\ In p ps /\ In (ILsp l) p.
Proof.
  unfold demands_on_lsp. rewrite filter_In. split; intros [Hd H]; split; auto.
  - destruct (d_path (h_dm s d)) as [|ps]; [discriminate|]. apply existsb_exists in H as (p & Hp & H).
    exists ps, p. repeat split; auto. unfold mem_item in H. apply existsb_exists in H as (it & Hit & Ei).
    destruct it; [discriminate|]. simpl in Ei. apply Nat.eqb_eq in Ei. now subst.
  - destruct H as (ps & p & -> & Hp & Hin). apply existsb_exists. exists p. split; auto.
    unfold mem_item. apply existsb_exists. exists (ILsp l). split; auto. simpl. apply Nat.eqb_refl.
Qed.

(** The interfaces a demand path crosses *)
Definition crosses (s : st) (p : list item) (i : nat) : Prop :=
  In (IIf i) p \/ exists l ifs c b, In (ILsp l) p /\ l_path (h_ls s l) = PRouted ifs c b /\ In i ifs.

Lemma iface_demands_exact s i : NoDup (map (if_key s) (m_ifs s)) -> In i (m_ifs s) ->
  (forall d ps p, In d (m_dms s) -> d_path (h_dm s d) = DPaths ps -> In p ps ->
     (forall j, In (IIf j) p -> In j (m_ifs s)) /\
     (forall l, In (ILsp l) p -> exists ifs c b, l_path (h_ls s l) = PRouted ifs c b /\ forall j, In j ifs -> In j (m_ifs s))) ->
  exists ds, iface_demands s i = Ok ds /\ (NoDup (m_dms s) -> NoDup ds) /\
    forall d, In d ds <-> In d (m_dms s) /\ exists ps p, d_path (h_dm s d) = DPaths ps /\ In p ps /\ crosses s p i.
Proof.
  intros Hk Hi Hp. unfold iface_demands.
  set (tst := fun p it => match it with ILsp l => mem_if s i (lsp_ifs s l) | IIf _ => mem_item s (IIf i) p end).
  set (on := fun d => match d_path (h_dm s d) with DUnrouted => false | DPaths ps =>
               existsb (fun p => existsb (tst p) p) ps end).
  rewrite (rmap_total _ (fun d => (d, on d))).
  2: { intros d Hd. unfold on. destruct (d_path (h_dm s d)) as [|ps] eqn:P; [reflexivity|].
    rewrite (rmap_total _ (fun p => existsb (tst p) p)).
    - simpl. f_equal. f_equal. clear. induction ps; simpl; auto. unfold id at 1. now rewrite IHps.
    - intros p Hpp. destruct (Hp d ps p Hd P Hpp) as [_ HL].
      rewrite (rmap_total _ (tst p)).
      + simpl. f_equal. generalize (tst p). intros t. clear. induction p; simpl; auto. unfold id at 1. now rewrite IHp.
      + intros it Hit. unfold tst. destruct it as [j|l]; [reflexivity|].
        destruct (HL l Hit) as (ifs & c & b & L & _). unfold lsp_interfaces, lsp_ifs. rewrite L. reflexivity. }
  simpl. rewrite map_fst_filter. eexists. split; [reflexivity|]. split; [intros; now apply NoDup_filter'|].
  intros d. rewrite filter_In. split; intros [Hd H]; split; auto.
  - unfold on in H. destruct (d_path (h_dm s d)) as [|ps] eqn:P; [discriminate|].
    apply existsb_exists in H as (p & Hpp & H). exists ps, p. split; auto. split; auto.
    destruct (Hp d ps p Hd P Hpp) as [HI HL].
    apply existsb_exists in H as (it & Hit & H). unfold tst in H. destruct it as [j|l].
    + left. unfold mem_item in H. apply existsb_exists in H as (it & Hit' & Ei). destruct it as [j'|]; [|discriminate].
      simpl in Ei. apply iface_eqb_eq in Ei; auto. now subst.
    + right. destruct (HL l Hit) as (ifs & c & b & L & HM). exists l, ifs, c, b. split; auto. split; auto.
      unfold lsp_ifs in H. rewrite L in H. apply (proj1 (mem_if_In s i ifs Hk Hi HM)). auto.
  - destruct H as (ps & p & P & Hpp & Hc). unfold on. rewrite P. apply existsb_exists. exists p. split; auto.
    apply existsb_exists. destruct Hc as [Hc|(l & ifs & c & b & Hl & L & Hin)].
    + exists (IIf i). split; auto. unfold tst, mem_item. apply existsb_exists. exists (IIf i). split; auto.
      simpl. apply iface_eqb_refl.
    + exists (ILsp l). split; auto. unfold tst, lsp_ifs. rewrite L. apply mem_if_refl; auto.
Qed.

(** ** simulation_diagnostics (C47) *)
Lemma filter_length_split {A} (f : A -> bool) l :
  (List.length (filter f l) + List.length (filter (fun x => negb (f x)) l) = List.length l)%nat.
Proof. induction l as [|x l IH]; simpl; auto. destruct (f x); simpl; lia. Qed.

Lemma filter_filter {A} (f g : A -> bool) l : filter f (filter g l) = filter (fun x => g x && f x) l.
Proof.
  induction l as [|x l IH]; simpl; auto. destruct (g x); simpl; [|apply IH]. destruct (f x); now rewrite IH.
Qed.

Lemma rides_lsp_iff s d : rides_lsp s d = true <-> rides_an_lsp s d.
Proof.
  unfold rides_lsp, rides_an_lsp. destruct (d_path (h_dm s d)) as [|ps].
  - split; [discriminate|]. intros (ps & p & l & H & _). discriminate.
  - rewrite existsb_exists. split.
    + intros (p & Hp & H). apply existsb_exists in H as (it & Hit & E). destruct it as [|l]; [discriminate|]. exists ps, p, l; auto.
    + intros (ps' & p & l & H & Hp & Hl). injection H as <-. exists p. split; auto. apply existsb_exists. exists (ILsp l). auto.
Qed.

Lemma diagnostics_partition s :
  let g := simulation_diagnostics s in
  (dg_with g + dg_without g + dg_unr_lsps g = Z.of_nat (List.length (m_lsps s)))%Z /\
  (dg_riding g + dg_not_riding g = Z.of_nat (List.length (m_dms s)))%Z /\
  dg_riding g = Z.of_nat (List.length (dg_dmds_riding g)) /\
  dg_with g = Z.of_nat (List.length (dg_lsps_with g)) /\
  dg_without g = Z.of_nat (List.length (dg_lsps_without g)) /\
  (dg_unr_dmds g <= dg_not_riding g)%Z /\
  dg_unr_dmds g = Z.of_nat (List.length (filter (fun d => match d_path (h_dm s d) with DUnrouted => true | _ => false end) (m_dms s))) /\
  dg_unr_lsps g = Z.of_nat (List.length (filter (fun l => match l_path (h_ls s l) with PUnrouted => true | _ => false end) (m_lsps s))) /\
  (NoDup (m_lsps s) -> NoDup (dg_lsps_with g) /\ NoDup (dg_lsps_without g)) /\ (NoDup (m_dms s) -> NoDup (dg_dmds_riding g)) /\
  (forall l, In l (dg_lsps_with g) <-> In l (m_lsps s) /\ l_path (h_ls s l) <> PUnrouted /\
      exists d ps p, In d (m_dms s) /\ d_path (h_dm s d) = DPaths ps /\ In p ps /\ In (ILsp l) p) /\
  (forall l, In l (dg_lsps_without g) <-> In l (m_lsps s) /\ l_path (h_ls s l) <> PUnrouted /\
      ~ exists d ps p, In d (m_dms s) /\ d_path (h_dm s d) = DPaths ps /\ In p ps /\ In (ILsp l) p) /\
  (forall d, In d (dg_dmds_riding g) <-> In d (m_dms s) /\ rides_an_lsp s d).
Proof.
  intros g.
  assert (Hon : forall l, (match demands_on_lsp s l with [] => true | _ => false end) = false <->
     exists d ps p, In d (m_dms s) /\ d_path (h_dm s d) = DPaths ps /\ In p ps /\ In (ILsp l) p).
  { intros l. destruct (demands_on_lsp s l) as [|d0 tl] eqn:D.
    - split; [discriminate|]. intros (d & ps & p & Hd & P & Hp & Hl). exfalso.
      assert (In d []) as []. rewrite <- D. apply demands_on_lsp_exact. split; auto. exists ps, p; auto.
    - split; auto. intros _. assert (H : In d0 (d0 :: tl)) by (left; auto). rewrite <- D in H.
      apply demands_on_lsp_exact in H as (Hd & ps & p & P & Hp & Hl). exists d0, ps, p; auto. }
  assert (Hnr : forall l, not_unrouted (l_path (h_ls s l)) = true <-> l_path (h_ls s l) <> PUnrouted).
  { intros l. unfold not_unrouted. destruct (l_path (h_ls s l)); split; intros; congruence. }
  unfold g, simulation_diagnostics; simpl. unfold zlen.
  split.
  { rewrite <- (filter_length_split (fun l => not_unrouted (l_path (h_ls s l))) (m_lsps s)).
    rewrite <- (filter_length_split (fun l => match demands_on_lsp s l with [] => true | _ => false end)
                  (filter (fun l => not_unrouted (l_path (h_ls s l))) (m_lsps s))).
    rewrite !filter_filter. lia. }
  split; [lia|]. split; auto. split; auto. split; auto. split.
  { rewrite <- (filter_length_split (rides_lsp s) (m_dms s)).
    assert (List.length (filter (demand_unrouted s) (m_dms s)) <= List.length (filter (fun x => negb (rides_lsp s x)) (m_dms s)))%nat; [|lia].
    clear. induction (m_dms s) as [|d l IH]; simpl; auto.
    assert (X : demand_unrouted s d = true -> rides_lsp s d = false).
    { unfold demand_unrouted, rides_lsp. destruct (d_path (h_dm s d)); auto; discriminate. }
    destruct (demand_unrouted s d); [rewrite X by auto; simpl; lia|]. destruct (rides_lsp s d); simpl; lia. }
  split; [do 2 f_equal; apply filter_ext; intros d; unfold demand_unrouted; destruct (d_path (h_dm s d)); reflexivity|].
  split; [do 2 f_equal; apply filter_ext; intros l; unfold not_unrouted; destruct (l_path (h_ls s l)); reflexivity|].
  split; [intros N; split; apply NoDup_filter; exact N|]. split; [apply NoDup_filter|].
  split; [|split].
  - intros l. rewrite filter_In, andb_true_iff, negb_true_iff, Hnr, Hon. tauto.
  - intros l. rewrite filter_In, andb_true_iff, Hnr, <- Hon. destruct (match demands_on_lsp s l with [] => true | _ => false end); intuition congruence.
  - intros d. rewrite filter_In, rides_lsp_iff. tauto.
Qed.

(** ** utilization (C55) *)

(** *** any sequence of reads and assignments *)
Definition do_action (l : nat) (a : maction) (s : st) : st * mout :=
  match a with
  | MRead => let '(s', r) := get_manual_metric l s in
             (s', match r with Ok v => OutValue v | Err e => if is_model_exn e then OutModelExn else OutOther end)
  | MAssign v => let '(s', r) := set_manual_metric l v s in
             (s', match r with Ok _ => OutDone | Err e => if is_model_exn e then OutModelExn else OutOther end)
  end.
Fixpoint do_actions (l : nat) (as_ : list maction) (s : st) : st * list mout :=
  match as_ with
  | [] => (s, [])
  | a :: tl => let '(s1, o) := do_action l a s in let '(s2, os) := do_actions l tl s1 in (s2, o :: os)
  end.

Lemma only_metric_refl s l : only_metric s s l.
Proof. repeat split; auto. destruct (h_ls s l); reflexivity. Qed.
Lemma only_metric_trans s1 s2 s3 l : only_metric s1 s2 l -> only_metric s2 s3 l -> only_metric s1 s3 l.
Proof.
  intros (A1&A2&A3&A4&A5&A6&A7&A8&A9&A10&A11&A12&A13) (B1&B2&B3&B4&B5&B6&B7&B8&B9&B10&B11&B12&B13).
  repeat split; try congruence.
  - intros x Hx. rewrite B12, A12; auto.
  - rewrite B13. rewrite A13. reflexivity.
Qed.

Lemma do_action_step l a s s' o : do_action l a s = (s', o) ->
  mstep (mstate_of (h_ls s l)) a = (mstate_of (h_ls s' l), o) /\ only_metric s s' l.
Proof.
  unfold do_action, get_manual_metric, set_manual_metric, mstate_of, bind, gets, modify, ret, raise, truthy.
  destruct a as [|v]; destruct (l_imm (h_ls s l)) as [m|] eqn:I; simpl.
  - destruct (Z.eqb_spec m 0) as [->|N]; simpl.
    + intros H; injection H as <- <-. rewrite I. simpl. split; [reflexivity|apply only_metric_refl].
    + destruct (Z.ltb_spec 0 m); intros H'; injection H' as <- <-; simpl.
      * rewrite fupd_same. simpl. split; [reflexivity|apply only_metric_upd].
      * rewrite I. destruct (Z.eqb_spec m 0); [lia|]. split; [reflexivity|apply only_metric_refl].
  - intros H; injection H as <- <-. rewrite I. split; [reflexivity|apply only_metric_refl].
  - destruct (Z.eqb_spec m 0) as [->|N]; simpl.
    + destruct (Z.ltb_spec 0 v); [intros H'; injection H' as <- <-; simpl; rewrite fupd_same; split; [reflexivity|apply only_metric_upd]|].
      destruct (Z.eqb_spec v (-1)); intros H'; injection H' as <- <-; simpl.
      * rewrite fupd_same; split; [reflexivity|apply only_metric_upd].
      * rewrite I. simpl. split; [reflexivity|apply only_metric_refl].
    + destruct (Z.ltb_spec 0 m); intros H'; injection H' as <- <-; simpl.
      * rewrite fupd_same. simpl. split; [reflexivity|apply only_metric_upd].
      * rewrite I. destruct (Z.eqb_spec m 0); [lia|]. split; [reflexivity|apply only_metric_refl].
  - destruct (Z.ltb_spec 0 v); [intros H'; injection H' as <- <-; simpl; rewrite fupd_same; split; [reflexivity|apply only_metric_upd]|].
    destruct (Z.eqb_spec v (-1)); intros H'; injection H' as <- <-; simpl.
    * rewrite fupd_same; split; [reflexivity|apply only_metric_upd].
    * rewrite I. split; [reflexivity|apply only_metric_refl].
Qed.

Lemma do_actions_run l as_ : forall s s' os, do_actions l as_ s = (s', os) ->
  mrun (mstate_of (h_ls s l)) as_ = (mstate_of (h_ls s' l), os) /\ only_metric s s' l.
Proof.
  induction as_ as [|a tl IH]; simpl; intros s s' os H.
  - injection H as <- <-. split; auto using only_metric_refl.
  - destruct (do_action l a s) as [s1 o] eqn:A. destruct (do_actions l tl s1) as [s2 os'] eqn:B.
    injection H as <- <-. apply do_action_step in A as [A1 A2]. apply IH in B as [B1 B2].
    rewrite A1, B1. split; auto. eapply only_metric_trans; eauto.
Qed.

(** effective_metric changes the metric of its LSP as one read of manual_metric does *)
Lemma effective_only E k l s s1 r : effective_metric E k l s = (s1, r) ->
  only_metric s s1 l /\ mstate_of (h_ls s1 l) = fst (mstep (mstate_of (h_ls s l)) MRead).
Proof.
  unfold effective_metric, bind. destruct (get_manual_metric l s) as [s0 o] eqn:G.
  assert (A : only_metric s s0 l /\ mstate_of (h_ls s0 l) = fst (mstep (mstate_of (h_ls s l)) MRead)).
  { destruct (do_action l MRead s) as [s' o'] eqn:D. assert (X := do_action_step l MRead s s' o' D).
    unfold do_action in D. rewrite G in D. injection D as <- _. destruct X as [X1 X2]. split; [exact X2|]. now rewrite X1. }
  destruct o as [[z|]|e].
  - destruct A as [A1 A2].
    assert (Z : forall m, mstate_of (h_ls s0 l) = Current m -> l_mm (h_ls s0 l) = m).
    { intros m. unfold mstate_of. destruct (l_imm (h_ls s0 l)) as [y|]; [destruct (y =? 0)%Z|]; congruence. }
    assert (C : mstate_of (h_ls s0 l) = Current (l_mm (h_ls s0 l))).
    { revert G. unfold get_manual_metric, bind, gets, modify, ret, raise, mstate_of. destruct (l_imm (h_ls s l)) as [y|] eqn:I; simpl.
      - destruct (y =? 0)%Z eqn:Y.
        + intros G. injection G as <- _. now rewrite I, Y.
        + destruct (0 <? y)%Z; intros G; [|discriminate]. injection G as <- _. simpl. rewrite fupd_same. reflexivity.
      - intros G. injection G as <- _. now rewrite I. }
    unfold modify at 1. cbn beta iota.
    set (s2 := upd_ls l (fun r0 => ls_mm (l_mm r0) None r0) s0).
    assert (L2 : h_ls s2 l = ls_mm (l_mm (h_ls s0 l)) None (h_ls s0 l)) by (unfold s2; simpl; apply fupd_same).
    assert (G2 : get_manual_metric l s2 = (s2, Ok (l_mm (h_ls s0 l)))).
    { unfold get_manual_metric, bind, gets, ret. rewrite L2. reflexivity. }
    rewrite G2. intros H. assert (s1 = s2) as -> by (destruct (l_mm (h_ls s0 l)); unfold ret in H; congruence).
    split.
    + eapply only_metric_trans; [exact A1|]. unfold s2.
      assert (O := only_metric_upd s0 l (l_mm (h_ls s0 l)) None). revert O. unfold only_metric. simpl. rewrite !fupd_same.
      intros (O1 & O2 & O3 & O4 & O5 & O6 & O7 & O8 & O9 & O10 & O11 & O12 & O13).
      repeat (split; [assumption|]). exact O13.
    + rewrite L2. rewrite <- A2, C. unfold mstate_of. reflexivity.
  - intros H. assert (s1 = s0) as ->; [|exact A].
    revert H. unfold gets, ret. cbn beta iota. destruct (says_unrouted _); [congruence|]. generalize (fst (get_shortest_path E k s0 (lsrc s0 l) (ldst s0 l) 0)). intros [c|] H; injection H as <- _; reflexivity.
  - intros H. injection H as <- _. exact A.
Qed.

(** ** Lookups (C41) *)
Lemma lookups_exact s : keys_unique s -> refs_ok s ->
  (forall name, match get_node s name with
     | Ok n => forall m, In m (m_nds s) /\ nd_name s m = name <-> m = n
     | Err e => is_model_exn e = true /\ forall n, In n (m_nds s) -> nd_name s n <> name end) /\
  (forall iname nname, match get_interface s iname nname with
     | Ok i => forall j, In j (m_ifs s) /\ if_key s j = (iname, nname) <-> j = i
     | Err e => is_model_exn e = true /\ forall j, In j (m_ifs s) -> if_key s j <> (iname, nname) end) /\
  (forall src dst name, match get_demand s src dst name with
     | Ok d => forall x, In x (m_dms s) /\ dmd_key s x = (src, dst, name) <-> x = d
     | Err e => is_model_exn e = true /\ forall x, In x (m_dms s) -> dmd_key s x <> (src, dst, name) end) /\
  (forall src dst name, match get_lsp s src dst name with
     | Ok l => forall x, In x (m_lsps s) /\ lsp_key s x = (src, dst, name) <-> x = l
     | Err e => is_model_exn e = true /\ forall x, In x (m_lsps s) -> lsp_key s x <> (src, dst, name) end) /\
  (forall name, match get_srlg s name with
     | Ok g => forall x, In x (m_srs s) /\ srlg_name s x = name <-> x = g
     | Err e => is_model_exn e = true /\ forall x, In x (m_srs s) -> srlg_name s x <> name end).
Proof.
  intros (U1 & U2 & U3 & U4 & U5) (R1 & _).
  split; [|split; [|split; [|split]]].
  - intros name. assert (G := get_node_spec s name). destruct (get_node s name) as [n|e]; auto.
    destruct G as [G1 G2]. intros m. split; [intros [H1 H2]|intros ->; auto].
    apply (NoDup_map_inj (nd_name s) (m_nds s)); auto. congruence.
  - intros iname nname. assert (G := get_interface_spec s iname nname). destruct (get_interface s iname nname) as [n|e].
    + destruct G as [G1 G2]. intros m. split; [intros [H1 H2]|intros ->; auto].
      apply (NoDup_map_inj (if_key s) (m_ifs s)); auto. congruence.
    + destruct G as [G1 [G2|G2]]; split; auto. intros j Hj K. destruct (R1 j Hj) as [Hn _].
      apply (G2 _ Hn). unfold if_key, loc in K. injection K as _ K. exact K.
  - intros src dst name. assert (G := get_demand_spec s src dst name). destruct (get_demand s src dst name) as [n|e]; auto.
    destruct G as [G1 G2]. intros m. split; [intros [H1 H2]|intros ->; auto].
    apply (NoDup_map_inj (dmd_key s) (m_dms s)); auto. congruence.
  - intros src dst name. assert (G := get_lsp_spec s src dst name). destruct (get_lsp s src dst name) as [n|e]; auto.
    destruct G as [G1 G2]. intros m. split; [intros [H1 H2]|intros ->; auto].
    apply (NoDup_map_inj (lsp_key s) (m_lsps s)); auto. congruence.
  - intros name. destruct (get_srlg s name) as [g|e] eqn:G.
    + apply get_srlg_spec in G as [G1 G2]. intros m. split; [intros [H1 H2]|intros ->; auto].
      apply (NoDup_map_inj (srlg_name s) (m_srs s)); auto. congruence.
    + unfold get_srlg in G. destruct (filter _ (m_srs s)) as [|x [|y l]] eqn:F; [|discriminate|].
      * injection G as <-. split; auto. intros x Hx K. assert (In x []) as []. rewrite <- F. apply filter_In.
        split; auto. apply String.eqb_eq; auto.
      * exfalso. assert (Hx : In x (x :: y :: l)) by (left; auto). assert (Hy : In y (x :: y :: l)) by (right; left; auto).
        assert (ND : NoDup (x :: y :: l)). { rewrite <- F. apply NoDup_filter'. eapply NoDup_map_inv; eauto. }
        rewrite <- F in Hx, Hy. apply filter_In in Hx as [Hx1 Hx2]. apply filter_In in Hy as [Hy1 Hy2].
        apply String.eqb_eq in Hx2, Hy2.
        assert (x = y). { apply (NoDup_map_inj (srlg_name s) (m_srs s)); auto. unfold srlg_name. congruence. }
        subst. inversion ND as [|? ? N _]. apply N. left; auto.
Qed.

(** fail_interface succeeds on every link with two proper ends (C27) *)
Lemma fail_interface_total s i j : keys_unique s -> refs_ok s -> In i (m_ifs s) -> sole_other_end s i j ->
  exists s', fail_interface (i_name (h_if s i)) (loc s i) s = (s', Ok tt).
Proof.
  intros HU HR Hi Hj. destruct (lookups_exact s HU HR) as (_ & L & _). specialize (L (i_name (h_if s i)) (loc s i)).
  unfold fail_interface. rewrite bind_reads. destruct (get_interface s (i_name (h_if s i)) (loc s i)) as [x|e].
  - assert (i = x) by (apply L; split; auto). subst x. rewrite bind_reads, (get_remote_unique s i j) by auto. eexists. reflexivity.
  - exfalso. destruct L as [_ L]. apply (L i Hi). reflexivity.
Qed.
