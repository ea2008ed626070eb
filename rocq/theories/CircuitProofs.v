(** CircuitProofs.v - the loop that pairs interfaces into circuits, and
    validate_model. *)
From Verif Require Import Base Graph Objects Sim Spec SpecCkt MonadProofs GraphProofs RoundProofs ResProofs Frames ApiFrames ObjProofs ApiProofs.
From Coq Require Import Lqa.

(** ** The DiGraph of a PerformanceModel *)
Lemma same_ends_eq a b : same_ends a b = true <-> e_u a = e_u b /\ e_v a = e_v b.
Proof. unfold same_ends. rewrite andb_true_iff, !String.eqb_eq. tauto. Qed.

Definition eends (e : edge) : string * string := (e_u e, e_v e).

Lemma di_add_in acc e x : In x (di_add acc e) -> x = e \/ In x acc.
Proof.
  induction acc as [|y acc IH]; simpl; [intuition|]. destruct (same_ends y e); simpl; intuition.
Qed.
Lemma di_add_new acc e : In e (di_add acc e).
Proof. induction acc as [|y acc IH]; simpl; auto. destruct (same_ends y e); simpl; auto. Qed.
Lemma di_add_ends acc e x : In x acc -> exists y, In y (di_add acc e) /\ eends y = eends x.
Proof.
  induction acc as [|y acc IH]; simpl; [tauto|]. destruct (same_ends y e) eqn:S.
  - intros [->|H]; [|exists x; simpl; auto]. exists e. split; simpl; auto.
    apply same_ends_eq in S as [S1 S2]. unfold eends. congruence.
  - intros [->|H]; [exists x; simpl; auto|]. destruct (IH H) as (z & Hz & Ez). exists z. simpl; auto.
Qed.
Lemma di_add_snoc acc e : ~ In (eends e) (map eends acc) -> di_add acc e = (acc ++ [e])%list.
Proof.
  induction acc as [|y acc IH]; simpl; intros H; auto. destruct (same_ends y e) eqn:S.
  - exfalso. apply H. left. apply same_ends_eq in S as [S1 S2]. unfold eends. congruence.
  - rewrite IH; auto.
Qed.

Lemma di_fold_in l : forall acc x, In x (fold_left di_add l acc) -> In x l \/ In x acc.
Proof.
  induction l as [|e l IH]; simpl; auto. intros acc x H. apply IH in H as [H|H]; auto.
  apply di_add_in in H as [->|H]; auto.
Qed.
Lemma di_fold_ends l : forall acc x, In x l \/ In x acc -> exists y, In y (fold_left di_add l acc) /\ eends y = eends x.
Proof.
  induction l as [|e l IH]; simpl; intros acc x [H|H]; try tauto; eauto.
  - destruct H as [->|H]; [|apply IH; auto]. apply IH. right. apply di_add_new.
  - destruct (di_add_ends acc e x H) as (y & Hy & Ey). destruct (IH (di_add acc e) y (or_intror Hy)) as (z & Hz & Ez).
    exists z. split; auto. congruence.
Qed.
Lemma di_fold_id l : forall acc, NoDup (map eends (acc ++ l)) -> fold_left di_add l acc = (acc ++ l)%list.
Proof.
  induction l as [|e l IH]; simpl; intros acc H; [now rewrite app_nil_r|].
  rewrite di_add_snoc.
  - rewrite IH; rewrite <- app_assoc; auto.
  - rewrite map_app in H. simpl in H. apply NoDup_remove_2 in H. intros C. apply H. apply in_or_app. now left.
Qed.

(** ** Frames of the pairing loop *)
Record cframe (k : kind) (s s' : st) : Prop := {
  cf_nd : h_nd s' = h_nd s; cf_sr : h_sr s' = h_sr s; cf_dm : h_dm s' = h_dm s; cf_ls : h_ls s' = h_ls s;
  cf_ifs : m_ifs s' = m_ifs s; cf_nds : m_nds s' = m_nds s; cf_dms : m_dms s' = m_dms s;
  cf_lsps : m_lsps s' = m_lsps s; cf_srs : m_srs s' = m_srs s;
  cf_groups : m_groups s' = m_groups s; cf_next : s_next s' = s_next s; cf_rng : s_rng s' = s_rng s;
  cf_if : forall x, exists b c, h_if s' x = if_inckt b (if_cid c (h_if s x)) /\ (k = Flex -> c = i_cid (h_if s x)) }.

Lemma if_inckt_cid_id r : if_inckt (i_inckt r) (if_cid (i_cid r) r) = r.
Proof. destruct r; reflexivity. Qed.

Lemma cframe_refl k s : cframe k s s.
Proof. constructor; auto. intros x. exists (i_inckt (h_if s x)), (i_cid (h_if s x)). now rewrite if_inckt_cid_id. Qed.
Lemma cframe_trans k a b c : cframe k a b -> cframe k b c -> cframe k a c.
Proof.
  intros H1 H2. destruct H1, H2. constructor; try congruence.
  intros x. destruct (cf_if0 x) as (b1 & c1 & E1 & K1), (cf_if1 x) as (b2 & c2 & E2 & K2).
  exists b2, c2. rewrite E2, E1. split; auto. intros Hk. rewrite (K2 Hk), E1. simpl. auto.
Qed.
Lemma cframe_upd k i f s : (forall r, exists b c, f r = if_inckt b (if_cid c r) /\ (k = Flex -> c = i_cid r)) ->
  cframe k s (upd_if i f s).
Proof.
  intros H. constructor; auto. intros x. simpl. apply fupd_cases; intros; subst; auto.
  exists (i_inckt (h_if s x)), (i_cid (h_if s x)). now rewrite if_inckt_cid_id.
Qed.
Lemma cframe_inckt k i b s : cframe k s (upd_if i (if_inckt b) s).
Proof. apply cframe_upd. intros r. exists b, (i_cid r). destruct r; auto. Qed.
Lemma cframe_cid i c s : cframe Perf s (upd_if i (if_cid c) s).
Proof. apply cframe_upd. intros r. exists (i_inckt r), c. destruct r; split; auto; discriminate. Qed.
Lemma cframe_ckts k c s : cframe k s (set_ckts c s).
Proof. constructor; auto. intros x. exists (i_inckt (h_if s x)), (i_cid (h_if s x)). simpl. now rewrite if_inckt_cid_id. Qed.

Section CF.
Variables (k : kind) (s s' : st).
Hypothesis H : cframe k s s'.
Lemma cf_data x : i_name (h_if s' x) = i_name (h_if s x) /\ i_cost (h_if s' x) = i_cost (h_if s x) /\
  i_cap (h_if s' x) = i_cap (h_if s x) /\ i_node (h_if s' x) = i_node (h_if s x) /\ i_rem (h_if s' x) = i_rem (h_if s x) /\
  i_traffic (h_if s' x) = i_traffic (h_if s x) /\ i_failed (h_if s' x) = i_failed (h_if s x) /\
  i_res (h_if s' x) = i_res (h_if s x) /\ i_srlgs (h_if s' x) = i_srlgs (h_if s x) /\
  i_rsvp (h_if s' x) = i_rsvp (h_if s x) /\ i_pct (h_if s' x) = i_pct (h_if s x).
Proof. destruct (cf_if k s s' H x) as (b & c & -> & _). simpl. repeat split. Qed.
Lemma cf_loc x : loc s' x = loc s x.
Proof. unfold loc. rewrite (cf_nd k s s' H). destruct (cf_data x) as (_&_&_&->&_). reflexivity. Qed.
Lemma cf_rem x : rem s' x = rem s x.
Proof. unfold rem. rewrite (cf_nd k s s' H). destruct (cf_data x) as (_&_&_&_&->&_). reflexivity. Qed.
Lemma cf_cid x : k = Flex -> i_cid (h_if s' x) = i_cid (h_if s x).
Proof. intros Hk. destruct (cf_if k s s' H x) as (b & c & -> & E). simpl. auto. Qed.
Lemma cf_between u v : ifaces_between s' u v = ifaces_between s u v.
Proof.
  unfold ifaces_between. rewrite (cf_ifs k s s' H). apply filter_ext. intros i.
  change (ilocal s' i) with (loc s' i). change (iremote s' i) with (rem s' i). now rewrite cf_loc, cf_rem.
Qed.
Lemma cf_first u v : first_between s' u v = first_between s u v.
Proof.
  unfold first_between. rewrite (cf_ifs k s s' H). induction (m_ifs s) as [|x l IH]; simpl; auto.
  change (ilocal s' x) with (loc s' x). change (iremote s' x) with (rem s' x). rewrite cf_loc, cf_rem, IH. reflexivity.
Qed.
Lemma cf_edge_ends e : edge_ends k s' e = edge_ends k s e.
Proof.
  assert (K0 := cf_cid). assert (K1 := cf_between). assert (K2 := cf_first). clear H.
  unfold edge_ends. destruct k.
  - rewrite K0 by auto. unfold iface_by_circuit.
    assert (X : forall u v c, filter (fun i => cid_eqb (i_cid (h_if s' i)) c) (ifaces_between s' u v) =
                       filter (fun i => cid_eqb (i_cid (h_if s i)) c) (ifaces_between s u v)).
    { intros u v c. rewrite K1. apply filter_ext. intros i. now rewrite K0. }
    rewrite !X, !K1. reflexivity.
  - rewrite !K2. reflexivity.
Qed.
End CF.

(** ** The pairing loop *)
Record cinv (k : kind) (s0 : st) (all : list edge) (acc : list (nat * nat)) (num : Z) (s : st) : Prop := {
  ci_frame : cframe k s0 s;
  ci_inckt : forall x, In x (m_ifs s0) -> (i_inckt (h_if s x) = true <-> exists c, In c acc /\ end_of c x);
  ci_src : forall c, In c acc -> exists e, In e all /\ edge_ends k s0 e = Ok c;
  ci_disj : forall c c' x, In c acc -> In c' acc -> end_of c x -> end_of c' x -> c = c';
  ci_nodup : NoDup acc;
  ci_num : num = (Z.of_nat (List.length acc) + 1)%Z;
  ci_cid : k = Perf -> forall n c x, nth_error acc n = Some c -> end_of c x -> i_cid (h_if s x) = CInt (Z.of_nat n + 1);
  ci_other : forall x, (forall c, In c acc -> ~ end_of c x) -> i_cid (h_if s x) = i_cid (h_if s0 x) }.

Lemma iface_by_circuit_in s u v c i : iface_by_circuit s u v c = Ok i -> In i (m_ifs s) /\ loc s i = u /\ rem s i = v /\
  (c <> CNone -> i_cid (h_if s i) = c).
Proof.
  unfold iface_by_circuit, ifaces_between.
  assert (B : forall i, In i (filter (fun i => (ilocal s i =? u) && (iremote s i =? v)) (m_ifs s)) ->
              In i (m_ifs s) /\ loc s i = u /\ rem s i = v).
  { intros x Hx. apply filter_In in Hx as [Hx Hx']. apply andb_true_iff in Hx' as [A B]. apply String.eqb_eq in A, B. auto. }
  destruct c.
  - destruct (filter _ _) as [|x l] eqn:F; [discriminate|]. intros X; injection X as <-.
    assert (Bx : In x (x :: l)) by now left. apply B in Bx as (B1 & B2 & B3). repeat split; auto. congruence.
  - destruct (filter (fun i => cid_eqb _ _) _) as [|x [|]] eqn:F; try discriminate. intros X; injection X as <-.
    assert (In x [x]) by now left. rewrite <- F in H. apply filter_In in H as [H1 H2]. apply cid_eqb_eq in H2. firstorder.
  - destruct (filter (fun i => cid_eqb _ _) _) as [|x [|]] eqn:F; try discriminate. intros X; injection X as <-.
    assert (In x [x]) by now left. rewrite <- F in H. apply filter_In in H as [H1 H2]. apply cid_eqb_eq in H2. firstorder.
Qed.

Lemma first_between_in s u v i : first_between s u v = Some i -> In i (m_ifs s) /\ loc s i = u /\ rem s i = v.
Proof.
  unfold first_between. intros H. apply find_some in H as [H1 H2]. apply andb_true_iff in H2 as [A B].
  apply String.eqb_eq in A, B. auto.
Qed.

Lemma edge_ends_in k s e a b : edge_ends k s e = Ok (a, b) ->
  In a (m_ifs s) /\ In b (m_ifs s) /\ loc s a = e_u e /\ rem s a = e_v e /\ loc s b = e_v e /\ rem s b = e_u e /\
  (k = Flex -> i_cid (h_if s (e_i e)) <> CNone -> i_cid (h_if s a) = i_cid (h_if s (e_i e)) /\ i_cid (h_if s b) = i_cid (h_if s (e_i e))).
Proof.
  unfold edge_ends. destruct k.
  - intros H. apply rbind_ok in H as (x & Hx & H). apply rbind_ok in H as (y & Hy & H). injection H as <- <-.
    apply iface_by_circuit_in in Hx as (A1 & A2 & A3 & A4), Hy as (B1 & B2 & B3 & B4). repeat split; auto.
  - destruct (first_between s (e_u e) (e_v e)) as [x|] eqn:X; [|discriminate].
    destruct (first_between s (e_v e) (e_u e)) as [y|] eqn:Y; [|discriminate].
    intros H. injection H as <- <-. apply first_between_in in X as (A1 & A2 & A3), Y as (B1 & B2 & B3).
    repeat split; auto; discriminate.
Qed.


(** Two edges whose circuits share an end have the same circuit. *)
Lemma edge_ends_share k s e e' a b a' b' x : cids_set k s ->
  In (e_i e) (m_ifs s) -> In (e_i e') (m_ifs s) ->
  edge_ends k s e = Ok (a, b) -> edge_ends k s e' = Ok (a', b') -> end_of (a, b) x -> end_of (a', b') x ->
  (a = a' /\ b = b') \/ (a = b' /\ b = a').
Proof.
  intros HC He He' H H' Hx Hx'.
  assert (I := edge_ends_in _ _ _ _ _ H). assert (I' := edge_ends_in _ _ _ _ _ H').
  destruct I as (Ia & Ib & La & Ra & Lb & Rb & C), I' as (Ia' & Ib' & La' & Ra' & Lb' & Rb' & C').
  assert (Ends : (e_u e = e_u e' /\ e_v e = e_v e') \/ (e_u e = e_v e' /\ e_v e = e_u e')).
  { destruct Hx as [Hx|Hx], Hx' as [Hx'|Hx']; simpl in Hx, Hx'; subst x; [left|right|right|left]; split; congruence. }
  destruct k.
  - destruct (C eq_refl (HC eq_refl _ He)) as [C1 C2]. destruct (C' eq_refl (HC eq_refl _ He')) as [C1' C2'].
    assert (Ec : i_cid (h_if s (e_i e)) = i_cid (h_if s (e_i e'))).
    { destruct Hx as [Hx|Hx], Hx' as [Hx'|Hx']; simpl in Hx, Hx'; subst x; congruence. }
    unfold edge_ends in H, H'. rewrite Ec in H.
    apply rbind_ok in H as (a0 & Ha & H). apply rbind_ok in H as (b0 & Hb & H). injection H as <- <-.
    apply rbind_ok in H' as (a0' & Ha' & H'). apply rbind_ok in H' as (b0' & Hb' & H'). injection H' as <- <-.
    destruct Ends as [[E1 E2]|[E1 E2]]; rewrite E1, E2 in *; [left|right]; split; congruence.
  - unfold edge_ends in H, H'.
    destruct Ends as [[E1 E2]|[E1 E2]]; rewrite E1, E2 in *;
      destruct (first_between s (e_u e') (e_v e')), (first_between s (e_v e') (e_u e')); try discriminate;
      injection H as <- <-; injection H' as <- <-; auto.
Qed.

Lemma pair_edges_cons k e tl num acc s :
  pair_edges k (e :: tl) num acc s =
  match edge_ends k s e with
  | Err er => (s, Err er)
  | Ok (a, b) =>
      if negb (i_inckt (h_if s a)) && negb (i_inckt (h_if s b)) then
        pair_edges k tl (num + 1)%Z (acc ++ [(a, b)])
          (match k with
           | Flex => upd_if b (if_inckt true) (upd_if a (if_inckt true) s)
           | Perf => upd_if b (if_cid (CInt num)) (upd_if a (if_cid (CInt num)) (upd_if b (if_inckt true) (upd_if a (if_inckt true) s)))
           end)
      else pair_edges k tl num acc s
  end.
Proof.
  simpl. rewrite bind_reads. destruct (edge_ends k s e) as [[a b]|er]; auto. rewrite bind_gets.
  destruct (negb _ && negb _); auto. destruct k; reflexivity.
Qed.

Lemma cinv_step k s0 all acc num s e a b : cinv k s0 all acc num s -> In e all -> edge_ends k s0 e = Ok (a, b) ->
  i_inckt (h_if s a) = false -> i_inckt (h_if s b) = false ->
  cinv k s0 all (acc ++ [(a, b)]) (num + 1)
     (match k with
      | Flex => upd_if b (if_inckt true) (upd_if a (if_inckt true) s)
      | Perf => upd_if b (if_cid (CInt num)) (upd_if a (if_cid (CInt num)) (upd_if b (if_inckt true) (upd_if a (if_inckt true) s)))
      end).
Proof.
  intros I He Hab Fa Fb. assert (E := edge_ends_in _ _ _ _ _ Hab). destruct E as (Ia & Ib & _).
  assert (Nfree : forall x, x = a \/ x = b -> forall c, In c acc -> ~ end_of c x).
  { intros x Hx c Hc C. assert (Ix : In x (m_ifs s0)) by (destruct Hx; subst; auto).
    assert (i_inckt (h_if s x) = true) by (apply (ci_inckt _ _ _ _ _ _ I x Ix); eauto). destruct Hx; subst; congruence. }
  set (s' := match k with Flex => _ | Perf => _ end).
  assert (Inck : forall x, i_inckt (h_if s' x) = if (Nat.eqb x a || Nat.eqb x b)%bool then true else i_inckt (h_if s x)).
  { intros x. subst s'. destruct k; simpl; unfold fupd;
      repeat match goal with |- context [Nat.eqb ?u ?v] => destruct (Nat.eqb_spec u v); subst; simpl end; auto; congruence. }
  assert (Cid : forall x, i_cid (h_if s' x) = if (Nat.eqb x a || Nat.eqb x b)%bool
                 then match k with Flex => i_cid (h_if s x) | Perf => CInt num end else i_cid (h_if s x)).
  { intros x. subst s'. destruct k; simpl; unfold fupd;
      repeat match goal with |- context [Nat.eqb ?u ?v] => destruct (Nat.eqb_spec u v); subst; simpl end; auto; congruence. }
  constructor.
  - eapply cframe_trans; [apply I|]. subst s'. destruct k.
    + eapply cframe_trans; apply cframe_inckt.
    + eapply cframe_trans; [|apply cframe_cid]. eapply cframe_trans; [|apply cframe_cid]. eapply cframe_trans; apply cframe_inckt.
  - intros x Hx. rewrite Inck. destruct (Nat.eqb_spec x a) as [->|Na]; simpl.
    + split; auto. intros _. exists (a, b). split; [apply in_or_app; simpl; auto|left; auto].
    + destruct (Nat.eqb_spec x b) as [->|Nb]; simpl.
      * split; auto. intros _. exists (a, b). split; [apply in_or_app; simpl; auto|right; auto].
      * rewrite (ci_inckt _ _ _ _ _ _ I x Hx). split.
        -- intros (c & Hc & Ec). exists c. split; auto. apply in_or_app; auto.
        -- intros (c & Hc & Ec). apply in_app_or in Hc as [Hc|[<-|[]]]; eauto. destruct Ec; simpl in *; congruence.
  - intros c Hc. apply in_app_or in Hc as [Hc|[<-|[]]]; eauto. now apply (ci_src _ _ _ _ _ _ I).
  - intros c c' x Hc Hc' Ec Ec'. apply in_app_or in Hc as [Hc|[<-|[]]]; apply in_app_or in Hc' as [Hc'|[<-|[]]]; auto.
    + eapply (ci_disj _ _ _ _ _ _ I); eauto.
    + destruct (Nfree x Ec' c Hc Ec).
    + destruct (Nfree x Ec c' Hc' Ec').
  - apply (Permutation_NoDup (l := (a, b) :: acc)).
    + apply Permutation_cons_append.
    + constructor; [|apply I]. intros C. eapply (Nfree a); eauto. now left.
  - rewrite app_length. simpl. rewrite (ci_num _ _ _ _ _ _ I). lia.
  - intros Hk n c x Hn Ec. rewrite Cid. rewrite Hk. destruct (Nat.lt_ge_cases n (List.length acc)) as [L|L].
    + rewrite nth_error_app1 in Hn by auto. assert (Hc := nth_error_In _ _ Hn).
      destruct (Nat.eqb_spec x a) as [->|Na]; [destruct (Nfree a (or_introl eq_refl) c Hc Ec)|].
      destruct (Nat.eqb_spec x b) as [->|Nb]; [destruct (Nfree b (or_intror eq_refl) c Hc Ec)|]. simpl.
      eapply (ci_cid _ _ _ _ _ _ I); eauto.
    + rewrite nth_error_app2 in Hn by auto. destruct (n - List.length acc)%nat as [|m] eqn:D; [|destruct m; discriminate].
      injection Hn as <-. assert (n = List.length acc) by lia. subst n.
      replace (Nat.eqb x a || Nat.eqb x b)%bool with true.
      * f_equal. apply I.
      * symmetry. destruct Ec; simpl in *; subst; rewrite Nat.eqb_refl; auto using orb_true_r.
  - intros x Hx. rewrite Cid.
    assert (N : ~ end_of (a, b) x) by (apply Hx; apply in_or_app; simpl; auto).
    destruct (Nat.eqb_spec x a) as [->|Na]; [exfalso; apply N; left; auto|].
    destruct (Nat.eqb_spec x b) as [->|Nb]; [exfalso; apply N; right; auto|]. simpl.
    apply (ci_other _ _ _ _ _ _ I). intros c Hc. apply Hx. apply in_or_app; auto.
Qed.


Lemma pair_edges_run k s0 all : forall es num acc s, (forall e, In e es -> In e all) -> cinv k s0 all acc num s ->
  match pair_edges k es num acc s with
  | (s', Ok acc') =>
      (exists num', cinv k s0 all acc' num' s') /\ (forall c, In c acc -> In c acc') /\
      (forall e, In e es -> exists a b, edge_ends k s0 e = Ok (a, b) /\
         (In (a, b) acc' \/ exists x c, In c acc' /\ end_of (a, b) x /\ end_of c x))
  | (s', Err er) => cframe k s0 s' /\ m_ckts s' = m_ckts s /\ exists e, In e es /\ edge_ends k s0 e = Err er
  end.
Proof.
  induction es as [|e tl IH]; intros num acc s Hall I.
  - simpl. split; [eauto|]. split; auto. intros e [].
  - rewrite pair_edges_cons. rewrite (cf_edge_ends k s0 s (ci_frame _ _ _ _ _ _ I)).
    destruct (edge_ends k s0 e) as [[a b]|er] eqn:Ee.
    + assert (Hin := edge_ends_in _ _ _ _ _ Ee). destruct Hin as (Ia & Ib & _).
      destruct (negb _ && negb _) eqn:Free.
      * apply andb_true_iff in Free as [Fa Fb]. apply negb_true_iff in Fa, Fb.
        assert (I' := cinv_step _ _ _ _ _ _ e a b I (Hall e (or_introl eq_refl)) Ee Fa Fb).
        match goal with |- context [pair_edges k tl (num+1) ?acc1 ?s1] =>
          specialize (IH (num + 1)%Z acc1 s1 (fun x Hx => Hall x (or_intror Hx)) I');
          assert (Ck : m_ckts s1 = m_ckts s) by (destruct k; reflexivity);
          destruct (pair_edges k tl (num+1) acc1 s1) as [s2 [acc2|er]] end.
        -- destruct IH as (C1 & C2 & C3). split; auto. split; [intros c Hc; apply C2; apply in_or_app; auto|].
           intros e' [<-|He']; auto. exists a, b. split; auto. left. apply C2. apply in_or_app; simpl; auto.
        -- destruct IH as (C1 & C2 & e' & He' & Ee'). split; auto. split; [congruence|]. exists e'. split; simpl; auto.
      * specialize (IH num acc s (fun x Hx => Hall x (or_intror Hx)) I).
        destruct (pair_edges k tl num acc s) as [s2 [acc2|er]].
        -- destruct IH as (C1 & C2 & C3). split; auto. split; auto.
           intros e' [<-|He']; auto. exists a, b. split; auto. right.
           apply andb_false_iff in Free. rewrite !negb_false_iff in Free.
           destruct Free as [F|F]; apply (ci_inckt _ _ _ _ _ _ I) in F as (c & Hc & Ec); auto.
           ++ exists a, c. split; auto. split; auto. now left.
           ++ exists b, c. split; auto. split; auto. now right.
        -- destruct IH as (C1 & C2 & e' & He' & Ee'). split; auto. split; auto. exists e'. split; simpl; auto.
    + split; [apply I|]. split; auto. exists e. split; simpl; auto.
Qed.

(** ** The edges that the loop runs over *)
Lemma available_iff s i : available s i <-> Qleb 0 (reservable_bw s i) = true.
Proof. apply reservable_ge. Qed.

Lemma considered_all s i : considered s true 0 false i = true <-> available s i.
Proof. unfold considered. simpl. rewrite andb_true_r. symmetry. apply available_iff. Qed.

Lemma all_edges_in k s e : In e (g_edges (make_graph k s true 0 false)) ->
  exists i, In i (m_ifs s) /\ available s i /\ e = edge_of s i.
Proof.
  simpl. assert (X : In e (map (edge_of s) (filter (considered s true 0 false) (m_ifs s))) ->
     exists i, In i (m_ifs s) /\ available s i /\ e = edge_of s i).
  { intros H. apply in_map_iff in H as (i & <- & Hi). apply filter_In in Hi as [Hi C]. apply considered_all in C. eauto. }
  destruct k; simpl; auto. intros H. apply di_fold_in in H as [H|[]]. auto.
Qed.
Lemma all_edges_has k s i : In i (m_ifs s) -> available s i ->
  exists e, In e (g_edges (make_graph k s true 0 false)) /\ e_u e = loc s i /\ e_v e = rem s i /\ (k = Flex -> e = edge_of s i).
Proof.
  intros Hi A. assert (X : In (edge_of s i) (map (edge_of s) (filter (considered s true 0 false) (m_ifs s)))).
  { apply in_map. apply filter_In. split; auto. now apply considered_all. }
  destruct k; simpl.
  - exists (edge_of s i). auto.
  - destruct (di_fold_ends _ [] _ (or_introl X)) as (y & Hy & Ey). exists y. split; auto.
    unfold eends in Ey. injection Ey as E1 E2. repeat split; auto. discriminate.
Qed.

Lemma has_edge_iff es u v : has_edge es u v = true <-> exists e, In e es /\ e_u e = u /\ e_v e = v.
Proof.
  unfold has_edge. rewrite existsb_exists. split.
  - intros (e & He & X). apply andb_true_iff in X as [A B]. apply String.eqb_eq in A, B. eauto.
  - intros (e & He & <- & <-). exists e. split; auto. now rewrite !String.eqb_refl.
Qed.

Lemma filter_one (f : nat -> bool) l : NoDup l -> ((exists x, filter f l = [x]) <-> one_in l (fun x => f x = true)).
Proof.
  intros N. unfold one_in. split.
  - intros (x & F). exists x. assert (In x (filter f l)) by (rewrite F; now left). apply filter_In in H as [H1 H2].
    repeat split; auto. intros y Hy Fy. assert (In y (filter f l)) by (apply filter_In; auto). rewrite F in H. simpl in H. intuition.
  - intros (x & Hx & Fx & U). exists x.
    assert (In x (filter f l)) by (apply filter_In; auto).
    assert (N' := NoDup_filter' f l N).
    destruct (filter f l) as [|y [|z tl]] eqn:F.
    + destruct H.
    + destruct H as [->|[]]. reflexivity.
    + exfalso. assert (A : forall w, In w (y :: z :: tl) -> w = x).
      { intros w Hw. rewrite <- F in Hw. apply filter_In in Hw as [A B]. auto. }
      inversion N' as [|? ? N1 _]; subst. apply N1. rewrite (A y), (A z) by (simpl; auto). now left.
Qed.

Lemma one_in_ext l P Q : (forall x, In x l -> (P x <-> Q x)) -> one_in l P -> one_in l Q.
Proof. intros H (x & Hx & Px & U). exists x. repeat split; auto; [now apply H|]. intros y Hy Qy. apply U; auto. now apply H. Qed.

Lemma iface_by_circuit_ok s u v c : NoDup (m_ifs s) -> c <> CNone ->
  ((exists i, iface_by_circuit s u v c = Ok i) <-> one_in (m_ifs s) (fun x => loc s x = u /\ rem s x = v /\ i_cid (h_if s x) = c)).
Proof.
  intros N Nc. unfold iface_by_circuit, ifaces_between.
  assert (X : filter (fun i => cid_eqb (i_cid (h_if s i)) c) (filter (fun i => (ilocal s i =? u) && (iremote s i =? v)) (m_ifs s))
     = filter (fun i => (ilocal s i =? u) && (iremote s i =? v) && cid_eqb (i_cid (h_if s i)) c) (m_ifs s)).
  { induction (m_ifs s) as [|x l IH]; simpl; auto. inversion N; subst. destruct ((ilocal s x =? u) && (iremote s x =? v)); simpl; rewrite IH; auto. }
  assert (Y : (exists i, filter (fun i => cid_eqb (i_cid (h_if s i)) c) (filter (fun i => (ilocal s i =? u) && (iremote s i =? v)) (m_ifs s)) = [i])
     <-> one_in (m_ifs s) (fun x => loc s x = u /\ rem s x = v /\ i_cid (h_if s x) = c)).
  { rewrite X, filter_one by auto. split; apply one_in_ext; intros x _;
      rewrite !andb_true_iff, !String.eqb_eq, cid_eqb_eq; unfold ilocal, iremote, loc, rem; tauto. }
  rewrite <- Y. clear X Y.
  destruct c; [congruence| |]; destruct (filter (fun i => cid_eqb _ _) _) as [|x [|]]; split; intros [i Hi]; try discriminate; eauto.
Qed.

Lemma iface_by_circuit_none s u v : (exists i, In i (m_ifs s) /\ loc s i = u /\ rem s i = v) -> exists i, iface_by_circuit s u v CNone = Ok i.
Proof.
  intros (i & Hi & Li & Ri). unfold iface_by_circuit, ifaces_between.
  destruct (filter _ _) as [|x l] eqn:F; eauto.
  assert (In i []) as []. rewrite <- F. apply filter_In. split; auto.
  apply andb_true_iff. rewrite !String.eqb_eq. auto.
Qed.

Lemma first_between_some s u v : (exists i, In i (m_ifs s) /\ loc s i = u /\ rem s i = v) -> exists i, first_between s u v = Some i.
Proof.
  intros (i & Hi & Li & Ri). unfold first_between. destruct (find _ _) as [x|] eqn:F; eauto.
  eapply find_none in F; eauto. simpl in F. change (ilocal s i) with (loc s i) in F. change (iremote s i) with (rem s i) in F.
  rewrite Li, Ri, !String.eqb_refl in F. discriminate.
Qed.

(** edge_ends succeeds on a paired edge iff the circuit_id is unambiguous. *)
Lemma edge_ends_ok k s i e : NoDup (m_ifs s) -> In i (m_ifs s) -> e_u e = loc s i -> e_v e = rem s i -> (k = Flex -> e = edge_of s i) ->
  (exists j, In j (m_ifs s) /\ loc s j = rem s i /\ rem s j = loc s i) ->
  match edge_ends k s e with
  | Ok _ => True
  | Err er => is_model_exn er = true
  end /\
  ((exists ab, edge_ends k s e = Ok ab) <-> (k = Flex -> i_cid (h_if s i) <> CNone ->
       one_in (m_ifs s) (fun x => loc s x = loc s i /\ rem s x = rem s i /\ i_cid (h_if s x) = i_cid (h_if s i)) /\
       one_in (m_ifs s) (fun x => loc s x = rem s i /\ rem s x = loc s i /\ i_cid (h_if s x) = i_cid (h_if s i)))).
Proof.
  intros N Hi Eu Ev Ef (j & Hj & Lj & Rj). unfold edge_ends. rewrite Eu, Ev. destruct k.
  - rewrite (Ef eq_refl). change (e_i (edge_of s i)) with i.
    destruct (i_cid (h_if s i)) as [|z|z] eqn:C.
    + destruct (iface_by_circuit_none s (loc s i) (rem s i)) as [a ->]; [eauto|].
      destruct (iface_by_circuit_none s (rem s i) (loc s i)) as [b ->]; [eauto|]. simpl. split; auto. split; [congruence|eauto].
    + assert (A := iface_by_circuit_ok s (loc s i) (rem s i) (CInt z) N ltac:(discriminate)).
      assert (B := iface_by_circuit_ok s (rem s i) (loc s i) (CInt z) N ltac:(discriminate)).
      assert (Er : forall u v er, iface_by_circuit s u v (CInt z) = Err er -> is_model_exn er = true).
      { intros u v er. unfold iface_by_circuit. destruct (filter _ _) as [|x [|]]; intros X; try discriminate; injection X as <-; reflexivity. }
      destruct (iface_by_circuit s (loc s i) (rem s i) (CInt z)) as [a|er] eqn:Fa; cbn [rbind].
      * destruct (iface_by_circuit s (rem s i) (loc s i) (CInt z)) as [b|er] eqn:Fb; cbn [rbind].
        -- split; [exact Logic.I|]. split; [|intros _; eexists; reflexivity]. intros _ _ _. split; [apply A|apply B]; eexists; reflexivity.
        -- split; [eauto|]. split; [intros [? X]; discriminate|]. intros X. destruct X as [_ X]; auto; [discriminate|].
           apply B in X as [? X]. discriminate.
      * split; [eauto|]. split; [intros [? X]; discriminate|]. intros X. destruct X as [X _]; auto; [discriminate|].
        apply A in X as [? X]. discriminate.
    + assert (A := iface_by_circuit_ok s (loc s i) (rem s i) (CStr z) N ltac:(discriminate)).
      assert (B := iface_by_circuit_ok s (rem s i) (loc s i) (CStr z) N ltac:(discriminate)).
      assert (Er : forall u v er, iface_by_circuit s u v (CStr z) = Err er -> is_model_exn er = true).
      { intros u v er. unfold iface_by_circuit. destruct (filter _ _) as [|x [|]]; intros X; try discriminate; injection X as <-; reflexivity. }
      destruct (iface_by_circuit s (loc s i) (rem s i) (CStr z)) as [a|er] eqn:Fa; cbn [rbind].
      * destruct (iface_by_circuit s (rem s i) (loc s i) (CStr z)) as [b|er] eqn:Fb; cbn [rbind].
        -- split; [exact Logic.I|]. split; [|intros _; eexists; reflexivity]. intros _ _ _. split; [apply A|apply B]; eexists; reflexivity.
        -- split; [eauto|]. split; [intros [? X]; discriminate|]. intros X. destruct X as [_ X]; auto; [discriminate|].
           apply B in X as [? X]. discriminate.
      * split; [eauto|]. split; [intros [? X]; discriminate|]. intros X. destruct X as [X _]; auto; [discriminate|].
        apply A in X as [? X]. discriminate.
  - destruct (first_between_some s (loc s i) (rem s i)) as [a ->]; [eauto|].
    destruct (first_between_some s (rem s i) (loc s i)) as [b ->]; [eauto|]. split; auto. split; eauto. discriminate.
Qed.

Lemma reset_inckt k ifs : forall s, exists s1, mfor ifs (fun i => modify (upd_if i (if_inckt false))) s = (s1, Ok tt) /\
  cframe k s s1 /\ m_ckts s1 = m_ckts s /\ (forall x, i_cid (h_if s1 x) = i_cid (h_if s x)) /\
  (forall x, In x ifs \/ i_inckt (h_if s x) = false -> i_inckt (h_if s1 x) = false).
Proof.
  induction ifs as [|i ifs IH]; intros s; simpl.
  - exists s. repeat split; auto; try apply cframe_refl. intros x [[]|]; auto.
  - rewrite bind_modify. destruct (IH (upd_if i (if_inckt false) s)) as (s1 & H1 & H2 & H3 & H4 & H5).
    exists s1. split; auto. split; [eapply cframe_trans; [apply cframe_inckt|exact H2]|]. split; auto.
    split.
    + intros x. rewrite H4. simpl. apply fupd_cases; intros; subst; auto.
    + intros x Hx. apply H5. simpl. destruct (Nat.eq_dec x i) as [->|Nx]; [right; now rewrite fupd_same|].
      rewrite fupd_other by auto. destruct Hx as [[->|Hx]|Hx]; auto. congruence.
Qed.

(** ** make_circuits *)
Record circuits_ok (k : kind) (s s' : st) : Prop := {
  cc_frame : cframe k s s';
  cc_ends : forall a b, In (a, b) (m_ckts s') -> In a (m_ifs s) /\ In b (m_ifs s) /\ loc s a = rem s b /\ rem s a = loc s b /\
     (cids_set k s -> k = Flex -> i_cid (h_if s a) = i_cid (h_if s b)) /\
     (exists i, In i (m_ifs s) /\ available s i /\ loc s i = loc s a /\ rem s i = rem s a /\
        (cids_set k s -> k = Flex -> i = a));
  cc_disj : forall c c' x, In c (m_ckts s') -> In c' (m_ckts s') -> end_of c x -> end_of c' x -> c = c';
  cc_nodup : NoDup (m_ckts s');
  cc_cid : k = Perf -> forall n c x, nth_error (m_ckts s') n = Some c -> end_of c x -> i_cid (h_if s' x) = CInt (Z.of_nat n + 1);
  cc_cover : cids_set k s -> forall i, In i (m_ifs s) -> available s i ->
     exists a b, In (a, b) (m_ckts s') /\
       ((loc s a = loc s i /\ rem s a = rem s i /\ (k = Flex -> a = i)) \/
        (loc s b = loc s i /\ rem s b = rem s i /\ (k = Flex -> b = i)));
  cc_inckt : forall x, In x (m_ifs s) -> (i_inckt (h_if s' x) = true <-> exists c, In c (m_ckts s') /\ end_of c x) }.

Lemma edge_ends_self s i a b : In i (m_ifs s) -> i_cid (h_if s i) <> CNone -> edge_ends Flex s (edge_of s i) = Ok (a, b) ->
  a = i /\ forall y, In y (m_ifs s) -> loc s y = rem s i -> rem s y = loc s i -> i_cid (h_if s y) = i_cid (h_if s i) -> y = b.
Proof.
  intros Hi Nc H. unfold edge_ends in H. apply rbind_ok in H as (x & Hx & H). apply rbind_ok in H as (y & Hy & H). injection H as -> ->.
  simpl in Hx, Hy.
  assert (U : forall u v c z w, c <> CNone -> iface_by_circuit s u v c = Ok z -> In w (m_ifs s) -> loc s w = u -> rem s w = v ->
            i_cid (h_if s w) = c -> w = z).
  { intros u v c z w Nc' Hz Hw Lw Rw Cw. unfold iface_by_circuit in Hz.
    assert (Iw : In w (filter (fun i => cid_eqb (i_cid (h_if s i)) c) (ifaces_between s u v))).
    { apply filter_In. split; [|now apply cid_eqb_eq]. unfold ifaces_between. apply filter_In. split; auto.
      apply andb_true_iff. rewrite !String.eqb_eq. auto. }
    destruct c; [congruence| |]; destruct (filter _ _) as [|v' [|]]; try discriminate; injection Hz as ->;
      destruct Iw as [->|[]]; reflexivity. }
  split.
  - symmetry. eapply U; eauto.
  - intros w Hw Lw Rw Cw. eapply U; eauto.
Qed.

Lemma make_circuits_run E k s : env_ok E -> NoDup (m_ifs s) ->
  match make_circuits E k s with
  | (s', Ok _) => pairs_up k s /\ circuits_ok k s s'
  | (s', Err e) => ~ pairs_up k s /\ cframe k s s' /\ m_ckts s' = m_ckts s /\ is_model_exn e = true
  end.
Proof.
  intros HE N. unfold make_circuits. rewrite !bind_gets.
  destruct (reset_inckt k (m_ifs s) s) as (s1 & R1 & R2 & R3 & R4 & R5). rewrite (bind_run _ _ _ _ _ R1).
  set (es := edge_iter E (g_edges (make_graph k s true 0 false))).
  assert (Pes : forall e, In e es <-> In e (g_edges (make_graph k s true 0 false))).
  { intros e. split; apply Permutation_in; [|symmetry]; apply HE. }
  set (all := filter (fun e => has_edge es (e_v e) (e_u e)) es).
  assert (I0 : cinv k s all [] 1 s1).
  { constructor; auto.
    - intros x Hx. split; [rewrite R5 by auto; discriminate|intros (c & [] & _)].
    - intros c [].
    - intros c c' x [].
    - constructor.
    - intros _ [|n] c x; discriminate. }
  assert (Run := pair_edges_run k s all all 1 [] s1 (fun e H => H) I0).
  assert (Rev : forall e, In e all -> exists i, In i (m_ifs s) /\ available s i /\ e = edge_of s i /\
            exists j, In j (m_ifs s) /\ available s j /\ loc s j = rem s i /\ rem s j = loc s i).
  { intros e He. unfold all in He. apply filter_In in He as [He Hr]. apply Pes, all_edges_in in He as (i & Hi & A & ->).
    exists i. repeat split; auto. apply has_edge_iff in Hr as (e' & He' & U & V).
    apply Pes, all_edges_in in He' as (j & Hj & Aj & ->). exists j. auto. }
  assert (Pair : forall i, In i (m_ifs s) -> available s i ->
     (exists j, In j (m_ifs s) /\ available s j /\ loc s j = rem s i /\ rem s j = loc s i) ->
     exists e, In e all /\ e_u e = loc s i /\ e_v e = rem s i /\ (k = Flex -> e = edge_of s i)).
  { intros i Hi A (j & Hj & Aj & Lj & Rj). destruct (all_edges_has k s i Hi A) as (e & He & U & V & F).
    exists e. repeat split; auto. apply filter_In. split; [now apply Pes|]. apply has_edge_iff.
    destruct (all_edges_has k s j Hj Aj) as (e' & He' & U' & V' & _). exists e'. split; [now apply Pes|]. split; congruence. }
  unfold bind. destruct (pair_edges k all 1 [] s1) as [s2 [acc|er]] eqn:PE.
  - destruct Run as ((num & I) & _ & Cov).
    assert (Ck : m_ckts s2 = m_ckts s).
    { assert (P : pres (fun a b => m_ckts b = m_ckts a) (pair_edges k all 1 [])).
      { clear. intros s0. generalize 1%Z as n, (@nil (nat * nat)) as acc. revert s0. induction all as [|e tl IH]; intros s' n acc; auto.
        rewrite pair_edges_cons. destruct (edge_ends k s' e) as [[a b]|]; auto. destruct (_ && _); auto. rewrite IH. destruct k; auto. }
      specialize (P s1). rewrite PE in P. simpl in P. congruence. }
    destruct (existsb _ es) eqn:X.
    + split; [|split; [apply I|split; auto]]. intros P. apply existsb_exists in X as (e & He & Hn). apply negb_true_iff in Hn.
      apply Pes, all_edges_in in He as (i & Hi & A & ->). destruct (P i Hi A) as [(j & Hj & Aj & Lj & Rj) _].
      assert (has_edge es (e_v (edge_of s i)) (e_u (edge_of s i)) = true); [|congruence].
      apply has_edge_iff. destruct (all_edges_has k s j Hj Aj) as (e' & He' & U' & V' & _). exists e'. split; [now apply Pes|].
      simpl. split; [rewrite U'; exact Lj|rewrite V'; exact Rj].
    + assert (P1 : forall i, In i (m_ifs s) -> available s i -> exists j, In j (m_ifs s) /\ available s j /\ loc s j = rem s i /\ rem s j = loc s i).
      { intros i Hi A. destruct (all_edges_has k s i Hi A) as (e & He & U & V & F).
        assert (Hr : has_edge es (e_v e) (e_u e) = true).
        { destruct (has_edge es (e_v e) (e_u e)) eqn:Y; auto.
          assert (existsb (fun e => negb (has_edge es (e_v e) (e_u e))) es = true); [|congruence].
          apply existsb_exists. exists e. split; [now apply Pes|]. now rewrite Y. }
        apply has_edge_iff in Hr as (e' & He' & U' & V'). apply Pes, all_edges_in in He' as (j & Hj & Aj & ->).
        exists j. simpl in *. repeat split; auto; [rewrite <- V|rewrite <- U]; auto. }
      split.
      * intros i Hi A. split; [auto|]. intros Hk Nc.
        destruct (Pair i Hi A (P1 i Hi A)) as (e & He & U & V & F).
        destruct (P1 i Hi A) as (j & Hj & Aj & Lj & Rj).
        destruct (edge_ends_ok k s i e N Hi U V F) as [_ EO]; [eauto|]. apply EO; auto.
        destruct (Cov e He) as (a & b & Hab & _). eauto.
      * constructor; simpl.
        -- eapply cframe_trans; [apply I|apply cframe_ckts].
        -- intros a b Hab. destruct (ci_src _ _ _ _ _ _ I _ Hab) as (e & He & Ee).
           destruct (Rev e He) as (i & Hi & A & -> & _). assert (Es := Ee).
           apply edge_ends_in in Ee as (E1 & E2 & E3 & E4 & E5 & E6 & E7). simpl in *.
           change (ilocal s i) with (loc s i) in *. change (iremote s i) with (rem s i) in *.
           repeat split; auto; try congruence.
           ++ intros CS Hk. destruct (E7 Hk); auto. congruence.
           ++ exists i. repeat split; auto. intros CS Hk. subst k.
              symmetry. exact (proj1 (edge_ends_self s i a b Hi (CS eq_refl i Hi) Es)).
        -- apply I.
        -- apply I.
        -- apply I.
        -- intros CS i Hi A. destruct (Pair i Hi A (P1 i Hi A)) as (e & He & U & V & F).
           destruct (Cov e He) as (a & b & Hab & C).
           assert (Q := edge_ends_in _ _ _ _ _ Hab). destruct Q as (Q1 & Q2 & Q3 & Q4 & Q5 & Q6 & Q7).
           assert (Fa : k = Flex -> a = i).
           { intros Hk. rewrite (F Hk) in Hab. subst k. exact (proj1 (edge_ends_self s i a b Hi (CS eq_refl i Hi) Hab)). }
           destruct C as [C|(x & c & Hc & Hx & Hcx)].
           ++ exists a, b. split; auto. left. repeat split; congruence || auto.
           ++ destruct (ci_src _ _ _ _ _ _ I _ Hc) as (e' & He' & Ee'). destruct c as [a' b'].
              assert (S := edge_ends_share k s e e' a b a' b' x CS).
              destruct (Rev e He) as (i1 & Hi1 & _ & Ei1 & _), (Rev e' He') as (i2 & Hi2 & _ & Ei2 & _).
              assert (In (e_i e) (m_ifs s)) by (rewrite Ei1; auto). assert (In (e_i e') (m_ifs s)) by (rewrite Ei2; auto).
              destruct S as [[<- <-]|[<- <-]]; auto.
              ** exists a, b. split; auto. left. repeat split; congruence || auto.
              ** exists b, a. split; auto. right. repeat split; congruence || auto.
        -- intros x Hx. apply (ci_inckt _ _ _ _ _ _ I x Hx).
  - destruct Run as (F & Ck & e & He & Ee). destruct (Rev e He) as (i & Hi & A & -> & j & Hj & Aj & Lj & Rj).
    assert (EO := edge_ends_ok k s i (edge_of s i) N Hi eq_refl eq_refl (fun _ => eq_refl)).
    destruct EO as [EO1 EO2]; [eauto|]. rewrite Ee in EO1, EO2.
    split; [|split; auto; split; auto; congruence]. intros P. destruct (P i Hi A) as [_ P2].
    apply EO2 in P2 as [? X]. discriminate.
Qed.

(** ** The loop over the circuits *)
Definition mis (s : st) (cs : list (nat * nat)) (x : nat) : bool :=
  existsb (fun c => (Nat.eqb x (fst c) || Nat.eqb x (snd c)) && negb (Bool.eqb (i_failed (h_if s (fst c))) (i_failed (h_if s (snd c))))) cs.

Lemma mis_iff s cs x : mis s cs x = true <->
  exists c, In c cs /\ end_of c x /\ i_failed (h_if s (fst c)) <> i_failed (h_if s (snd c)).
Proof.
  unfold mis. rewrite existsb_exists. split; intros (c & Hc & X); exists c; (split; [auto|]).
  - apply andb_true_iff in X as [X Y]. apply orb_true_iff in X. rewrite !Nat.eqb_eq in X. apply negb_true_iff in Y.
    split; [exact X|]. intros E. rewrite E, Bool.eqb_reflx in Y. discriminate.
  - destruct X as [X Y]. apply andb_true_iff. split; [apply orb_true_iff; rewrite !Nat.eqb_eq; exact X|].
    apply negb_true_iff. apply Bool.eqb_false_iff. exact Y.
Qed.

Definition with_if (s : st) (h : nat -> iface) : st :=
  mkSt h (h_nd s) (h_sr s) (h_dm s) (h_ls s) (m_ifs s) (m_nds s) (m_dms s) (m_lsps s) (m_srs s) (m_ckts s) (m_groups s) (s_next s) (s_rng s).

Lemma st_eta s : s = with_if s (h_if s).
Proof. destruct s; reflexivity. Qed.

Lemma check_circuits_run : forall cs s,
  (forall c c' x, In c cs -> In c' cs -> end_of c x -> end_of c' x -> c = c') -> NoDup cs ->
  exists s', mmap check_circuit cs s = (s', Ok (map (fun c => negb (Qeqb (i_cap (h_if s (fst c))) (i_cap (h_if s (snd c))))) cs)) /\
    s' = with_if s (h_if s') /\ forall x, h_if s' x = if mis s cs x then down (h_if s x) else h_if s x.
Proof.
  induction cs as [|[a b] cs IH]; intros s D N.
  - exists s. split; [reflexivity|]. split; [apply st_eta|reflexivity].
  - inversion N as [|? ? N1 N2]; subst.
    set (s1 := if Bool.eqb (i_failed (h_if s a)) (i_failed (h_if s b)) then s else upd_if b down (upd_if a down s)).
    assert (H1 : check_circuit (a, b) s = (s1, Ok (negb (Qeqb (i_cap (h_if s a)) (i_cap (h_if s b)))))).
    { unfold check_circuit. rewrite !bind_gets. subst s1. destruct (Bool.eqb _ _); [reflexivity|].
      unfold bind. rewrite set_failed_true_run. rewrite set_failed_true_run. unfold gets. f_equal. f_equal. f_equal.
      simpl. unfold fupd. repeat match goal with |- context [Nat.eqb ?u ?v] => destruct (Nat.eqb_spec u v); subst; simpl end; auto; congruence. }
    assert (E1 : s1 = with_if s (h_if s1)) by (subst s1; destruct (Bool.eqb _ _); destruct s; reflexivity).
    assert (X1 : forall x, h_if s1 x = if (Nat.eqb x a || Nat.eqb x b) && negb (Bool.eqb (i_failed (h_if s a)) (i_failed (h_if s b))) then down (h_if s x) else h_if s x).
    { intros x. subst s1. destruct (Bool.eqb _ _); simpl; [now rewrite andb_false_r|]. rewrite andb_true_r. unfold fupd.
      repeat match goal with |- context [Nat.eqb ?u ?v] => destruct (Nat.eqb_spec u v); subst; simpl end; auto; congruence. }
    assert (Out : forall c x, In c cs -> end_of c x -> h_if s1 x = h_if s x).
    { intros c x Hc Ec. rewrite X1. destruct (Nat.eqb_spec x a) as [->|Na].
      - exfalso. apply N1. rewrite (D (a, b) c a); simpl; auto. now left.
      - destruct (Nat.eqb_spec x b) as [->|Nb]; auto. exfalso. apply N1. rewrite (D (a, b) c b); simpl; auto. now right. }
    destruct (IH s1) as (s2 & R2 & E2 & X2); auto.
    { intros c c' x Hc Hc'. apply D; simpl; auto. }
    exists s2. split; [|split].
    + cbn [mmap]. rewrite (bind_run _ _ _ _ _ H1). rewrite (bind_run _ _ _ _ _ R2). unfold ret. f_equal. f_equal. simpl. f_equal.
      apply map_ext_in. intros c Hc. rewrite (Out c (fst c)), (Out c (snd c)); auto; [right|left]; auto.
    + rewrite E2, E1. reflexivity.
    + intros x. rewrite X2. assert (M1 : mis s1 cs x = mis s cs x).
      { unfold mis. clear - Out. induction cs as [|c cs IH]; simpl; auto. rewrite IH by (intros; eapply Out; simpl; eauto).
        rewrite (Out c (fst c)), (Out c (snd c)); simpl; auto; [right|left]; auto. }
      rewrite M1, X1. unfold mis at 2. simpl. fold (mis s cs x).
      destruct (mis s cs x) eqn:M; [|now rewrite orb_false_r].
      rewrite orb_true_r. destruct ((Nat.eqb x a || Nat.eqb x b) && _); destruct (h_if s x); reflexivity.
Qed.

(** ** The reported checks *)
Lemma filter_length_le {A} (f : A -> bool) l : (List.length (filter f l) <= List.length l)%nat.
Proof. induction l as [|x l IH]; simpl; auto. destruct (f x); simpl; lia. Qed.
Lemma dedup_length_le {A} (eqb : A -> A -> bool) l : (List.length (dedup_by eqb l) <= List.length l)%nat.
Proof.
  induction l as [|x l IH]; simpl; auto.
  assert (List.length (filter (fun y => negb (eqb x y)) (dedup_by eqb l)) <= List.length (dedup_by eqb l))%nat by apply filter_length_le.
  lia.
Qed.
Lemma filter_length_eq {A} (f : A -> bool) l : List.length (filter f l) = List.length l -> forall x, In x l -> f x = true.
Proof.
  induction l as [|y l IH]; simpl; [tauto|]. destruct (f y) eqn:F; simpl.
  - intros H x [->|Hx]; auto.
  - intros H. assert (L := filter_length_le f l). lia.
Qed.
Lemma dedup_length_nodup l : List.length l = List.length (dedup_by String.eqb l) <-> NoDup l.
Proof.
  induction l as [|x l IH]; simpl; [split; auto; constructor|].
  assert (L1 := filter_length_le (fun y => negb (x =? y)) (dedup_by String.eqb l)). assert (L2 := dedup_length_le String.eqb l).
  split.
  - intros H. assert (Hl : List.length l = List.length (dedup_by String.eqb l)) by lia.
    constructor; [|now apply IH]. intros C.
    assert (F : List.length (filter (fun y => negb (x =? y)) (dedup_by String.eqb l)) = List.length (dedup_by String.eqb l)) by lia.
    assert (Hx : In x (dedup_by String.eqb l)) by (apply in_dedup_by; auto; apply String.eqb_eq).
    assert (Fx := filter_length_eq _ _ F x Hx). simpl in Fx. rewrite String.eqb_refl in Fx. discriminate.
  - intros H. inversion H as [|? ? N1 N2]; subst. apply IH in N2. f_equal. rewrite N2 at 1. symmetry.
    f_equal. assert (X : forall y, In y (dedup_by String.eqb l) -> negb (x =? y) = true).
    { intros y Hy. apply negb_true_iff, String.eqb_neq. intros ->. apply N1. apply in_dedup_by in Hy; auto. apply String.eqb_eq. }
    clear - X. induction (dedup_by String.eqb l) as [|y d IH]; simpl; auto. rewrite X by (simpl; auto). f_equal. apply IH. intros; apply X; simpl; auto.
Qed.

Lemma dup_test l : negb (Nat.eqb (List.length l) (List.length (dedup_by String.eqb l))) = true <-> ~ NoDup l.
Proof. rewrite negb_true_iff, Nat.eqb_neq, dedup_length_nodup. tauto. Qed.
