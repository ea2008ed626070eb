(** RepairAll.v - what unfail_node and unfail_srlg do (C63, C64). *)
From Verif Require Import Base Graph Objects Sim Api Spec SpecCkt SpecFail SpecRepair GraphProofs MonadProofs Frames ApiFrames ObjProofs ApiProofs QueryProofs CircuitProofs ValidateProofs PathProofs FailProofs RepairProofs RepairCalls.

(** ** restored *)
Lemma rs_weaken k (q q' : Prop) s s' P N : (q -> q') -> restored k q s s' P N -> restored k q' s s' P N.
Proof.
  intros Hq H. destruct H as [A B C D E F G I J]. constructor; auto. intros x. destruct (J x) as [X|[X|(X & Y)]]; auto.
Qed.
Lemma rs_refl k q s : restored k q s s (fun _ => False) (fun _ => False).
Proof. constructor; auto; try tauto. - apply same_sets_refl. - intros x. split; [apply same_if_data_refl|auto]. Qed.
Lemma rs_ext k q s s' (P P' N N' : nat -> Prop) : restored k q s s' P N -> (forall x, P x <-> P' x) -> (forall x, N x <-> N' x) -> restored k q s s' P' N'.
Proof.
  intros H EP EN. destruct H as [A B C D E F G I J]. constructor; auto.
  - intros n Hn. apply E. now apply EN.
  - intros n. destruct (F n) as [X|[X Y]]; auto. right. split; auto. now apply EN.
  - intros x Hx. apply I. now apply EP.
  - intros x. destruct (J x) as [X|[(X & Y)|X]]; auto. right. left. split; auto. now apply EP.
Qed.

Section Restored.
Variables (k : kind) (q : Prop) (s s' : st) (P N : nat -> Prop).
Hypothesis H : restored k q s s' P N.
Lemma rs_name n : n_name (h_nd s' n) = n_name (h_nd s n).
Proof. destruct (rs_nodes_else _ _ _ _ _ _ H n) as [->|[_ ->]]; auto. Qed.
Lemma rs_nsrlgs n : n_srlgs (h_nd s' n) = n_srlgs (h_nd s n).
Proof. destruct (rs_nodes_else _ _ _ _ _ _ H n) as [->|[_ ->]]; auto. Qed.
Lemma rs_stat : (forall g, sr_name (h_sr s' g) = sr_name (h_sr s g)) -> stat k s s'.
Proof.
  intros Hs. constructor; auto.
  - apply H.
  - intros n. split; [apply rs_name|apply rs_nsrlgs].
  - intros d. now rewrite (rs_dm _ _ _ _ _ _ H).
  - intros d. now rewrite (rs_ls _ _ _ _ _ _ H).
  - intros x. destruct (rs_data _ _ _ _ _ _ H x) as ((A1&_&_&A2&A3&A4&_)&_&A5). auto.
Qed.
Lemma rs_srlgs x : i_srlgs (h_if s' x) = i_srlgs (h_if s x).
Proof. apply (rs_data _ _ _ _ _ _ H x). Qed.
(** nothing goes down *)
Lemma rs_up_stays x : i_failed (h_if s x) = false -> i_failed (h_if s' x) = false.
Proof. intros F. destruct (rs_ifs_else _ _ _ _ _ _ H x) as [[-> _]|[(_ & A & _)|(_ & _ & A & _)]]; auto; congruence. Qed.
Lemma rs_node_stays n : n_failed (h_nd s n) = false -> n_failed (h_nd s' n) = false.
Proof. intros F. destruct (rs_nodes_else _ _ _ _ _ _ H n) as [->|[_ ->]]; auto. Qed.
End Restored.

Lemma rs_trans k q a b c P N P' N' : restored k q a b P N -> restored k q b c P' N' ->
  (forall gs, in_failed_srlg b gs -> in_failed_srlg a gs) ->
  restored k q a c (fun x => P x \/ P' x) (fun x => N x \/ N' x).
Proof.
  intros H1 H2 Hs. constructor.
  - eapply same_sets_trans; [apply H1|apply H2].
  - rewrite (rs_dm _ _ _ _ _ _ H2). apply H1.
  - rewrite (rs_ls _ _ _ _ _ _ H2). apply H1.
  - rewrite (rs_groups _ _ _ _ _ _ H2). apply H1.
  - intros n [Hn|Hn]; [|apply H2; auto]. eapply rs_node_stays; [apply H2|]. apply (rs_nodes _ _ _ _ _ _ H1); auto.
  - intros n. destruct (rs_nodes_else _ _ _ _ _ _ H1 n) as [E1|[N1 E1]], (rs_nodes_else _ _ _ _ _ _ H2 n) as [E2|[N2 E2]]; rewrite E2, ?E1; auto.
  - intros x. destruct (rs_data _ _ _ _ _ _ H1 x) as (A1&A2&A3), (rs_data _ _ _ _ _ _ H2 x) as (B1&B2&B3).
    split; [eapply same_if_data_trans; eauto|]. split; [congruence|]. intros Hk. rewrite (B3 Hk). auto.
  - intros x [Hx|Hx]; [|apply H2; auto]. destruct (rs_ifs _ _ _ _ _ _ H1 x Hx) as [A B].
    destruct (rs_ifs_else _ _ _ _ _ _ H2 x) as [[-> ->]|[(_ & C & D)|(_ & _ & C & _)]]; auto. congruence.
  - intros x. destruct (rs_ifs_else _ _ _ _ _ _ H1 x) as [[A1 A2]|[(A0 & A1 & A2)|(A0 & A3 & A4 & A1 & A2)]];
      destruct (rs_ifs_else _ _ _ _ _ _ H2 x) as [[B1 B2]|[(B0 & B1 & B2)|(B0 & B3 & B4 & B1 & B2)]]; rewrite ?B1, ?B2.
    + left. auto.
    + right. left. auto.
    + right. right. split; auto. rewrite (rs_srlgs _ _ _ _ _ _ H1) in B3. repeat split; auto; congruence.
    + right. left. auto.
    + right. left. auto.
    + congruence.
    + right. right. auto.
    + right. left. auto.
    + right. right. auto.
Qed.


(** ** One interface *)
Section One.
Variables (E : env) (k : kind).
Hypothesis HE : env_ok E.

Lemma cframe_rs s s' : cframe k s s' -> restored k False s s' (fun _ => False) (fun _ => False).
Proof.
  intros F. constructor; try tauto.
  - repeat split; apply F.
  - apply F.
  - apply F.
  - apply F.
  - intros n. left. now rewrite (cf_nd _ _ _ F).
  - intros x. destruct (cf_if _ _ _ F x) as (b & c & -> & Hc). split; [repeat split|]. split; auto.
  - intros x. left. destruct (cf_if _ _ _ F x) as (b & c & -> & Hc). auto.
Qed.

Lemma both_up_rs t t1 i j : only_ifs t t1 -> (forall x, h_if t1 x = if (Nat.eqb x i || Nat.eqb x j)%bool then up (h_if t x) else h_if t x) ->
  restored k False t t1 (fun x => x = i \/ x = j) (fun _ => False).
Proof.
  intros (A & B & C & D & F & G & J) X. constructor; auto; try tauto.
  - intros n. rewrite B. auto.
  - intros x. rewrite X. destruct (_ || _); repeat split; auto.
  - intros x Hx. rewrite X. assert ((Nat.eqb x i || Nat.eqb x j)%bool = true) as ->; [|auto].
    apply orb_true_iff. rewrite !Nat.eqb_eq. auto.
  - intros x. rewrite X. destruct (_ || _) eqn:Y; auto. right. left. apply orb_true_iff in Y. rewrite !Nat.eqb_eq in Y. auto.
Qed.

Lemma both_up_agree t t1 i j : wf_net k t -> ends_agree k t -> In i (m_ifs t) -> In j (m_ifs t) -> is_reverse k t i j -> only_ifs t t1 ->
  (forall x, h_if t1 x = if (Nat.eqb x i || Nat.eqb x j)%bool then up (h_if t x) else h_if t x) -> stat k t t1 /\ wf_net k t1 /\ ends_agree k t1.
Proof.
  intros W A Hi Hj R O X.
  assert (S : stat k t t1) by (apply only_ifs_stat; auto; intros x; rewrite X; destruct (_ || _); auto).
  split; auto. split; [eapply stat_wf; eauto|].
  destruct (linked_pair _ _ _ _ (proj2 (proj2 (proj2 W))) Hi Hj R) as [U1 U2].
  assert (Cs : forall x, (x = i \/ x = j) /\ i_failed (h_if t1 x) = false \/ (x <> i /\ x <> j) /\ i_failed (h_if t1 x) = i_failed (h_if t x)).
  { intros x. rewrite X. destruct (Nat.eqb_spec x i), (Nat.eqb_spec x j); simpl; auto. }
  intros x y. rewrite (stat_ifs _ _ _ S), (stat_rev _ _ _ S). intros Hx Hy Rx.
  destruct (Cs x) as [[Ex ->]|[[N1 N2] ->]]; destruct (Cs y) as [[Ey ->]|[[N1' N2'] ->]]; auto.
  - exfalso. destruct Ex; subst; [apply N2'|apply N1']; auto.
  - exfalso. apply rev_sym in Rx. destruct Ey; subst; [apply N2|apply N1]; auto.
Qed.

(** unfail_interface that returns *)
Lemma unfail_if_ok b nm nn t t' : wf_net k t -> ends_agree k t -> unfail_interface E k nm nn b t = (t', Ok tt) ->
  exists i j, In i (m_ifs t) /\ if_key t i = (nm, nn) /\ In j (m_ifs t) /\ is_reverse k t i j /\
    ((~ ends_up t i /\ t' = t) \/
     (ends_up t i /\ ~ in_failed_srlg t (i_srlgs (h_if t i)) /\ ~ in_failed_srlg t (i_srlgs (h_if t j)) /\
      restored k False t t' (fun x => x = i \/ x = j) (fun _ => False) /\ h_nd t' = h_nd t /\ h_sr t' = h_sr t /\ ends_agree k t')).
Proof.
  intros W A H. assert (W' := W). destruct W' as (U & R & CS & L).
  destruct (unfail_interface_run _ _ _ _ _ _ _ _ U R H) as [(e & X & _)|(i & j & Hi & Ki & Gr & J & X)]; [discriminate|].
  assert (RV := other_rev k _ _ _ J). assert (Hj := proj1 J).
  exists i, j. repeat (split; [auto; fail|]).
  destruct X as [NU -> Hb|EU Fj -> (m & Hr)|t1 EU NFj Fi O X1 -> (m & Hr)|t1 EU NFj NFi O _ _ X1 V]; try discriminate; [left; auto|].
  right. split; auto. split; auto. split; auto.
  destruct (both_up_agree t t1 i j W A Hi Hj RV O X1) as (S1 & W1 & A1).
  assert (CF := validate_agree E k t1 HE (wf_nodup _ _ W1) (proj1 (proj2 (proj2 W1))) A1). rewrite <- V in CF. cbn [fst] in CF.
  assert (B := both_up_rs t t1 i j O X1). assert (C := cframe_rs _ _ CF). destruct O as (_ & O2 & O3 & _).
  split; [|split; [rewrite (cf_nd _ _ _ CF); auto|split; [rewrite (cf_sr _ _ _ CF); auto|]]].
  - eapply rs_ext; [eapply rs_trans; [exact B|exact C|]| |].
    + intros gs. unfold in_failed_srlg. rewrite O3. auto.
    + intros x; cbv beta; tauto.
    + intros x; cbv beta; tauto.
  - assert (S2 := cframe_stat _ _ _ CF). intros x y. rewrite (stat_ifs _ _ _ S2), (stat_rev _ _ _ S2).
    destruct (cf_data _ _ _ CF x) as (_&_&_&_&_&_&->&_), (cf_data _ _ _ CF y) as (_&_&_&_&_&_&->&_). apply A1.
Qed.

(** unfail_interface, any outcome, in a consistent state *)
Lemma unfail_if_any b nm nn t t' r : inv k t -> unfail_interface E k nm nn b t = (t', r) ->
  exists P, restored k True t t' P (fun _ => False) /\ h_nd t' = h_nd t /\ h_sr t' = h_sr t /\
    (forall x, P x -> exists i, In i (m_ifs t) /\ if_key t i = (nm, nn) /\ ends_up t i /\ In x (m_ifs t) /\ (x = i \/ is_reverse k t i x)) /\
    (forall i j, In i (m_ifs t) -> if_key t i = (nm, nn) -> sole_other_end t i j -> ends_up t i -> ~ in_failed_srlg t (i_srlgs (h_if t i)) -> P i /\ P j).
Proof.
  intros I H. assert (I' := I). destruct I' as (W & So & C1 & A). assert (W' := W). destruct W' as (U & R & CS & L).
  assert (Key : forall i i', In i (m_ifs t) -> In i' (m_ifs t) -> if_key t i = (nm, nn) -> if_key t i' = (nm, nn) -> i = i').
  { intros i i' Hi Hi' K1 K2. apply (NoDup_map_inj (if_key t) (m_ifs t)); auto; [apply U|congruence]. }
  destruct (unfail_interface_run _ _ _ _ _ _ _ _ U R H) as [(e & _ & -> & X)|(i & j & Hi & Ki & Gr & J & X)].
  { exists (fun _ => False). split; [apply rs_refl|]. split; auto. split; auto. split; [tauto|].
    intros i j Hi Ki SJ EU NF. exfalso. destruct X as [X|(x & Hx & Kx & Gx)]; [apply (X i Hi Ki)|].
    rewrite (Key x i) in Gx; auto. rewrite (get_remote_unique t i j) in Gx; auto. discriminate. }
  assert (RV := other_rev k _ _ _ J). assert (Hj := proj1 J).
  assert (SF := same_srlg_failed k t i j So Hi Hj RV).
  destruct X as [NU -> Hb|EU Fj -> (m & Hr)|t1 EU NFj Fi O X1 -> (m & Hr)|t1 EU NFj NFi O _ _ X1 V].
  - exists (fun _ => False). split; [apply rs_refl|]. split; auto. split; auto. split; [tauto|].
    intros i' j' Hi' Ki' _ EU _. exfalso. rewrite (Key i' i) in EU; auto.
  - exists (fun _ => False). split; [|split; [auto|split; [auto|split; [tauto|]]]].
    2:{ intros i' j' Hi' Ki' _ _ NF. exfalso. rewrite (Key i' i) in NF; auto. tauto. }
    constructor; auto; try tauto; [repeat split| |].
    + intros x. simpl. apply fupd_cases; intros; subst; repeat split; auto.
    + intros x. simpl. apply fupd_cases; intros; subst; auto. right. right. repeat split; auto. apply So; auto.
  - exfalso. tauto.
  - destruct (both_up_agree t t1 i j W A Hi Hj RV O X1) as (S1 & W1 & A1).
    assert (CF := validate_agree E k t1 HE (wf_nodup _ _ W1) (proj1 (proj2 (proj2 W1))) A1). rewrite <- V in CF. cbn [fst] in CF.
    assert (B := both_up_rs t t1 i j O X1). assert (C := cframe_rs _ _ CF). destruct O as (_ & O2 & O3 & _).
    exists (fun x => x = i \/ x = j). split; [|split; [rewrite (cf_nd _ _ _ CF); auto|split; [rewrite (cf_sr _ _ _ CF); auto|split]]].
    + apply (rs_weaken k False); [tauto|]. eapply rs_ext; [eapply rs_trans; [exact B|exact C|]| |].
      * intros gs. unfold in_failed_srlg. rewrite O3. auto.
      * intros x; cbv beta; tauto.
      * intros x; cbv beta; tauto.
    + intros x [-> | ->]; exists i; auto 10.
    + intros i' j' Hi' Ki' SJ' _ _. assert (i' = i) by (apply Key; auto). subst i'. split; auto. right.
      assert (G' := get_remote_unique t i j' Hi SJ'). congruence.
Qed.
End One.

(** ** Loops *)
Lemma mfor_rs {A} k q (l : list A) body (I : st -> Prop) (Pf : A -> nat -> Prop) (Nf : A -> nat -> Prop) :
  (forall x a b, In x l -> I a -> body x a = (b, Ok tt) -> I b /\ h_sr b = h_sr a /\ restored k q a b (Pf x) (Nf x)) ->
  forall s s', I s -> mfor l body s = (s', Ok tt) ->
    I s' /\ h_sr s' = h_sr s /\ restored k q s s' (fun y => exists x, In x l /\ Pf x y) (fun y => exists x, In x l /\ Nf x y).
Proof.
  induction l as [|x l IH]; intros Hb s s' Hs H.
  - injection H as <-. split; auto. split; auto. eapply rs_ext; [apply rs_refl| |]; intros y; (split; [tauto|intros (z & [] & _)]).
  - apply mfor_cons_ok in H as (s1 & H1 & H2). destruct (Hb x s s1) as (I1 & E1 & R1); [left; auto|auto|auto|].
    destruct (IH (fun y a b Hy => Hb y a b (or_intror Hy)) s1 s' I1 H2) as (I2 & E2 & R2). split; auto. split; [congruence|].
    eapply rs_ext; [eapply rs_trans; [exact R1|exact R2|unfold in_failed_srlg; now rewrite E1]| |]; intros y; cbv beta; split.
    + intros [Hy|(z & Hz & Hy)]; [exists x|exists z]; split; auto; [left|right]; auto.
    + intros (z & [<-|Hz] & Hy); [left|right; exists z]; auto.
    + intros [Hy|(z & Hz & Hy)]; [exists x|exists z]; split; auto; [left|right]; auto.
    + intros (z & [<-|Hz] & Hy); [left|right; exists z]; auto.
Qed.

(** any outcome *)
Lemma mfor_rs_any {A} k q (l : list A) body (I : st -> Prop) (PP NN : nat -> Prop) :
  (forall x a b r, In x l -> I a -> body x a = (b, r) -> I b /\ h_sr b = h_sr a /\
     exists P N, restored k q a b P N /\ (forall y, P y -> PP y) /\ (forall y, N y -> NN y)) ->
  forall s s' r, I s -> mfor l body s = (s', r) ->
    I s' /\ h_sr s' = h_sr s /\ exists P N, restored k q s s' P N /\ (forall y, P y -> PP y) /\ (forall y, N y -> NN y).
Proof.
  induction l as [|x l IH]; intros Hb s s' r Hs H.
  - injection H as <- _. split; auto. split; auto. eexists _, _. split; [apply rs_refl|]. split; intros y [].
  - cbn [mfor] in H. destruct (body x s) as [s1 [u|e]] eqn:H1.
    + rewrite (bind_run _ _ _ _ _ H1) in H. destruct (Hb x s s1 (Ok u)) as (I1 & E1 & P1 & N1 & R1 & X1 & Y1); [left; auto|auto|auto|].
      destruct (IH (fun y a b r Hy => Hb y a b r (or_intror Hy)) s1 s' r I1 H) as (I2 & E2 & P2 & N2 & R2 & X2 & Y2). split; auto. split; [congruence|].
      eexists _, _. split; [eapply rs_trans; [exact R1|exact R2|unfold in_failed_srlg; now rewrite E1]|]. split; intros y [Hy|Hy]; auto.
    + unfold bind in H. rewrite H1 in H. injection H as <- _. destruct (Hb x s s1 (Err e)) as (I1 & E1 & X); [left; auto|auto|auto|]. auto.
Qed.

(** ** unfail_node *)
Lemma node_set_false_run n s : node_set_failed n false s =
  if infs s (n_srlgs (h_nd s n))
  then (upd_nd n (nd_failed true) s, Err (ModelException "Node must be failed since it is a member of one or more SRLGs that are failed"))
  else (upd_nd n (nd_failed false) s, Ok tt).
Proof. unfold node_set_failed. rewrite bind_gets. unfold infs. destruct (existsb _ _); reflexivity. Qed.

Lemma node_up_rs k q n s : restored k q s (upd_nd n (nd_failed false) s) (fun _ => False) (eq n).
Proof.
  constructor; auto; try tauto; [repeat split| | |].
  - intros m <-. simpl. now rewrite fupd_same.
  - intros m. simpl. apply fupd_cases; intros; subst; auto.
  - intros x. split; [apply same_if_data_refl|auto].
Qed.

Section Node.
Variables (E : env) (k : kind).
Hypothesis HE : env_ok E.

(** what the loop keeps *)
Definition kept (s1 a : st) : Prop := stat k s1 a /\ h_nd a = h_nd s1 /\ h_sr a = h_sr s1 /\ wf_net k a /\ ends_agree k a.

Lemma kept_step b nm nn s1 a a' : kept s1 a -> unfail_interface E k nm nn b a = (a', Ok tt) ->
  exists i j, In i (m_ifs s1) /\ if_key s1 i = (nm, nn) /\ In j (m_ifs s1) /\ is_reverse k s1 i j /\
    ((~ ends_up s1 i /\ a' = a) \/
     (ends_up s1 i /\ ~ in_failed_srlg s1 (i_srlgs (h_if s1 i)) /\ ~ in_failed_srlg s1 (i_srlgs (h_if s1 j)) /\
      restored k False a a' (fun x => x = i \/ x = j) (fun _ => False) /\ kept s1 a')).
Proof.
  intros (S & En & Es & W & A) H. destruct (unfail_if_ok E k HE _ _ _ _ _ W A H) as (i & j & Hi & Ki & Hj & R & X).
  rewrite (stat_ifs _ _ _ S) in Hi, Hj. rewrite (stat_key _ _ _ S) in Ki. apply (stat_rev _ _ _ S) in R.
  exists i, j. repeat (split; [auto; fail|]).
  assert (EU : ends_up a i <-> ends_up s1 i).
  { unfold ends_up. rewrite En. destruct (st_if _ _ _ S i) as (_&->&->&_). reflexivity. }
  assert (G : forall x, in_failed_srlg a (i_srlgs (h_if a x)) <-> in_failed_srlg s1 (i_srlgs (h_if s1 x))).
  { intros x. unfold in_failed_srlg. rewrite Es, (stat_srlgs _ _ _ S). reflexivity. }
  rewrite EU, (G i), (G j) in X. destruct X as [X|(X1 & X2 & X3 & X4 & X5 & X6 & X7)]; auto. right. repeat (split; [auto; fail|]).
  assert (S' : stat k a a') by (apply (rs_stat _ _ _ _ _ _ X4); now rewrite X6).
  split; [eapply stat_trans; eauto|]. split; [congruence|]. split; [congruence|]. split; auto. eapply stat_wf; eauto.
Qed.

Lemma unfail_node_ok nname s s' : wf_net k s -> ends_agree k s -> unfail_node E k nname s = (s', Ok tt) ->
  exists n, In n (m_nds s) /\ nd_name s n = nname /\ ~ in_failed_srlg s (n_srlgs (h_nd s n)) /\ h_sr s' = h_sr s /\
    restored k False s s' (fun x => In x (m_ifs s) /\ at_node s n x) (eq n) /\
    (forall x, In x (m_ifs s) -> at_node s n x -> ~ in_failed_srlg s (i_srlgs (h_if s x))) /\
    wf_net k s' /\ ends_agree k s'.
Proof.
  intros W A H. unfold unfail_node in H. rewrite bind_reads in H. assert (G := get_node_spec s nname).
  destruct (get_node s nname) as [n|e] eqn:Gn; [|discriminate]. destruct G as [Hn Nn]. exists n. split; auto. split; auto.
  unfold bind at 1 in H. rewrite node_set_false_run in H. destruct (infs s (n_srlgs (h_nd s n))) eqn:Fn; [discriminate|].
  split; [now apply infs_false|]. set (s1 := upd_nd n (nd_failed false) s) in *. rewrite bind_gets in H. cbv beta in H.
  assert (S1 : stat k s s1) by apply stat_upd_nd. assert (W1 := stat_wf _ _ _ S1 W).
  assert (A1 : ends_agree k s1). { intros i j Hi Hj R. apply (A i j); auto. now apply (stat_rev _ _ _ S1). }
  assert (K1 : kept s1 s1) by (split; [apply stat_refl|auto]).
  assert (W1' := W1). destruct W1' as ((U1 & U2 & _) & (R1 & _) & _ & L1).
  assert (Nm : forall m, nd_name s1 m = nd_name s m) by apply (stat_name _ _ _ S1).
  assert (Nd : forall m, In m (m_nds s) -> nd_name s m = nname -> m = n).
  { intros m Hm E1. apply (NoDup_map_inj (nd_name s) (m_nds s)); auto; [apply W|congruence]. }
  assert (AT : forall x, In x (m_ifs s) -> (at_node s n x <-> (loc s1 x = nname \/ rem s1 x = nname) /\ ends_up s1 x)).
  { intros x Hx. destruct (R1 x Hx) as [Ra Rb]. unfold at_node, ends_up, loc, rem. change (h_if s1) with (h_if s) in *.
    assert (Q : forall m, In m (m_nds s1) -> (n_name (h_nd s1 m) = nname <-> m = n) /\ (n_failed (h_nd s1 m) = false <-> m = n \/ n_failed (h_nd s m) = false)).
    { intros m Hm. split.
      - split; [intros X; apply Nd; auto; rewrite <- Nm; auto|intros ->; rewrite <- Nn; apply Nm].
      - simpl. apply fupd_cases; intros D; subst; [simpl; tauto|]. split; auto. intros [X|X]; auto. congruence. }
    destruct (Q _ Ra) as [-> ->], (Q _ Rb) as [-> ->]. tauto. }
  set (Pf := fun i x : nat => ends_up s1 i /\ In x (m_ifs s1) /\ (x = i \/ is_reverse k s1 i x)).
  (* one round of the loop *)
  assert (Body : forall i a b, In i (ifaces_of_name s1 nname) -> kept s1 a ->
    (rf <- gets (fun s => n_failed (h_nd s (i_rem (h_if s i)))) ;;
     if rf : bool then ret tt
     else nm <- gets (fun s => i_name (h_if s i)) ;;
      unfail_interface E k nm nname false ;;;
      j <- reads (fun s => get_remote_interface s i) ;;
      kj <- gets (fun s => ikey s j) ;;
      unfail_interface E k (fst kj) (snd kj) false) a = (b, Ok tt) ->
    kept s1 b /\ restored k False a b (Pf i) (fun _ => False) /\ (forall x, Pf i x -> ~ in_failed_srlg s1 (i_srlgs (h_if s1 x)))).
  { intros i a b Hi K Hb. apply ifaces_of_name_In in Hi as [Hi Li]. assert (K0 := K). destruct K0 as (Sa & En & Es & Wa & Aa).
    assert (EUi : ends_up s1 i <-> n_failed (h_nd s1 (i_rem (h_if s1 i))) = false).
    { unfold ends_up. destruct (R1 i Hi) as [Ra _]. assert (Ei : i_node (h_if s1 i) = n) by (apply Nd; auto; rewrite <- Nm; exact Li).
      rewrite Ei. unfold s1 at 1. simpl. rewrite fupd_same. simpl. tauto. }
    rewrite bind_gets in Hb. cbv beta in Hb. destruct (st_if _ _ _ Sa i) as (Ki1 & _ & Ei & _). rewrite En, Ei in Hb.
    destruct (n_failed (h_nd s1 (i_rem (h_if s1 i)))) eqn:Fr.
    { injection Hb as <-. split; auto. assert (NE : ~ ends_up s1 i) by (rewrite EUi; discriminate). split.
      - eapply rs_ext; [apply rs_refl| |]; intros x; unfold Pf; tauto.
      - intros x [X _]. tauto. }
    assert (EU : ends_up s1 i) by (apply EUi; auto). rewrite bind_gets in Hb. cbv beta in Hb.
    apply bind_ok in Hb as (a1 & [] & H1 & Hb).
    destruct (kept_step _ _ _ _ _ _ K H1) as (i' & j & Hi' & Ki & Hj & R & X).
    assert (i' = i). { apply (NoDup_map_inj (if_key s1) (m_ifs s1)); auto. rewrite Ki. unfold if_key. now rewrite Ki1, Li. } subst i'.
    destruct X as [[X _]|(_ & NF1 & NF2 & Rs1 & K1a)]; [tauto|].
    destruct (linked_pair _ _ _ _ L1 Hi Hj R) as [Uj Ui].
    rewrite bind_reads in Hb. destruct (get_remote_interface a1 i) as [j'|e] eqn:Gr; [|discriminate].
    rewrite bind_gets in Hb. cbv beta in Hb.
    assert (K1a' := K1a). destruct K1a' as (Sa1 & _ & _ & Wa1 & _).
    assert (Hi1 : In i (m_ifs a1)) by (now rewrite (stat_ifs _ _ _ Sa1)).
    assert (J' := get_remote_ok _ _ _ Hi1 Gr). assert (Hj' := proj1 J'). rewrite (stat_ifs _ _ _ Sa1) in Hj'.
    assert (j' = j). { apply Uj; auto. apply (stat_rev _ _ _ Sa1). now apply other_rev. } subst j'.
    destruct (kept_step _ _ _ _ _ _ K1a Hb) as (j2 & i2 & Hj2 & Kj2 & Hi2 & R2 & X).
    assert (j2 = j). { apply (NoDup_map_inj (if_key s1) (m_ifs s1)); auto. rewrite Kj2. rewrite <- (stat_key _ _ _ Sa1). reflexivity. } subst j2.
    assert (i2 = i) by (apply Ui; auto). subst i2.
    assert (EP : forall x, (x = i \/ x = j) <-> Pf i x).
    { intros x. unfold Pf. split; [intros [-> | ->]; auto|]. intros (_ & Hx & [X1|X1]); auto. }
    assert (NF : forall x, Pf i x -> ~ in_failed_srlg s1 (i_srlgs (h_if s1 x))).
    { intros x Hx. apply EP in Hx as [-> | ->]; auto. }
    destruct X as [[_ ->]|(_ & _ & _ & Rs2 & K2)].
    - split; auto. split; [|exact NF]. eapply rs_ext; [exact Rs1|exact EP|tauto].
    - split; auto. split; [|exact NF]. eapply rs_ext; [eapply rs_trans; [exact Rs1|exact Rs2|]| |].
      + intros gs. unfold in_failed_srlg. destruct K1a as (_ & _ & -> & _). rewrite Es. auto.
      + intros x. cbv beta. rewrite <- EP. tauto.
      + intros x; cbv beta; tauto. }
  assert (M : kept s1 s' /\ h_sr s' = h_sr s1 /\ restored k False s1 s' (fun y => exists x, In x (ifaces_of_name s1 nname) /\ Pf x y) (fun y => exists x : nat, In x (ifaces_of_name s1 nname) /\ False)).
  { eapply (mfor_rs k False _ _ (kept s1) Pf (fun _ _ => False)); [|exact K1|exact H].
    intros x a b Hx Ka Hb. destruct (Body x a b Hx Ka Hb) as (Kb & Rb & _). split; auto. split; auto.
    destruct Ka as (_ & _ & -> & _), Kb as (_ & _ & -> & _). reflexivity. }
  destruct M as (Kf & Ef & Rf).
  assert (EP : forall x, In x (m_ifs s) /\ at_node s n x <-> exists i, In i (ifaces_of_name s1 nname) /\ Pf i x).
  { intros x. split.
    - intros [Hx Ax]. apply AT in Ax as [[Lx|Lx] EU]; auto.
      + exists x. split; [apply ifaces_of_name_In; auto|]. split; auto.
      + destruct (L1 x Hx) as (y & Hy & Ry & _). exists y. split; [apply ifaces_of_name_In; split; auto; rewrite <- Lx; symmetry; apply Ry|].
        split; [|split; auto; right; now apply rev_sym]. apply (other_ends_up s1 x y); auto; [apply W1|apply W1|apply Ry|apply Ry].
    - intros (i & Hi & EU & Hx & X). apply ifaces_of_name_In in Hi as [Hi Li]. split; auto. apply AT; auto.
      destruct X as [->|R]; auto. split; [right; destruct R as (<- & _); auto|].
      apply (other_ends_up s1 i x); auto; [apply W1|apply W1|apply R|apply R]. }
  split; [exact Ef|]. split; [|split; [|split; apply Kf]].
  - eapply rs_ext; [eapply rs_trans; [apply (node_up_rs k False n s)|exact Rf|intros gs X; exact X]| |].
    + intros x. cbv beta. rewrite EP. tauto.
    + intros x. cbv beta. split; [intros [X|(z & _ & [])]; auto|auto].
  - (* none of them in a failed SRLG *)
    intros x Hx Ax. destruct (proj1 (EP x) (conj Hx Ax)) as (i & Hi & Px).
    assert (Q : forall l a b, (forall z, In z l -> In z (ifaces_of_name s1 nname)) -> In i l -> kept s1 a ->
      mfor l (fun i => rf <- gets (fun s => n_failed (h_nd s (i_rem (h_if s i)))) ;;
        if rf : bool then ret tt
        else nm <- gets (fun s => i_name (h_if s i)) ;;
        unfail_interface E k nm nname false ;;;
        j <- reads (fun s => get_remote_interface s i) ;;
        kj <- gets (fun s => ikey s j) ;;
        unfail_interface E k (fst kj) (snd kj) false) a = (b, Ok tt) -> ~ in_failed_srlg s1 (i_srlgs (h_if s1 x))).
    { induction l as [|z l IH]; intros a b Hl Hil Ka Hb; [destruct Hil|].
      apply mfor_cons_ok in Hb as (a1 & Hb1 & Hb2). destruct (Body z a a1 (Hl z (or_introl eq_refl)) Ka Hb1) as (Ka1 & _ & NF).
      destruct Hil as [->|Hil]; [auto|]. eapply IH; eauto. intros w Hw. apply Hl. now right. }
    exact (Q _ _ _ (fun z Hz => Hz) Hi K1 H).
Qed.
End Node.
