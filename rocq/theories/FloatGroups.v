(** FloatGroups.v - routing the LSPs of a model in floating point arithmetic, when
    all amounts are multiples of a half. *)
From Verif Require Import Base Graph Objects Sim Spec SpecCkt Float GraphProofs ObjProofs MonadProofs RoundProofs FloatProofs ResProofs PathProofs QuietProofs CircuitProofs RouteProofs TrafficProofs FloatLock LeastProofs OrderProofs SpecSig SigProofs SigSeq ResigProofs SigUpdate FloatSig.
From Verif Require FloatSim.
From Coq Require Import Lqa.

Definition nq (n : nat) : Q := inject_Z (Z.of_nat n).
Lemma nq_S n : (nq (S n) == nq n + 1)%Q.
Proof. unfold nq. rewrite Nat2Z.inj_succ, <- Z.add_1_r, inject_Z_plus. reflexivity. Qed.
Lemma nq_pos n : (0 <= nq n)%Q.
Proof. unfold nq, Qle. simpl. lia. Qed.
Lemma times_S B n : (B * nq (S n) == B * nq n + B)%Q.
Proof. rewrite nq_S. ring. Qed.
Lemma times_0 B : (B * nq 0 == 0)%Q.
Proof. unfold nq. simpl. ring. Qed.
Lemma times_pos B n : (0 <= B)%Q -> (0 <= B * nq n)%Q.
Proof. intros H. apply Qmult_le_0_compat; [exact H|apply nq_pos]. Qed.

Section Groups.
Variables (E : env) (k : kind).
Hypothesis HE : env_ok E.
Variables (tr : nat -> Q -> Q -> Prop) (sh : Q -> Q -> Prop) (c : nat -> nat).
Notation twin := (twin tr sh c).
Notation pre := (pre k tr sh c).
Variable B : Q.
Hypothesis B0 : (0 <= B)%Q.

Lemma held_frame s s' l : h_ls s' l = h_ls s l -> m_ifs s' = m_ifs s -> held B s l -> held B s' l.
Proof. intros X Y H. unfold held. rewrite X, Y. exact H. Qed.
Lemma determine_held s l x s' : good k s -> small (wanted s l x) -> (Qabs (wanted s l x) <= B)%Q -> (0 <= wanted s l x)%Q -> determine_lsp E k l x s = (s', Ok tt) -> held B s' l.
Proof.
  intros G Sw Bw Pw R. destruct (determine_ok E k HE s l x s' G R) as [_ [(p & S)|S]]; intros p' c' b' X.
  - destruct (so_path _ _ _ _ _ S) as (b & Y & _). rewrite Y in X. injection X as <- _ _. rewrite (os_ifs _ _ _ (so_only _ _ _ _ _ S)).
    destruct (so_best _ _ _ _ _ S) as [L _]. split; [eapply least_nodup; eauto; destruct G; auto|]. split; [intros i Hi; exact (proj1 (route_in _ _ _ _ _ (proj1 L) i Hi))|].
    exists (wanted s l x). split; [apply (so_bw _ _ _ _ _ S)|auto].
  - rewrite (sx_path _ _ _ _ S) in X. discriminate.
Qed.

Lemma dets x y lsps : NoDup lsps -> forall M s t s', (M + B * nq (List.length lsps) <= pow2 44)%Q -> pre M s t ->
  (forall l, In l lsps -> small (wanted s l x) /\ (Qabs (wanted s l x) <= B)%Q /\ (0 <= wanted s l x)%Q /\ (l_cfg (h_ls s l) = None -> (y == x)%Q)) ->
  mfor lsps (fun l => determine_lsp E k l x) s = (s', Ok tt) ->
  exists t', mfor lsps (fun l => FloatSim.determine_lsp fl E k l y) t = (t', Ok tt) /\ pre (M + B * nq (List.length lsps)) s' t' /\ (forall l, In l lsps -> held B s' l).
Proof.
  induction lsps as [|l lsps IH]; intros N M s t s' MM P W R.
  - injection R as <-. exists t. split; [reflexivity|]. split; [|intros l []]. eapply pre_mono; [|exact P]. cbn [List.length]. rewrite times_0. lra.
  - inversion N as [|? ? N1 N2]; subst. cbn [List.length] in MM |- *. rewrite times_S in MM. assert (T := times_pos B (List.length lsps) B0).
    apply mfor_cons_ok in R as (s1 & R1 & R2). destruct (W l (or_introl eq_refl)) as (W1 & W2 & W4 & W3). assert (G := proj2 (proj2 P)).
    destruct (determine_twin E k HE tr sh c M s t l x y s1 ltac:(lra) P W1 W3 R1) as (t1 & R1' & P1).
    assert (HD := determine_held s l x s1 G W1 W2 W4 R1). destruct (determine_ok E k HE s l x s1 G R1) as [_ S]. assert (O := signalled_only _ _ _ _ S).
    apply (pre_mono k tr sh c _ (M + B)) in P1; [|lra].
    destruct (IH N2 (M + B)%Q s1 t1 s' ltac:(lra) P1) as (t' & R' & P' & H').
    { intros m Hm. destruct (W m (or_intror Hm)) as (V1 & V2 & V4 & V3). rewrite (os_wanted _ _ _ O). split; [exact V1|]. split; [exact V2|]. split; [exact V4|]. rewrite (qf_ls _ _ (only_seq _ _ _ O) m). exact V3. }
    { exact R2. }
    exists t'. cbn [mfor]. rewrite (bind_run _ _ _ _ _ R1'). split; [exact R'|]. split; [eapply pre_mono; [|exact P']; rewrite times_S; lra|].
    intros m [<-|Hm]; [|auto]. destruct (determine_loop E k HE lsps x s1 s' (proj2 (proj2 P1)) R2) as [Q _].
    eapply held_frame; [| |exact HD].
    + apply (signalling_other _ _ _ _ Q). now rewrite map_map, map_id.
    + apply (qf_sets _ _ (signalling_frame _ _ _ Q)).
Qed.

Lemma opts bw bw' ls : small bw -> (Qabs bw <= B)%Q -> (0 <= bw)%Q -> (bw' == bw)%Q -> NoDup ls -> forall M s t s', (M + 2 * B * nq (List.length ls) <= pow2 44)%Q -> pre M s t ->
  (forall l, In l ls -> held B s l /\ exists p co b, l_path (h_ls s l) = PRouted p co b) ->
  mfor ls (optimize_lsp E k bw) s = (s', Ok tt) ->
  exists t', mfor ls (FloatSim.optimize_lsp fl E k bw') t = (t', Ok tt) /\ pre (M + 2 * B * nq (List.length ls)) s' t' /\ (forall l, In l ls -> held B s' l) /\
    (forall l, ~ In l ls -> h_ls s' l = h_ls s l) /\ m_ifs s' = m_ifs s.
Proof.
  intros Sb Bb Pb BB. induction ls as [|l ls IH]; intros N M s t s' MM P W R.
  - injection R as <-. exists t. split; [reflexivity|]. split; [|split; [intros ? []|auto]]. eapply pre_mono; [|exact P]. cbn [List.length]. rewrite times_0. lra.
  - inversion N as [|? ? N1 N2]; subst. cbn [List.length] in MM |- *. rewrite times_S in MM. assert (T := times_pos (2 * B) (List.length ls) ltac:(lra)).
    apply mfor_cons_ok in R as (s1 & R1 & R2). destruct (W l (or_introl eq_refl)) as (W1 & p & co & b & W2).
    destruct (optimize_twin E k HE tr sh c M B s t l bw bw' s1 p co b B0 ltac:(lra) P W2 W1 Sb Bb Pb BB R1) as (t1 & R1' & P1 & HD).
    assert (O : (forall m, m <> l -> h_ls s1 m = h_ls s m) /\ m_ifs s1 = m_ifs s).
    { destruct (W1 _ _ _ W2) as (_ & _ & old & Hr & _). destruct (optimize_run E k s l bw p co b old W2 Hr s1 R1) as [[_ ->]|(q & b' & _ & _ & OS & _)]; [auto|].
      split; [apply (os_ls _ _ _ OS)|apply (os_ifs _ _ _ OS)]. }
    destruct O as [O1 O2].
    destruct (IH N2 (M + 2 * B)%Q s1 t1 s' ltac:(lra) P1) as (t' & R' & P' & H' & Ot & I').
    { intros m Hm. assert (m <> l) by (intros ->; auto). destruct (W m (or_intror Hm)) as (V1 & V2). split; [eapply held_frame; [now apply O1|exact O2|exact V1]|]. now rewrite O1. }
    { exact R2. }
    exists t'. cbn [mfor]. rewrite (bind_run _ _ _ _ _ R1'). split; [exact R'|]. split; [eapply pre_mono; [|exact P']; rewrite times_S; lra|]. split; [|split].
    + intros m [<-|Hm]; [|auto]. eapply held_frame; [now apply Ot|exact I'|exact HD].
    + intros m Hm. simpl in Hm. rewrite Ot by tauto. apply O1. intros ->. tauto.
    + congruence.
Qed.

(** One group *)
Lemma Qltb_ext a b x y : (a == x)%Q -> (b == y)%Q -> Qltb a b = Qltb x y.
Proof. intros A C. unfold Qltb. f_equal. now apply Qleb_ext. Qed.
Lemma filter_le {A} (f : A -> bool) l : (List.length (filter f l) <= List.length l)%nat.
Proof. induction l as [|x l IH]; simpl; auto. destruct (f x); simpl; lia. Qed.

Lemma group_twin M dg key lsps s t s' : NoDup lsps -> (0 <= M)%Q -> (M + 3 * B * nq (List.length lsps) <= pow2 44)%Q -> pre M s t ->
  let T := group_traffic s dg key in
  (FloatSim.group_traffic fl t dg key == T)%Q -> (0 <= T <= B)%Q -> (forall n, (1 <= n <= List.length lsps)%nat -> half (T / nq n)) ->
  (forall l x, In l lsps -> l_cfg (h_ls s l) = Some x -> half x /\ (Qabs x <= B)%Q /\ (0 <= x)%Q) ->
  route_lsp_group E k dg (key, lsps) s = (s', Ok tt) ->
  exists t', FloatSim.route_lsp_group fl E k dg (key, lsps) t = (t', Ok tt) /\ pre (M + 3 * B * nq (List.length lsps)) s' t' /\ (forall l, In l lsps -> held B s' l).
Proof.
  intros N M0 MM P T HT TB TH CF R. assert (N0 := nq_pos (List.length lsps)). assert (BN := times_pos B (List.length lsps) B0).
  assert (L3 : (3 * B * nq (List.length lsps) == 3 * (B * nq (List.length lsps)))%Q) by ring.
  destruct (Nat.eq_dec (List.length lsps) 0) as [Z|Z].
  { destruct lsps; [|discriminate]. unfold route_lsp_group in R. rewrite bind_gets in R. cbv zeta in R. cbn [mfor] in R. rewrite bind_ret, bind_gets in R. simpl in R. injection R as <-.
    exists t. split; [unfold FloatSim.route_lsp_group; rewrite bind_gets; cbv zeta; cbn [mfor]; rewrite bind_ret, bind_gets; reflexivity|]. split; [|intros l []].
    eapply pre_mono; [|exact P]. lra. }
  assert (B44 : (B <= pow2 44)%Q).
  { destruct (List.length lsps) as [|n]; [congruence|]. assert (X := times_S B n). assert (Y := times_pos B n B0). lra. }
  assert (SH : forall n, (1 <= n <= List.length lsps)%nat -> small (T / nq n) /\ (Qabs (T / nq n) <= B)%Q /\ (0 <= T / nq n)%Q).
  { intros n Hn. assert (1 <= nq n)%Q by (unfold nq; change 1%Q with (inject_Z 1); rewrite <- Zle_Qle; lia). assert (X : (Qabs (T / nq n) <= B)%Q).
    { rewrite Qabs_pos; [apply Qle_shift_div_r; [lra|]|apply Qle_shift_div_l; [lra|lra]].
      setoid_replace T with (T * 1)%Q by ring. eapply Qle_trans; [apply Qmult_le_compat_r; [apply (proj2 TB)|discriminate]|]. rewrite !(Qmult_comm B). apply Qmult_le_compat_r; auto. }
    split; [split; [apply TH, Hn|lra]|]. split; [exact X|]. apply Qle_shift_div_l; [lra|lra]. }
  unfold route_lsp_group in R. rewrite bind_gets in R. cbv zeta in R. unfold FloatSim.route_lsp_group. rewrite bind_gets. cbv zeta.
  fold T in R. set (T' := FloatSim.group_traffic fl t dg key) in *.
  apply bind_ok in R as (s1 & [] & R1 & R).
  set (x := if Qltb 0 T then _ else _) in R1. set (y := if Qltb 0 T' then _ else _).
  assert (XS : small x /\ (Qabs x <= B)%Q /\ (0 <= x)%Q /\ (y == x)%Q).
  { subst x y. rewrite (Qltb_ext 0 T' 0 T ltac:(reflexivity) HT). destruct (Qltb 0 T).
    - destruct (SH (List.length lsps) ltac:(lia)) as (S1 & S2 & S3). split; [exact S1|]. split; [exact S2|]. split; [exact S3|]. rewrite <- (small_fl _ S1). apply fl_ext. unfold nq. now rewrite HT.
    - split; [split; [exists 0%Z; reflexivity|vm_compute; discriminate]|]. split; [exact B0|]. split; [apply Qle_refl|reflexivity]. }
  destruct XS as (X1 & X2 & X4 & X3).
  destruct (dets x y lsps N M s t s1 ltac:(lra) P) as (t1 & R1' & P1 & H1).
  { intros l Hl. unfold wanted. destruct (l_cfg (h_ls s l)) as [q|] eqn:Q; [|auto]. destruct (CF l q Hl Q) as (C1 & C2 & C3). split; [split; [exact C1|lra]|]. split; [exact C2|]. split; [exact C3|discriminate]. }
  { exact R1. }
  rewrite (bind_run _ _ _ _ _ R1'). rewrite bind_gets in R. rewrite bind_gets.
  assert (RF : filter (fun l => not_unrouted (l_path (h_ls t1 l))) lsps = filter (fun l => not_unrouted (l_path (h_ls s1 l))) lsps).
  { apply filter_ext. intros l. apply (tw_notun _ _ _ _ _ (proj1 P1)). }
  rewrite RF. destruct (negb _ && negb _) eqn:D.
  2:{ injection R as <-. exists t1. split; [reflexivity|]. split; [|exact H1]. eapply pre_mono; [|exact P1]. lra. }
  set (rs := filter (fun l => not_unrouted (l_path (h_ls s1 l))) lsps) in *. assert (Lr : (List.length rs <= List.length lsps)%nat) by apply filter_le.
  apply andb_true_iff in D as [_ D]. apply negb_true_iff, Nat.eqb_neq in D.
  destruct (SH (List.length rs) ltac:(lia)) as (S1 & S2 & S3).
  assert (Ln : (2 * B * nq (List.length rs) <= 2 * B * nq (List.length lsps))%Q).
  { rewrite !(Qmult_comm (2 * B)). apply Qmult_le_compat_r; [|lra]. unfold nq. rewrite <- Zle_Qle. lia. }
  destruct (determine_loop E k HE lsps x s s1 (proj2 (proj2 P)) R1) as [Sg _].
  destruct (opts (T / nq (List.length rs)) (fl (T' / nq (List.length rs))) rs S1 S2 S3) with (M := (M + B * nq (List.length lsps))%Q) (s := s1) (t := t1) (s' := s') as (t' & R' & P' & H' & Ot & I').
  - rewrite <- (small_fl _ S1). apply fl_ext. now rewrite HT.
  - now apply NoDup_filter.
  - lra.
  - exact P1.
  - intros l Hl. apply filter_In in Hl as [Hl Hn]. split; [auto|]. apply not_unrouted_iff in Hn.
    destruct (signalling_settled _ _ _ Sg l) as [X|[X _]]; [now rewrite map_map, map_id| |tauto]. destruct X as (p & co & b & q & X & _). eauto.
  - exact R.
  - exists t'. split; [exact R'|]. split; [eapply pre_mono; [|exact P']; lra|]. intros l Hl. destruct (in_dec Nat.eq_dec l rs) as [I|I]; [auto|].
    eapply held_frame; [now apply Ot|exact I'|auto].
Qed.

(** All groups *)
Lemma Rsum_half l : forall a, (forall x, In x l -> half x /\ (0 <= x)%Q) -> half a -> (0 <= a)%Q -> (a + Qsum l <= pow2 44)%Q ->
  (fold_left (fun a x => fl (a + x)%Q) l a == a + Qsum l)%Q.
Proof.
  induction l as [|x l IH]; intros a H Ha A0 L; cbn [fold_left Qsum fold_right] in *; [ring|]. fold (Qsum l) in *. destruct (H x (or_introl eq_refl)) as [Hx X0].
  assert (S0 : (0 <= Qsum l)%Q). { assert (Z : forall y, In y l -> (0 <= y)%Q) by (intros y Hy; apply H; now right). clear -Z. induction l as [|y l IH]; [apply Qle_refl|]. cbn [Qsum fold_right]. fold (Qsum l).
    assert (X := Z y (or_introl eq_refl)). assert (Y := IH (fun z Hz => Z z (or_intror Hz))). lra. }
  assert (Sm : small (a + x)) by (split; [now apply half_plus|rewrite Qabs_pos; lra]). assert (F := small_fl _ Sm).
  rewrite IH; [rewrite F; ring|intros y Hy; apply H; now right| | |].
  - eapply half_compat; [symmetry; exact F|apply Sm].
  - rewrite F. lra.
  - rewrite F. lra.
Qed.
Lemma traffic_twin s t dg key : twin s t -> (forall ds d, dict_get key dg = Some ds -> In d ds -> half (d_traffic (h_dm s d)) /\ (0 <= d_traffic (h_dm s d))%Q) ->
  (group_traffic s dg key <= pow2 44)%Q -> (FloatSim.group_traffic fl t dg key == group_traffic s dg key)%Q.
Proof.
  intros H D L. unfold FloatSim.group_traffic, group_traffic in *. destruct (dict_get key dg) as [ds|] eqn:G; [|reflexivity].
  erewrite map_ext; [|intros d; destruct (tw_ddata _ _ _ _ _ H d) as (_ & _ & X & _); exact X]. unfold FloatSim.Rsum. rewrite Rsum_half; [ring| |exists 0%Z; reflexivity|apply Qle_refl|lra].
  intros x Hx. apply in_map_iff in Hx as (d & <- & Hd). eauto.
Qed.

Definition ready_group dg s (g : string * list nat) : Prop :=
  (forall ds d, dict_get (fst g) dg = Some ds -> In d ds -> half (d_traffic (h_dm s d)) /\ (0 <= d_traffic (h_dm s d))%Q) /\
  (0 <= group_traffic s dg (fst g) <= B)%Q /\ (forall n, (1 <= n <= List.length (snd g))%nat -> half (group_traffic s dg (fst g) / nq n)) /\
  (forall l x, In l (snd g) -> l_cfg (h_ls s l) = Some x -> half x /\ (Qabs x <= B)%Q /\ (0 <= x)%Q).
Lemma nq_plus a b : (nq (a + b) == nq a + nq b)%Q.
Proof. unfold nq. rewrite Nat2Z.inj_add, inject_Z_plus. reflexivity. Qed.
Lemma nodup_apart (a b : list nat) : NoDup (a ++ b) -> NoDup a /\ NoDup b /\ forall x, In x a -> ~ In x b.
Proof.
  induction a as [|x a IH]; simpl; intros H; [split; [constructor|auto]|]. inversion H as [|? ? H1 H2]; subst. destruct (IH H2) as (A & C & D). split; [|split; [exact C|]].
  - constructor; [|exact A]. intros X. apply H1, in_or_app. auto.
  - intros y [<-|Hy]; [|auto]. intros X. apply H1, in_or_app. auto.
Qed.
Lemma groups_twin dg gs : (B <= pow2 44)%Q -> NoDup (flat_map snd gs) -> forall M s t s', (0 <= M)%Q -> (M + 3 * B * nq (List.length (flat_map snd gs)) <= pow2 44)%Q -> pre M s t ->
  (forall g, In g gs -> ready_group dg s g) -> mfor gs (route_lsp_group E k dg) s = (s', Ok tt) ->
  exists t', mfor gs (FloatSim.route_lsp_group fl E k dg) t = (t', Ok tt) /\ pre (M + 3 * B * nq (List.length (flat_map snd gs))) s' t' /\ (forall l, In l (flat_map snd gs) -> held B s' l).
Proof.
  intros B44. induction gs as [|[key lsps] gs IH]; intros N M s t s' M0 MM P W R.
  - injection R as <-. exists t. split; [reflexivity|]. split; [|intros l []]. eapply pre_mono; [|exact P]. cbn [flat_map List.length]. rewrite times_0. lra.
  - cbn [flat_map snd] in *. rewrite app_length in *. apply nodup_apart in N as (N1 & N2 & N3). rewrite nq_plus in MM. rewrite Qmult_plus_distr_r in MM.
    assert (T1 := times_pos (3 * B) (List.length lsps) ltac:(lra)). assert (T2 := times_pos (3 * B) (List.length (flat_map snd gs)) ltac:(lra)).
    apply mfor_cons_ok in R as (s1 & R1 & R2). destruct (W _ (or_introl eq_refl)) as (W1 & W2 & W3 & W4). cbn [fst snd] in W1, W2, W3, W4.
    destruct (group_twin M dg key lsps s t s1 N1 M0 ltac:(lra) P (traffic_twin s t dg key (proj1 P) W1 ltac:(lra)) W2 W3 W4 R1) as (t1 & R1' & P1 & H1).
    destruct (group_run E k HE dg key lsps s s1 (proj2 (proj2 P)) R1) as (_ & _ & _ & F & _).
    destruct (IH N2 (M + 3 * B * nq (List.length lsps))%Q s1 t1 s' ltac:(lra) ltac:(lra) P1) as (t' & R' & P' & H').
    { intros g Hg. destruct (W g (or_intror Hg)) as (V1 & V2 & V3 & V4). unfold ready_group. rewrite (seq_traffic dg _ _ F (fst g)), (qf_dm _ _ F).
      split; [exact V1|]. split; [exact V2|]. split; [exact V3|]. intros l x Hl. rewrite (qf_ls _ _ F l). apply V4. exact Hl. }
    { exact R2. }
    exists t'. cbn [mfor]. rewrite (bind_run _ _ _ _ _ R1'). split; [exact R'|]. split; [eapply pre_mono; [|exact P']; rewrite nq_plus; lra|].
    destruct (groups_frame E k HE dg gs s1 s' (proj2 (proj2 P1)) R2) as (F2 & Ot & _).
    intros l Hl. apply in_app_or in Hl as [Hl|Hl]; [|auto]. eapply held_frame; [apply Ot, N3, Hl|apply (qf_sets _ _ F2)|auto].
Qed.
End Groups.
