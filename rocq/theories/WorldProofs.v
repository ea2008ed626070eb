(** WorldProofs.v - several models in one program. *)
From Verif Require Import Base Graph Objects Sim Api Spec SpecOwn World SpecWorld MonadProofs ObjProofs OwnApi.

Lemma nth_set_same {A} m (x : A) l : (m < List.length l)%nat -> nth_error (set_nth m x l) m = Some x.
Proof. revert m. induction l as [|y l IH]; simpl; intros [|m] H; auto; try lia. apply IH. lia. Qed.
Lemma nth_set_other {A} m (x : A) l n : n <> m -> nth_error (set_nth m x l) n = nth_error l n.
Proof. revert m n. induction l as [|y l IH]; simpl; intros [|m] [|n] H; auto; try congruence. apply IH. congruence. Qed.
Lemma nth_len {A} (l : list A) m x : nth_error l m = Some x -> (m < List.length l)%nat.
Proof. intros H. apply nth_error_Some. congruence. Qed.

(** both ways of storing the state after a call *)
Definition put (w : world) (m : nat) (o : model) (ri rn n' : nat) (t : st) : world :=
  mkWorld (h_if t) (h_nd t) (h_sr t) (h_dm t) (h_ls t) (s_next t) (s_rng t)
          (fupd (fupd (fupd (fupd (w_sets w) ri (m_ifs t)) rn (m_nds t)) (o_dms o) (m_dms t)) (o_lsps o) (m_lsps t)) n'
          (set_nth m (mkModel (o_kind o) ri rn (o_dms o) (o_lsps o) (m_srs t) (m_ckts t) (m_groups t)) (w_models w)).

Lemma call_put E w m c o : nth_error (w_models w) m = Some o ->
  let t := fst (run_op E (o_kind o) c (view w o)) in
  (wstep E (WCall m c) w = put w m o (o_ifs o) (o_nds o) (w_nset w) t) \/
  (wstep E (WCall m c) w = put w m o (w_nset w) (S (w_nset w)) (2 + w_nset w) t /\ exists l, c = OpAddInterfaces l).
Proof. intros H t. simpl. rewrite H. destruct c; try (left; reflexivity). destruct (rebinds _ _); [right; split; eauto|left]; reflexivity. Qed.

Record wf_world (f : nat -> nat) (w : world) : Prop := {
  ww_def : forall d, (d < 4)%nat -> f d = d /\ f (4 + d)%nat = d;
  ww_sort : forall b o, nth_error (w_models w) b = Some o -> f (o_ifs o) = 0%nat /\ f (o_nds o) = 1%nat /\ f (o_dms o) = 2%nat /\ f (o_lsps o) = 3%nat;
  ww_eight : (8 <= w_nset w)%nat;
  ww_bound : forall b o r, nth_error (w_models w) b = Some o -> In r (refs o) -> (r < w_nset w)%nat;
  ww_groups : forall b o, nth_error (w_models w) b = Some o -> own_groups (view w o) }.

Lemma wf_start : wf_world (fun d => match d with 4 => 0 | 5 => 1 | 6 => 2 | 7 => 3 | _ => d end)%nat start_world.
Proof. constructor; simpl; auto; try (intros [|b] ?; discriminate); try (intros [|b] ? ?; discriminate). intros d H. do 4 (destruct d as [|d]; [auto|]). lia. Qed.

(** the state that a call leaves *)
Lemma call_touched E k c s : own_groups s -> touched (given_ifs c) (given_nodes c) (given_lsps c) s (fst (run_op E k c s)) /\ own_groups (fst (run_op E k c s)).
Proof.
  intros G. apply (history_touched E k (given_ifs c) (given_nodes c) (given_lsps c) [c] s G). intros o [<-|[]]. repeat split; apply incl_refl.
Qed.

Section Put.
Variables (f : nat -> nat) (w : world) (m : nat) (o : model) (ri rn n' : nat) (t : st) (gi gn gl : list nat).
Hypothesis W : wf_world f w.
Hypothesis Ho : nth_error (w_models w) m = Some o.
Hypothesis T : touched gi gn gl (view w o) t.
Hypothesis G : own_groups t.
Hypothesis F : f ri = 0%nat /\ f rn = 1%nat.
Notation w' := (put w m o ri rn n' t).
Let F2 : f (o_dms o) = 2%nat /\ f (o_lsps o) = 3%nat. Proof. destruct (ww_sort _ _ W m o Ho); tauto. Qed.

Lemma put0 r : f r = 0%nat -> w_sets w' r = if Nat.eqb r ri then m_ifs t else w_sets w r.
Proof. intros Hr. destruct F as [Fa Fb], F2 as [Fc Fd]. simpl. rewrite !(fupd_other _ (o_lsps o)), !(fupd_other _ (o_dms o)), (fupd_other _ rn) by congruence. unfold fupd. destruct (Nat.eqb_spec r ri), (Nat.eqb_spec ri r); congruence. Qed.
Lemma put1 r : f r = 1%nat -> w_sets w' r = if Nat.eqb r rn then m_nds t else w_sets w r.
Proof. intros Hr. destruct F as [Fa Fb], F2 as [Fc Fd]. simpl. rewrite !(fupd_other _ (o_lsps o)), !(fupd_other _ (o_dms o)) by congruence. unfold fupd at 1. destruct (Nat.eqb_spec r rn), (Nat.eqb_spec rn r); try congruence. apply fupd_other. congruence. Qed.
Lemma put2 r : f r = 2%nat -> w_sets w' r = if Nat.eqb r (o_dms o) then m_dms t else w_sets w r.
Proof. intros Hr. destruct F as [Fa Fb], F2 as [Fc Fd]. simpl. rewrite !(fupd_other _ (o_lsps o)) by congruence. unfold fupd at 1. destruct (Nat.eqb_spec r (o_dms o)), (Nat.eqb_spec (o_dms o) r); try congruence. rewrite !fupd_other by congruence. reflexivity. Qed.
Lemma put3 r : f r = 3%nat -> w_sets w' r = if Nat.eqb r (o_lsps o) then m_lsps t else w_sets w r.
Proof. intros Hr. destruct F as [Fa Fb], F2 as [Fc Fd]. simpl. unfold fupd at 1. destruct (Nat.eqb_spec r (o_lsps o)), (Nat.eqb_spec (o_lsps o) r); try congruence. rewrite !fupd_other by congruence. reflexivity. Qed.

Lemma put_model b x : nth_error (w_models w') b = Some x -> (b <> m /\ nth_error (w_models w) b = Some x) \/ (b = m /\ x = mkModel (o_kind o) ri rn (o_dms o) (o_lsps o) (m_srs t) (m_ckts t) (m_groups t)).
Proof.
  simpl. intros H. destruct (Nat.eq_dec b m) as [->|N]; [right|left; split; auto; now rewrite nth_set_other in H by auto].
  rewrite nth_set_same in H by (eapply nth_len; eauto). injection H as <-. auto.
Qed.

Hypothesis Hn : (ri < n' /\ rn < n' /\ w_nset w <= n')%nat.
Lemma put_wf : wf_world f w'.
Proof.
  constructor.
  - apply (ww_def _ _ W).
  - intros b x H. apply put_model in H as [[N H]|[-> ->]]; [exact (ww_sort _ _ W b x H)|]. simpl. destruct F, F2. auto.
  - simpl. pose proof (ww_eight _ _ W). lia.
  - intros b x r H Hr. simpl w_nset. apply put_model in H as [[N H]|[-> ->]]; [pose proof (ww_bound _ _ W b x r H Hr); lia|]. simpl in Hr.
    pose proof (ww_bound _ _ W m o (o_dms o) Ho) as B1. pose proof (ww_bound _ _ W m o (o_lsps o) Ho) as B2. unfold refs in B1, B2. simpl in B1, B2.
    assert (o_dms o < w_nset w /\ o_lsps o < w_nset w)%nat by tauto. destruct Hr as [<-|[<-|[<-|[<-|[]]]]]; lia.
  - intros b x H. assert (S3 : w_sets w' (o_lsps o) = m_lsps t) by (rewrite put3 by apply F2; now rewrite Nat.eqb_refl).
    apply put_model in H as [[N H]|[-> ->]].
    + intros key ls l A B. pose proof (ww_groups _ _ W b x H key ls l A B) as C. change (In l (w_sets w' (o_lsps x))). change (In l (w_sets w (o_lsps x))) in C.
      destruct (ww_sort _ _ W b x H) as (_ & _ & _ & Fx). rewrite put3 by auto. destruct (Nat.eqb_spec (o_lsps x) (o_lsps o)) as [e|e]; auto. rewrite e in C.
      apply (proj1 (tc_m_lsps _ _ _ _ _ T)). exact C.
    + intros key ls l A B. change (In l (w_sets w' (o_lsps o))). rewrite S3. exact (G key ls l A B).
Qed.
End Put.

Lemma nth_snoc {A} (l : list A) x b y : nth_error (l ++ [x]) b = Some y -> (b < List.length l /\ nth_error l b = Some y)%nat \/ (b = List.length l /\ y = x).
Proof.
  intros H. destruct (Nat.lt_ge_cases b (List.length l)) as [L|L]; [left; split; auto; now rewrite nth_error_app1 in H|]. right. rewrite nth_error_app2 in H by auto.
  destruct (b - List.length l)%nat as [|[|n]] eqn:D; simpl in H; try discriminate H. injection H as <-. split; auto. lia.
Qed.

Definition ext (f : nat -> nat) (n : nat) : nat -> nat := fun r => if (n <=? r)%nat then (r - n)%nat else f r.
Lemma ext_low f n r : (r < n)%nat -> ext f n r = f r.
Proof. intros H. unfold ext. destruct (Nat.leb_spec n r); [lia|auto]. Qed.
Lemma ext_at f n d : ext f n (d + n)%nat = d.
Proof. unfold ext. destruct (Nat.leb_spec n (d + n)); lia. Qed.
Lemma ext_wf f w : wf_world f w -> wf_world (ext f (w_nset w)) w.
Proof.
  intros W. pose proof (ww_eight _ _ W). constructor; try apply W.
  - intros d Hd. rewrite !ext_low by lia. now apply (ww_def _ _ W).
  - intros b o H'. pose proof (ww_bound _ _ W b o) as B. unfold refs in B. simpl in B. rewrite !ext_low by (eapply B; eauto; tauto). now apply (ww_sort _ _ W b).
Qed.

Lemma wf_step E f x w : wf_world f w -> exists f', wf_world f' (wstep E x w).
Proof.
  intros W. destruct x as [k|k li ln ld ll|m c].
  - exists f. constructor; try apply W.
    + intros b o H. apply nth_snoc in H as [[_ H]|[_ ->]]; [exact (ww_sort _ _ W b o H)|]. simpl. pose proof (ww_def _ _ W 0%nat) as D0. pose proof (ww_def _ _ W 1%nat) as D1. pose proof (ww_def _ _ W 2%nat) as D2. pose proof (ww_def _ _ W 3%nat) as D3. simpl in *.
      destruct k; simpl; repeat split; first [apply D0|apply D1|apply D2|apply D3]; lia.
    + intros b o r H Hr. apply nth_snoc in H as [[_ H]|[_ ->]]; [exact (ww_bound _ _ W b o r H Hr)|]. pose proof (ww_eight _ _ W). simpl in *. destruct k; simpl in Hr; lia.
    + intros b o H. apply nth_snoc in H as [[_ H]|[_ ->]]; [exact (ww_groups _ _ W b o H)|]. intros key ls l [].
  - exists (ext f (w_nset w)). pose proof (ext_wf _ _ W) as W'. pose proof (ww_eight _ _ W). constructor; try apply W'.
    + intros b o H'. apply nth_snoc in H' as [[_ H']|[_ ->]]; [exact (ww_sort _ _ W' b o H')|]. simpl.
      repeat split; [apply (ext_at f _ 0)|apply (ext_at f _ 1)|apply (ext_at f _ 2)|apply (ext_at f _ 3)].
    + simpl. lia.
    + intros b o r H' Hr. simpl w_nset. apply nth_snoc in H' as [[_ H']|[_ ->]]; [pose proof (ww_bound _ _ W b o r H' Hr); lia|]. simpl in *. lia.
    + intros b o H'. apply nth_snoc in H' as [[_ H']|[_ ->]]; [|intros key ls l []]. intros key ls l A B. pose proof (ww_groups _ _ W b o H' key ls l A B) as C.
      simpl in *. pose proof (ww_bound _ _ W b o (o_lsps o) H') as B'. unfold refs in B'. simpl in B'. assert (o_lsps o < w_nset w)%nat by tauto. rewrite !fupd_other by lia. exact C.
  - destruct (nth_error (w_models w) m) as [o|] eqn:Ho; [|exists f; simpl; now rewrite Ho].
    destruct (call_touched E (o_kind o) c (view w o) (ww_groups _ _ W m o Ho)) as [T G].
    destruct (call_put E w m c o Ho) as [-> | [-> _]].
    + exists f. pose proof (ww_bound _ _ W m o) as B. unfold refs in B. simpl in B. destruct (ww_sort _ _ W m o Ho) as (? & ? & _ & _).
      eapply put_wf; eauto. repeat split; auto; apply B; tauto.
    + exists (ext f (w_nset w)). eapply put_wf; eauto using ext_wf; [split; [apply (ext_at f _ 0)|apply (ext_at f _ 1)]|lia].
Qed.
Lemma wf_run E l : forall f w, wf_world f w -> exists f', wf_world f' (wrun E l w).
Proof. induction l as [|x l IH]; simpl; intros f w W; eauto. destruct (wf_step E f x w W) as [f' W']. eauto. Qed.

(** ** Models with their own sets *)
Lemma own_step E f x w a o : wf_world f w -> own_sets w a o -> not_on a x -> own_sets (wstep E x w) a o.
Proof.
  intros W (A & B & C) N. pose proof (fun r => ww_bound _ _ W a o r A) as L. assert (La := nth_len _ _ _ A). destruct x as [k|k li ln ld ll|m c].
  - split; [simpl; now rewrite nth_error_app1|]. split; [exact B|]. intros b o' r Nb H Hr. apply nth_snoc in H as [[_ H]|[_ ->]]; [eapply C; eauto|].
    destruct (B r Hr) as (?&?&?&?&?&?&?&?). destruct k; simpl; intuition congruence.
  - split; [simpl; now rewrite nth_error_app1|]. split; [exact B|]. intros b o' r Nb H Hr. apply nth_snoc in H as [[_ H]|[_ ->]]; [eapply C; eauto|].
    specialize (L r Hr). simpl. lia.
  - simpl in N. destruct (nth_error (w_models w) m) as [om|] eqn:Ho; [|unfold own_sets; simpl; rewrite Ho; repeat split; auto; apply B; auto].
    assert (X : forall ri rn n' t, (ri = o_ifs om \/ w_nset w <= ri)%nat -> (rn = o_nds om \/ w_nset w <= rn)%nat -> own_sets (put w m om ri rn n' t) a o).
    { intros ri rn n' t Hi Hn. split; [simpl; now rewrite nth_set_other by auto|]. split; [exact B|]. intros b o' r Nb H Hr.
      apply put_model in H as [[_ H]|[-> ->]]; auto; [eapply C; eauto|]. specialize (L r Hr). pose proof (C m om r Nb Ho Hr) as C'. unfold refs in *. simpl in *. intuition lia. }
    destruct (call_put E w m c om Ho) as [-> | [-> _]]; apply X; auto.
Qed.

Section Guard.
Variables (a : nat) (o : model) (w0 : world).
Variables PI PN PD PL PS : nat -> Prop.
Record guarded (w : world) : Prop := {
  gu_next : (w_next w0 <= w_next w)%nat;
  gu_own : own_sets w a o;
  gu_hold : same_holdings o w0 w;
  gu_out : forall b o', b <> a -> nth_error (w_models w) b = Some o' ->
    (forall x, PI x -> ~ In x (w_sets w (o_ifs o'))) /\ (forall x, PN x -> ~ In x (w_sets w (o_nds o'))) /\
    (forall x, PD x -> ~ In x (w_sets w (o_dms o'))) /\ (forall x, PL x -> ~ In x (w_sets w (o_lsps o'))) /\ (forall x, PS x -> ~ In x (o_srs o'));
  gu_def : forall k, (forall x, PI x -> ~ In x (w_sets w (default_sets k))) /\ (forall x, PN x -> ~ In x (w_sets w (S (default_sets k)))) /\
    (forall x, PD x -> ~ In x (w_sets w (S (S (default_sets k))))) /\ (forall x, PL x -> ~ In x (w_sets w (S (S (S (default_sets k))))));
  gu_if : forall x, PI x -> w_if w x = w_if w0 x;
  gu_nd : forall x, PN x -> w_nd w x = w_nd w0 x;
  gu_dm : forall x, PD x -> w_dm w x = w_dm w0 x;
  gu_ls : forall x, PL x -> w_ls w x = w_ls w0 x;
  gu_sr : forall x, PS x -> w_sr w x = w_sr w0 x }.

Hypothesis HI : forall x, PI x -> (x < w_next w0)%nat.
Hypothesis HN : forall x, PN x -> (x < w_next w0)%nat.
Hypothesis HD : forall x, PD x -> (x < w_next w0)%nat.
Hypothesis HL : forall x, PL x -> (x < w_next w0)%nat.
Hypothesis HS : forall x, PS x -> (x < w_next w0)%nat.

Lemma guard_step E f x w : wf_world f w -> not_on a x -> (forall y, PI y -> ~ In y (wgiven_ifs x)) -> (forall y, PN y -> ~ In y (wgiven_nds x)) ->
  (forall y, PD y -> ~ In y (wgiven_dms x)) -> (forall y, PL y -> ~ In y (wgiven_lsps x)) -> guarded w -> guarded (wstep E x w).
Proof.
  intros W N G1 G2 G3 G4 [A B C D D' H1 H2 H3 H4 H5]. pose proof (own_step E f x w a o W B N) as B'. pose proof (ww_eight _ _ W) as E8.
  assert (L : forall r, In r (refs o) -> (r < w_nset w)%nat) by (intros r; apply (ww_bound _ _ W a o); apply B). unfold refs in L. simpl in L.
  destruct x as [k|k li ln ld ll|m c].
  - constructor; auto. intros b o' Nb H. apply nth_snoc in H as [[_ H]|[_ ->]]; [eapply D; eauto|]. simpl. destruct (D' k) as (?&?&?&?). auto 10.
  - simpl in *. constructor; auto.
    + destruct C as (C1 & C2 & C3 & C4). assert (o_ifs o < w_nset w /\ o_nds o < w_nset w /\ o_dms o < w_nset w /\ o_lsps o < w_nset w)%nat by (repeat split; apply L; tauto).
      unfold same_holdings. simpl. rewrite !fupd_other by lia. auto.
    + intros b o' Nb H. apply nth_snoc in H as [[_ H]|[_ ->]].
      * pose proof (fun r => ww_bound _ _ W b o' r H) as L'. unfold refs in L'. simpl in L'. assert (o_ifs o' < w_nset w /\ o_nds o' < w_nset w /\ o_dms o' < w_nset w /\ o_lsps o' < w_nset w)%nat by (repeat split; apply L'; tauto).
        simpl. rewrite !fupd_other by lia. eapply D; eauto.
      * simpl. rewrite !fupd_same, !fupd_other by lia. rewrite !fupd_same, !fupd_other by lia. rewrite !fupd_same, !fupd_other by lia. rewrite !fupd_same. repeat split; auto.
    + intros k'. assert (S (S (S (default_sets k'))) < w_nset w)%nat by (destruct k'; simpl; lia). simpl. rewrite !fupd_other by lia. apply D'.
  - simpl in N. destruct (nth_error (w_models w) m) as [om|] eqn:Ho; [|simpl; rewrite Ho; constructor; auto].
    destruct (call_touched E (o_kind om) c (view w om) (ww_groups _ _ W m om Ho)) as [T G]. simpl in G1, G2, G3, G4.
    destruct (D m om N Ho) as (D1 & D2 & D3 & D4 & D5).
    pose proof (tc_next _ _ _ _ _ T) as TN. simpl in TN.
    set (t := fst (run_op E (o_kind om) c (view w om))) in *.
    assert (K1 : forall x, PI x -> ~ In x (m_ifs t)) by (intros x Hx Y; specialize (HI x Hx); destruct (proj2 (tc_m_ifs _ _ _ _ _ T) x Y) as [Z|Z]; simpl in Z; [eapply D1; eauto|lia]).
    assert (K2 : forall x, PN x -> ~ In x (m_nds t)) by (intros x Hx Y; specialize (HN x Hx); destruct (proj2 (tc_m_nds _ _ _ _ _ T) x Y) as [Z|[Z|Z]]; simpl in Z; [eapply D2; eauto|lia|eapply G2; eauto]).
    assert (K3 : forall x, PD x -> ~ In x (m_dms t)) by (intros x Hx Y; specialize (HD x Hx); destruct (proj2 (tc_m_dms _ _ _ _ _ T) x Y) as [Z|Z]; simpl in Z; [eapply D3; eauto|lia]).
    assert (K4 : forall x, PL x -> ~ In x (m_lsps t)) by (intros x Hx Y; specialize (HL x Hx); destruct (proj2 (tc_m_lsps _ _ _ _ _ T) x Y) as [Z|Z]; simpl in Z; [eapply D4; eauto|lia]).
    assert (K5 : forall x, PS x -> ~ In x (m_srs t)) by (intros x Hx Y; specialize (HS x Hx); destruct (proj2 (tc_m_srs _ _ _ _ _ T) x Y) as [Z|Z]; simpl in Z; [eapply D5; eauto|lia]).
    assert (X : forall f' ri rn n', wf_world f' w -> f' ri = 0%nat -> f' rn = 1%nat -> (ri = o_ifs om \/ w_nset w <= ri)%nat -> (rn = o_nds om \/ w_nset w <= rn)%nat ->
      own_sets (put w m om ri rn n' t) a o -> guarded (put w m om ri rn n' t)).
    { intros f' ri rn n' W' Fi Fn Ri Rn O'. pose proof (conj Fi Fn) as FF. constructor; auto.
      - simpl. lia.
      - destruct C as (C1 & C2 & C3 & C4). destruct (ww_sort _ _ W' a o (proj1 B)) as (S1 & S2 & S3 & S4).
        unfold same_holdings. rewrite (put0 f' w m om ri rn n' t W' Ho FF _ S1), (put1 f' w m om ri rn n' t W' Ho FF _ S2), (put2 f' w m om ri rn n' t W' Ho FF _ S3), (put3 f' w m om ri rn n' t W' Ho FF _ S4).
        pose proof (fun r => proj2 (proj2 B) m om r N Ho) as Dj. unfold refs in Dj. simpl in Dj.
        destruct (Nat.eqb_spec (o_ifs o) ri) as [e|_]; [exfalso; pose proof (L (o_ifs o)); pose proof (Dj (o_ifs o)); intuition lia|].
        destruct (Nat.eqb_spec (o_nds o) rn) as [e|_]; [exfalso; pose proof (L (o_nds o)); pose proof (Dj (o_nds o)); intuition lia|].
        destruct (Nat.eqb_spec (o_dms o) (o_dms om)) as [e|_]; [exfalso; pose proof (Dj (o_dms o)); intuition lia|].
        destruct (Nat.eqb_spec (o_lsps o) (o_lsps om)) as [e|_]; [exfalso; pose proof (Dj (o_lsps o)); intuition lia|]. auto.
      - intros b o' Nb H. apply put_model in H as [[_ H]|[-> ->]]; auto.
        + destruct (ww_sort _ _ W' b o' H) as (S1 & S2 & S3 & S4). destruct (D b o' Nb H) as (Q1 & Q2 & Q3 & Q4 & Q5).
          rewrite (put0 f' w m om ri rn n' t W' Ho FF _ S1), (put1 f' w m om ri rn n' t W' Ho FF _ S2), (put2 f' w m om ri rn n' t W' Ho FF _ S3), (put3 f' w m om ri rn n' t W' Ho FF _ S4).
          destruct (Nat.eqb _ ri), (Nat.eqb _ rn), (Nat.eqb _ (o_dms om)), (Nat.eqb _ (o_lsps om)); auto 10.
        + cbn [o_ifs o_nds o_dms o_lsps o_srs]. destruct (ww_sort _ _ W' m om Ho) as (_ & _ & S3 & S4).
          rewrite (put0 f' w m om ri rn n' t W' Ho FF _ Fi), (put1 f' w m om ri rn n' t W' Ho FF _ Fn), (put2 f' w m om ri rn n' t W' Ho FF _ S3), (put3 f' w m om ri rn n' t W' Ho FF _ S4).
          rewrite !Nat.eqb_refl. auto 10.
      - intros k. destruct (D' k) as (Q1 & Q2 & Q3 & Q4).
        assert (S0 : f' (default_sets k) = 0%nat /\ f' (S (default_sets k)) = 1%nat /\ f' (S (S (default_sets k))) = 2%nat /\ f' (S (S (S (default_sets k)))) = 3%nat).
        { pose proof (ww_def _ _ W' 0%nat) as Z0. pose proof (ww_def _ _ W' 1%nat) as Z1. pose proof (ww_def _ _ W' 2%nat) as Z2. pose proof (ww_def _ _ W' 3%nat) as Z3. simpl in *. destruct k; simpl; intuition lia. }
        destruct S0 as (S1 & S2 & S3 & S4).
        rewrite (put0 f' w m om ri rn n' t W' Ho FF _ S1), (put1 f' w m om ri rn n' t W' Ho FF _ S2), (put2 f' w m om ri rn n' t W' Ho FF _ S3), (put3 f' w m om ri rn n' t W' Ho FF _ S4).
        destruct (Nat.eqb _ ri), (Nat.eqb _ rn), (Nat.eqb _ (o_dms om)), (Nat.eqb _ (o_lsps om)); auto 10.
      - intros x Hx. transitivity (w_if w x); [|auto]. apply (tc_if _ _ _ _ _ T); [specialize (HI x Hx); simpl; lia|exact (D1 x Hx)|exact (G1 x Hx)].
      - intros x Hx. transitivity (w_nd w x); [|auto]. apply (tc_nd _ _ _ _ _ T); [specialize (HN x Hx); simpl; lia|exact (D2 x Hx)|exact (G2 x Hx)].
      - intros x Hx. transitivity (w_dm w x); [|auto]. apply (tc_dm _ _ _ _ _ T); [specialize (HD x Hx); simpl; lia|exact (D3 x Hx)].
      - intros x Hx. transitivity (w_ls w x); [|auto]. apply (tc_ls _ _ _ _ _ T); [specialize (HL x Hx); simpl; lia|exact (D4 x Hx)|exact (G4 x Hx)].
      - intros x Hx. transitivity (w_sr w x); [|auto]. apply (tc_sr _ _ _ _ _ T); [specialize (HS x Hx); simpl; lia|exact (D5 x Hx)]. }
    destruct (call_put E w m c om Ho) as [e | [e _]]; rewrite e in *.
    + destruct (ww_sort _ _ W m om Ho) as (S1 & S2 & _ & _). apply (X f); auto.
    + apply (X (ext f (w_nset w))); auto using ext_wf; [apply (ext_at f _ 0)|apply (ext_at f _ 1)].
Qed.
Lemma guard_run E l : forall f w, wf_world f w -> (forall x, In x l -> not_on a x) -> (forall y, PI y -> ~ In y (flat_map wgiven_ifs l)) -> (forall y, PN y -> ~ In y (flat_map wgiven_nds l)) ->
  (forall y, PD y -> ~ In y (flat_map wgiven_dms l)) -> (forall y, PL y -> ~ In y (flat_map wgiven_lsps l)) -> guarded w -> guarded (wrun E l w).
Proof.
  induction l as [|x l IH]; simpl; intros f w W N G1 G2 G3 G4 G; auto. destruct (wf_step E f x w W) as [f' W'].
  apply (IH f'); auto; try (intros y Hy Z; first [apply (G1 y Hy)|apply (G2 y Hy)|apply (G3 y Hy)|apply (G4 y Hy)]; apply in_or_app; now right).
  apply guard_step with f; auto; intros y Hy Z; first [apply (G1 y Hy)|apply (G2 y Hy)|apply (G3 y Hy)|apply (G4 y Hy)]; apply in_or_app; now left.
Qed.
End Guard.

Lemma separate E h0 h a o : own_sets (wrun E h0 start_world) a o -> (forall x, In x h -> not_on a x) ->
  nth_error (w_models (wrun E h (wrun E h0 start_world))) a = Some o /\
  same_holdings o (wrun E h0 start_world) (wrun E h (wrun E h0 start_world)) /\
  spared_objects h a (wrun E h0 start_world) (wrun E h (wrun E h0 start_world)).
Proof.
  destruct (wf_run E h0 _ _ wf_start) as [f W]. revert W. generalize (wrun E h0 start_world). intros w W O N.
  assert (G : guarded a o w (fun i => (i < w_next w)%nat /\ ~ other_if w a i /\ ~ In i (flat_map wgiven_ifs h)) (fun i => (i < w_next w)%nat /\ ~ other_nd w a i /\ ~ In i (flat_map wgiven_nds h))
     (fun i => (i < w_next w)%nat /\ ~ other_dm w a i /\ ~ In i (flat_map wgiven_dms h)) (fun i => (i < w_next w)%nat /\ ~ other_ls w a i /\ ~ In i (flat_map wgiven_lsps h))
     (fun i => (i < w_next w)%nat /\ ~ other_sr w a i) (wrun E h w)).
  { apply (guard_run a o w _ _ _ _ _) with f; try tauto. constructor; auto.
    - repeat split.
    - intros b o' Nb H. repeat split; intros x Hx Y; apply (proj1 (proj2 Hx)) || apply (proj2 Hx); [left|left|left|left|]; exists b, o'; auto.
    - intros k. repeat split; intros x Hx Y; apply (proj1 (proj2 Hx)); right; destruct k; auto. }
  destruct G as [A B C _ _ H1 H2 H3 H4 H5]. split; [apply B|]. split; [exact C|]. constructor; auto.
Qed.

(** a model made from new sets keeps having its own sets *)
Lemma own_new E h0 k li ln ld ll : exists o, own_sets (wstep E (WWith k li ln ld ll) (wrun E h0 start_world)) (List.length (w_models (wrun E h0 start_world))) o /\
  view (wstep E (WWith k li ln ld ll) (wrun E h0 start_world)) o =
    (let s := view (wrun E h0 start_world) o in mkSt (h_if s) (h_nd s) (h_sr s) (h_dm s) (h_ls s) li ln ld ll [] [] [] (s_next s) (s_rng s)).
Proof.
  destruct (wf_run E h0 _ _ wf_start) as [f W]. revert W. generalize (wrun E h0 start_world). intros w W. pose proof (ww_eight _ _ W).
  exists (mkModel k (w_nset w) (S (w_nset w)) (S (S (w_nset w))) (S (S (S (w_nset w)))) [] [] []). split; [split; [|split]|].
  - simpl. rewrite nth_error_app2, Nat.sub_diag; auto.
  - simpl. intros r Hr. lia.
  - intros b o' r Nb Hb Hr. simpl in Hb. apply nth_snoc in Hb as [[_ Hb]|[-> _]]; [|congruence]. intros Hr'. pose proof (ww_bound _ _ W b o' r Hb Hr'). simpl in Hr. lia.
  - unfold view. simpl. rewrite !fupd_same, !fupd_other by lia. rewrite !fupd_same, !fupd_other by lia. rewrite !fupd_same, !fupd_other by lia. now rewrite fupd_same.
Qed.
Lemma own_any E f x w a o : wf_world f w -> own_sets w a o -> exists o', own_sets (wstep E x w) a o'.
Proof.
  intros W O. assert (X : not_on a x \/ exists c, x = WCall a c).
  { destruct x as [| |m c]; simpl; auto. destruct (Nat.eq_dec m a) as [->|]; eauto. }
  destruct X as [N|[c ->]]; [exists o; eapply own_step; eauto|]. destruct O as (A & B & C). pose proof (fun r => ww_bound _ _ W a o r A) as L. pose proof (ww_eight _ _ W).
  assert (Y : forall ri rn n' t, (ri = o_ifs o /\ rn = o_nds o \/ w_nset w <= ri /\ w_nset w <= rn)%nat -> exists o', own_sets (put w a o ri rn n' t) a o').
  { intros ri rn n' t Hi. eexists. split; [simpl; apply nth_set_same; eapply nth_len; eauto|]. split.
    - simpl. intros r Hr. pose proof (B r) as Br. unfold refs in Br. simpl in Br. destruct Hi as [[-> ->]|[Hi Hn]]; [apply Br; tauto|]. destruct Hr as [<-|[<-|Hr]]; [lia|lia|apply Br; tauto].
    - intros b o' r Nb Hb Hr. apply (put_model _ _ _ _ _ _ _ A) in Hb as [[_ Hb]|[Z _]]; [|congruence]. intros Hr'. pose proof (ww_bound _ _ W b o' r Hb Hr') as Lr.
      pose proof (C b o' r Nb Hb) as Cr. unfold refs in Cr, Hr. simpl in Cr, Hr. apply Cr; auto. destruct Hi as [[-> ->]|[Hi Hn]]; auto. destruct Hr as [<-|[<-|Hr]]; [lia|lia|tauto]. }
  destruct (call_put E w a c o A) as [-> | [-> _]]; apply Y; auto.
Qed.
Lemma own_run E l : forall f w a o, wf_world f w -> own_sets w a o -> exists o', own_sets (wrun E l w) a o'.
Proof.
  induction l as [|x l IH]; simpl; intros f w a o W O; eauto. destruct (own_any E f x w a o W O) as [o' O']. destruct (wf_step E f x w W) as [f' W']. eauto.
Qed.

(** ** Models made from the default arguments *)
Lemma step_refs E x w b o : nth_error (w_models w) b = Some o -> exists o', nth_error (w_models (wstep E x w)) b = Some o' /\
  o_kind o' = o_kind o /\ o_dms o' = o_dms o /\ o_lsps o' = o_lsps o /\ (not_listing b x -> o_ifs o' = o_ifs o /\ o_nds o' = o_nds o).
Proof.
  intros H. assert (Lb := nth_len _ _ _ H). destruct x as [k|k li ln ld ll|m c]; try (exists o; split; [simpl; now rewrite nth_error_app1|auto]).
  destruct (nth_error (w_models w) m) as [om|] eqn:Ho; [|exists o; simpl; rewrite Ho; auto 10].
  destruct (Nat.eq_dec b m) as [->|N].
  - rewrite H in Ho. injection Ho as <-. destruct (call_put E w m c o H) as [-> | [-> [l ->]]]; eexists; (split; [simpl; now apply nth_set_same|]); simpl; auto.
    repeat split; auto; congruence.
  - exists o. split; [|auto]. destruct (call_put E w m c om Ho) as [-> | [-> _]]; simpl; now rewrite nth_set_other.
Qed.
Lemma run_refs E l : forall w b o, nth_error (w_models w) b = Some o -> exists o', nth_error (w_models (wrun E l w)) b = Some o' /\
  o_kind o' = o_kind o /\ o_dms o' = o_dms o /\ o_lsps o' = o_lsps o /\ ((forall x, In x l -> not_listing b x) -> o_ifs o' = o_ifs o /\ o_nds o' = o_nds o).
Proof.
  induction l as [|x l IH]; simpl; intros w b o H; [exists o; auto 10|]. destruct (step_refs E x w b o H) as (o1 & H1 & A1 & B1 & C1 & D1).
  destruct (IH _ b o1 H1) as (o2 & H2 & A2 & B2 & C2 & D2). exists o2. split; auto. rewrite A2, B2, C2. repeat split; auto; destruct D2; auto; destruct D1; auto; congruence.
Qed.

(** the default arguments stay empty until they are used *)
Definition class_sets (k : kind) (r : nat) : Prop := (default_sets k <= r < 4 + default_sets k)%nat.
Lemma default_empty E k l : forall f w, wf_world f w -> (forall x, In x l -> x <> WNew k) -> (forall b o r, nth_error (w_models w) b = Some o -> In r (refs o) -> ~ class_sets k r) ->
  (forall r, class_sets k r -> w_sets w r = []) -> forall r, class_sets k r -> w_sets (wrun E l w) r = [].
Proof.
  induction l as [|x l IH]; simpl; intros f w W N H Z; auto. destruct (wf_step E f x w W) as [f' W']. pose proof (ww_eight _ _ W) as E8.
  assert (B8 : forall r, class_sets k r -> (r < 8)%nat) by (unfold class_sets; destruct k; simpl; intros; lia).
  apply (IH f'); auto; clear IH.
  - destruct x as [k'|k' li ln ld ll|m c].
    + intros b o r Hb Hr C. apply nth_snoc in Hb as [[_ Hb]|[_ ->]]; [exact (H b o r Hb Hr C)|]. assert (k' <> k) by (intros ->; apply (N (WNew k)); auto).
      unfold class_sets in C. destruct k, k'; try congruence; simpl in *; lia.
    + intros b o r Hb Hr C. apply nth_snoc in Hb as [[_ Hb]|[_ ->]]; [exact (H b o r Hb Hr C)|]. apply B8 in C. simpl in Hr. lia.
    + destruct (nth_error (w_models w) m) as [om|] eqn:Ho; [|simpl; now rewrite Ho]. intros b o r Hb Hr C. pose proof (H m om r Ho) as Hm. unfold refs in Hm. simpl in Hm. pose proof (B8 r C).
      destruct (call_put E w m c om Ho) as [e | [e _]]; rewrite e in Hb; apply put_model in Hb as [[_ Hb]|[-> ->]]; auto; try exact (H b o r Hb Hr C); simpl in Hr; [tauto|].
      destruct Hr as [<-|[<-|Hr]]; [lia|lia|tauto].
  - intros r C. pose proof (B8 r C). destruct x as [k'|k' li ln ld ll|m c]; [exact (Z r C)|simpl; rewrite !fupd_other by lia; exact (Z r C)|].
    destruct (nth_error (w_models w) m) as [om|] eqn:Ho; [|simpl; rewrite Ho; auto]. pose proof (fun q => H m om q Ho) as Hm. unfold refs in Hm. simpl in Hm.
    assert (o_ifs om <> r /\ o_nds om <> r /\ o_dms om <> r /\ o_lsps om <> r) as (?&?&?&?) by (repeat split; intros e; apply (Hm r); tauto).
    destruct (call_put E w m c om Ho) as [-> | [-> _]]; simpl; rewrite !fupd_other by lia; auto.
Qed.

(** ** A program with one model *)
Lemma single_step E f w m o c : wf_world f w -> nth_error (w_models w) m = Some o -> exists o', nth_error (w_models (wstep E (WCall m c) w)) m = Some o' /\ o_kind o' = o_kind o /\
  view (wstep E (WCall m c) w) o' = fst (run_op E (o_kind o) c (view w o)).
Proof.
  intros W H. set (t := fst (run_op E (o_kind o) c (view w o))).
  assert (X : forall f' ri rn n', wf_world f' w -> f' ri = 0%nat -> f' rn = 1%nat -> exists o', nth_error (w_models (put w m o ri rn n' t)) m = Some o' /\ o_kind o' = o_kind o /\ view (put w m o ri rn n' t) o' = t).
  { intros f' ri rn n' W' Fi Fn. eexists. split; [simpl; apply nth_set_same; eapply nth_len; eauto|]. split; [reflexivity|]. destruct (ww_sort _ _ W' m o H) as (_ & _ & S3 & S4). unfold view. cbn [o_ifs o_nds o_dms o_lsps o_srs o_ckts o_groups].
    rewrite (put0 f' w m o ri rn n' t W' H (conj Fi Fn) _ Fi), (put1 f' w m o ri rn n' t W' H (conj Fi Fn) _ Fn), (put2 f' w m o ri rn n' t W' H (conj Fi Fn) _ S3), (put3 f' w m o ri rn n' t W' H (conj Fi Fn) _ S4).
    rewrite !Nat.eqb_refl. simpl. now destruct t. }
  destruct (call_put E w m c o H) as [-> | [-> _]].
  - destruct (ww_sort _ _ W m o H) as (S1 & S2 & _ & _). eapply X; eauto.
  - apply (X (ext f (w_nset w))); auto using ext_wf; [apply (ext_at f _ 0)|apply (ext_at f _ 1)].
Qed.
Lemma single_run E m l : forall f w o, wf_world f w -> nth_error (w_models w) m = Some o -> exists o', nth_error (w_models (wrun E (map (WCall m) l) w)) m = Some o' /\
  view (wrun E (map (WCall m) l) w) o' = run_ops E (o_kind o) l (view w o).
Proof.
  induction l as [|c l IH]; intros f w o W H; [exists o; auto|]. change (map (WCall m) (c :: l)) with (WCall m c :: map (WCall m) l). cbn [wrun].
  destruct (single_step E f w m o c W H) as (o1 & H1 & K1 & V1). destruct (wf_step E f (WCall m c) w W) as [f' W'].
  destruct (IH f' _ o1 W' H1) as (o2 & H2 & V2). exists o2. split; auto. rewrite V2, V1, K1. reflexivity.
Qed.
