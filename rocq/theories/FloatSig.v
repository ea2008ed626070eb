(** FloatSig.v - signalling LSPs in floating point arithmetic, when all amounts are
    multiples of a half. *)
From Verif Require Import Base Graph Objects Sim Spec SpecCkt Float GraphProofs ObjProofs MonadProofs RoundProofs FloatProofs ResProofs PathProofs QuietProofs CircuitProofs RouteProofs TrafficProofs FloatLock LeastProofs OrderProofs SpecSig SigProofs SigSeq ResigProofs.
From Verif Require FloatSim.
From Coq Require Import Lqa.

Definition small (x : Q) : Prop := half x /\ (Qabs x <= pow2 44)%Q.
Lemma small_fl x : small x -> (fl x == x)%Q.
Proof. intros [H B]. apply fl_half; auto. assert (T : (pow2 44 < pow2 52)%Q) by reflexivity. lra. Qed.
Lemma half_round1 x : half x -> (round1 x == x)%Q.
Proof. intros H. apply round1_near; [now apply half_tenth|]. setoid_replace (x - x)%Q with 0%Q by ring. reflexivity. Qed.
Lemma small_sum x y : small x -> small y -> (fl (x + y) == x + y)%Q.
Proof.
  intros [H B] [H' B']. apply fl_half; [now apply half_plus|]. assert (T : (2 * pow2 44 < pow2 52)%Q) by reflexivity. assert (X := Qabs_triangle x y). lra.
Qed.
Lemma round1_ext x y : (x == y)%Q -> round1 x = round1 y.
Proof. intros H. unfold round1. rewrite (rhe_compat (x * 10) (y * 10)); [reflexivity|]. now rewrite H. Qed.
Lemma fl_ext x y : (x == y)%Q -> (fl x == fl y)%Q.
Proof. intros H. rewrite (fl_compat _ _ H). reflexivity. Qed.

Section Sig.
Variables (E : env) (k : kind).
Hypothesis HE : env_ok E.
Variables (tr : nat -> Q -> Q -> Prop) (sh : Q -> Q -> Prop) (c : nat -> nat).
Notation twin := (twin tr sh c).

(** What is known of the interfaces *)
Record fine (M : Q) (s : st) : Prop := {
  fi_cap : forall i, In i (m_ifs s) -> (0 <= i_cap (h_if s i))%Q /\ (0 <= i_pct (h_if s i))%Q /\ half (i_cap (h_if s i) * (i_pct (h_if s i) / 100)) /\
             (i_cap (h_if s i) * (i_pct (h_if s i) / 100) <= pow2 44)%Q;
  fi_res : forall i, In i (m_ifs s) -> half (i_res (h_if s i)) /\ (Qabs (i_res (h_if s i)) <= M)%Q }.
Definition pre (M : Q) (s t : st) : Prop := twin s t /\ fine M s /\ good k s.

Section Rooms.
Variables (M : Q) (s t : st).
Hypothesis MM : (M <= pow2 44)%Q.
Hypothesis P : pre M s t.
Let H := proj1 P.
Let F := proj1 (proj2 P).

Lemma res_small i : In i (m_ifs s) -> small (i_res (h_if s i)).
Proof. intros Hi. destruct (fi_res _ _ F i Hi) as [A B]. split; [exact A|]. lra. Qed.
Lemma reserved_exact i : In i (m_ifs s) -> (reserved_bw s i == i_res (h_if s i))%Q.
Proof. intros Hi. apply half_round1. now apply res_small. Qed.
Lemma reserved_float i : In i (m_ifs s) -> (FloatSim.reserved_bw fl t i == i_res (h_if s i))%Q.
Proof.
  intros Hi. rewrite (tw_reserved _ _ _ _ _ H i). rewrite (fl_ext _ _ (reserved_exact i Hi)). apply small_fl. now apply res_small.
Qed.
Lemma room_value i : In i (m_ifs s) -> i_rsvp (h_if s i) = true ->
  (FloatSim.reservable_bw fl t i == i_cap (h_if s i) * (i_pct (h_if s i) / 100) - i_res (h_if s i))%Q /\ (reservable_bw s i == i_cap (h_if s i) * (i_pct (h_if s i) / 100) - i_res (h_if s i))%Q.
Proof.
  intros Hi Rs. unfold FloatSim.reservable_bw, reservable_bw. destruct (tw_idata _ _ _ _ _ H i) as (_ & _ & -> & _ & _ & _ & _ & _ & -> & -> & _). rewrite Rs.
  destruct (fi_cap _ _ F i Hi) as (C1 & C2 & C3 & C4). destruct (res_small i Hi) as [R1 R2]. split.
  - assert (X := room_float _ _ _ C1 C2 C3 R1 C4 R2). rewrite <- X. apply fl_ext. erewrite round1_ext; [reflexivity|]. apply fl_ext. rewrite (reserved_float i Hi). reflexivity.
  - erewrite round1_ext; [|rewrite (reserved_exact i Hi); reflexivity].
    apply half_round1. apply half_plus; [exact C3|now apply half_opp].
Qed.
Lemma rooms i : In i (m_ifs s) -> (FloatSim.reservable_bw fl t i == reservable_bw s i)%Q.
Proof.
  intros Hi. destruct (i_rsvp (h_if s i)) eqn:Rs.
  - destruct (room_value i Hi Rs) as [-> ->]. reflexivity.
  - unfold FloatSim.reservable_bw, reservable_bw. destruct (tw_idata _ _ _ _ _ H i) as (_ & _ & _ & _ & _ & _ & _ & _ & -> & _). rewrite Rs. reflexivity.
Qed.
Lemma room_half i : In i (m_ifs s) -> half (reservable_bw s i) /\ (Qabs (reservable_bw s i) <= 2 * pow2 44)%Q.
Proof.
  intros Hi. destruct (i_rsvp (h_if s i)) eqn:Rs.
  - destruct (room_value i Hi Rs) as [_ X]. destruct (fi_cap _ _ F i Hi) as (C1 & C2 & C3 & C4). destruct (res_small i Hi) as [R1 R2]. split.
    + eapply half_compat; [symmetry; exact X|]. apply half_plus; [exact C3|now apply half_opp].
    + rewrite X. eapply Qle_trans; [apply (Qabs_triangle (i_cap (h_if s i) * (i_pct (h_if s i) / 100)) (- i_res (h_if s i)))|]. rewrite Qabs_opp.
      assert (0 <= i_cap (h_if s i) * (i_pct (h_if s i) / 100))%Q. { apply Qmult_le_0_compat; auto. apply Qle_shift_div_l; [reflexivity|lra]. }
      rewrite (Qabs_pos (_ * _)) by auto. lra.
  - unfold reservable_bw. rewrite Rs. split; [exists (-2)%Z; reflexivity|]. vm_compute. discriminate.
Qed.
Lemma room_plus i x y : In i (m_ifs s) -> small x -> (y == x)%Q -> (fl (FloatSim.reservable_bw fl t i + y) == reservable_bw s i + x)%Q.
Proof.
  intros Hi [X1 X2] Y. assert (A : (FloatSim.reservable_bw fl t i + y == reservable_bw s i + x)%Q) by (rewrite (rooms i Hi), Y; reflexivity). rewrite (fl_ext _ _ A).
  destruct (room_half i Hi) as [B1 B2]. apply fl_half; [now apply half_plus|]. assert (T : (3 * pow2 44 < pow2 52)%Q) by reflexivity. assert (Z := Qabs_triangle (reservable_bw s i) x). lra.
Qed.

Lemma Qleb_ext a b x y : (a == b)%Q -> (x == y)%Q -> Qleb a x = Qleb b y.
Proof.
  intros A B. destruct (Qleb a x) eqn:X; destruct (Qleb b y) eqn:Y; auto.
  - apply Qle_bool_iff in X. rewrite A, B in X. apply Qle_bool_iff in X. unfold Qleb in Y. congruence.
  - apply Qle_bool_iff in Y. rewrite <- A, <- B in Y. apply Qle_bool_iff in Y. unfold Qleb in X. congruence.
Qed.
Lemma filter_in_ext {A} (f g : A -> bool) l : (forall x, In x l -> f x = g x) -> filter f l = filter g l.
Proof. induction l as [|x l IH]; simpl; auto. intros X. rewrite (X x) by auto. rewrite IH; auto. Qed.
Lemma same_graph b w w' r : (w' == w)%Q -> FloatSim.make_graph fl k t b w' r = make_graph k s b w r.
Proof.
  intros W. unfold FloatSim.make_graph, make_graph. rewrite (tw_names _ _ _ _ _ H), (tw_ifs _ _ _ _ _ H), (map_ext _ _ (tw_edge _ _ _ _ _ H)). do 3 f_equal.
  apply filter_in_ext. intros i Hi. unfold FloatSim.considered, considered. rewrite (Qleb_ext _ _ _ _ W (rooms i Hi)).
  destruct (tw_idata _ _ _ _ _ H i) as (_ & _ & _ & _ & _ & _ & -> & _ & -> & _). reflexivity.
Qed.
Lemma Qmin_pairs (xs ys : list Q) : Forall2 Qeq xs ys -> match Qmin_list xs, Qmin_list ys with Some a, Some b => (b == a)%Q | None, None => True | _, _ => False end.
Proof.
  intros X. destruct X as [|x y xs ys A X]; simpl; auto. revert x y A. induction X as [|a b xs ys A1 X IH]; intros x y A; simpl; [now symmetry|].
  apply IH. assert (Z := Qleb_ext x y a b A A1). unfold Qleb in Z. rewrite <- Z. destruct (Qle_bool x a); auto.
Qed.
Lemma min_pairs (f g : nat -> Q) p : (forall i, In i p -> (g i == f i)%Q) -> match Qmin_list (map f p), Qmin_list (map g p) with Some a, Some b => (b == a)%Q | None, None => True | _, _ => False end.
Proof.
  intros X. apply Qmin_pairs. induction p as [|i p IH]; simpl; constructor; [symmetry; apply X; now left|]. apply IH. intros j Hj. apply X. now right.
Qed.
Lemma min_twin p a : incl p (m_ifs s) -> path_min_reservable s p = Ok a -> exists b, FloatSim.path_min_reservable fl t p = Ok b /\ (b == a)%Q.
Proof.
  intros I. unfold path_min_reservable, FloatSim.path_min_reservable. assert (X := min_pairs (reservable_bw s) (FloatSim.reservable_bw fl t) p (fun i Hi => rooms i (I i Hi))).
  destruct (Qmin_list (map (reservable_bw s) p)); [|discriminate]. destruct (Qmin_list (map (FloatSim.reservable_bw fl t) p)); [|contradiction]. intros R. injection R as <-. eauto.
Qed.
Lemma cost_twin p : Zsum (map (fun i => i_cost (h_if t i)) p) = Zsum (map (fun i => i_cost (h_if s i)) p).
Proof. f_equal. apply map_ext. intros i. apply (tw_idata _ _ _ _ _ H i). Qed.
End Rooms.

Lemma pre_ls M s t l f g : pre M s t -> lstwin (f (h_ls s l)) (g (h_ls t l)) -> pre M (upd_ls l f s) (upd_ls l g t).
Proof. intros (H & F & [G1 G2 G3]) X. split; [now apply twin_ls|]. split; [destruct F; constructor; auto|constructor; auto]. Qed.
Lemma pre_rng M s t : pre M s t -> pre M (bump_rng s) (bump_rng t).
Proof. intros (H & F & [G1 G2 G3]). split; [now apply twin_rng|]. split; [destruct F; constructor; auto|constructor; auto]. Qed.

Lemma lstwin_res v w a b : same_bw v w -> lstwin a b -> lstwin (ls_res v a) (ls_res w b).
Proof. intros V (-> & X & Y & Z). split; [reflexivity|]. auto. Qed.
Lemma lstwin_setup v w a b : same_bw v w -> lstwin a b -> lstwin (ls_setup v a) (ls_setup w b).
Proof. intros V (-> & X & Y & Z). split; [destruct a; reflexivity|]. auto. Qed.
Lemma lstwin_path v w a b : same_path v w -> lstwin a b -> lstwin (ls_path v a) (ls_path w b).
Proof. intros V (-> & X & Y & Z). split; [destruct a; reflexivity|]. auto. Qed.

Lemma lock_setup M l w w' : (w' == w)%Q -> lock eq (pre M) (pre M) (set_setup_bw l w) (set_setup_bw l w').
Proof.
  intros W. assert (L : Qleb 0 w' = Qleb 0 w) by (apply Qleb_ext; [reflexivity|exact W]).
  assert (X : forall v v', (v' == v)%Q -> lock eq (pre M) (pre M) (modify (upd_ls l (ls_setup (RNum v)))) (modify (upd_ls l (ls_setup (RNum v'))))).
  { intros v v' V. apply lock_modify. intros s t P. apply pre_ls; auto. apply lstwin_setup; [exact V|]. apply (tw_ls _ _ _ _ _ (proj1 P)). }
  intros s t s' a P. unfold set_setup_bw. rewrite !bind_gets. destruct (tw_ldata _ _ _ _ _ (proj1 P) l) as (_ & _ & _ & -> & _). rewrite L.
  destruct (l_cfg (h_ls s l)) as [q|]; [destruct (Qeqb q 0)|]; [destruct (Qleb 0 w)| |destruct (Qleb 0 w)]; try (intros R; discriminate);
    intros R; (eapply X; [|exact P|exact R]); auto. reflexivity.
Qed.
Lemma lock_choice {A} M (d : A) (l : list A) : lock eq (pre M) (pre M) (random_choice E d l) (random_choice E d l).
Proof.
  unfold random_choice. apply (lock_same eq (pre M) (pre M) (pre M)); [apply lock_gets; intros s t P; symmetry; apply (tw_rng _ _ _ _ _ (proj1 P))|].
  intros n. apply (lock_same eq (pre M) (pre M) (pre M)); [apply lock_modify; intros s t; apply pre_rng|]. intros _. apply lock_ret. reflexivity.
Qed.
Lemma lock_choose M cs : lock eq (pre M) (pre M) (choose_path E cs) (choose_path E cs).
Proof.
  unfold choose_path. destruct cs as [|p [|q cs]]; try (apply lock_ret; reflexivity).
  destruct (Nmin_list _); [|apply lock_ret; reflexivity]. destruct (filter _ _) as [|a [|b low]]; try (apply lock_ret; reflexivity); apply lock_choice.
Qed.

(** Reserving along a path *)
Lemma float_reserve_run x p : forall s, exists h, mfor p (fun i => FloatSim.add_reserved fl i x) s = (with_if s h, Ok tt) /\
  (forall i, if_ex_res (h_if s i) (h i)) /\ (forall i, ~ In i p -> h i = h_if s i) /\
  (NoDup p -> forall i, In i p -> i_res (h i) = fl (FloatSim.reserved_bw fl s i + x)%Q).
Proof.
  induction p as [|j p IH]; intros s.
  - exists (h_if s). split; [destruct s; reflexivity|]. split; [intros i; unfold if_ex_res; destruct (h_if s i); reflexivity|]. split; [auto|]. intros _ i [].
  - cbn [mfor]. unfold FloatSim.add_reserved at 1. rewrite bind_modify. set (s1 := upd_if j (if_res (fl (FloatSim.reserved_bw fl s j + x)%Q)) s).
    destruct (IH s1) as (h & R & A & B & C). exists h. split; [rewrite R; reflexivity|]. split; [|split].
    + intros i. specialize (A i). unfold if_ex_res in *. rewrite A. unfold s1. simpl. unfold fupd. destruct (Nat.eqb_spec j i) as [->|N]; reflexivity.
    + intros i Hi. rewrite B by (simpl in Hi; tauto). unfold s1. simpl. rewrite fupd_other; auto. intros ->. apply Hi. simpl; auto.
    + intros N. inversion N as [|? ? N1 N2]; subst. intros i [<-|Hi].
      * rewrite B by auto. unfold s1. simpl. rewrite fupd_same. reflexivity.
      * rewrite C by auto. unfold FloatSim.reserved_bw at 1. unfold s1. simpl. rewrite fupd_other by (intros ->; auto). reflexivity.
Qed.
Lemma reserve_twin M s t x y p : (M <= pow2 44)%Q -> pre M s t -> small x -> (y == x)%Q -> NoDup p -> incl p (m_ifs s) ->
  exists s' t', mfor p (fun i => add_reserved i x) s = (s', Ok tt) /\ mfor p (fun i => FloatSim.add_reserved fl i y) t = (t', Ok tt) /\ pre (M + Qabs x) s' t' /\
    h_ls s' = h_ls s /\ m_ifs s' = m_ifs s.
Proof.
  intros MM P X Y N I. destruct (reserve_run x p s) as (h & R1 & A1 & B1 & C1). destruct (float_reserve_run y p t) as (g & R2 & A2 & B2 & C2).
  exists (with_if s h), (with_if t g). split; [exact R1|]. split; [exact R2|]. assert (P0 := P). destruct P as (H & F & [G1 G2 G3]).
  assert (V : forall i, (i_res (g i) == i_res (h i))%Q /\ (In i (m_ifs s) -> half (i_res (h i)) /\ (Qabs (i_res (h i)) <= M + Qabs x)%Q)).
  { intros i. destruct (in_dec Nat.eq_dec i p) as [Hi|Hi].
    - rewrite C1, C2 by auto. assert (Hm := I i Hi). assert (S := res_small M s t MM P0 i Hm). assert (RE := reserved_exact M s t MM P0 i Hm). assert (RF := reserved_float M s t MM P0 i Hm).
      split.
      + assert (Z : (FloatSim.reserved_bw fl t i + y == i_res (h_if s i) + x)%Q) by (rewrite RF, Y; reflexivity). rewrite (fl_ext _ _ Z), (small_sum _ _ S X), RE. reflexivity.
      + intros _. split; [eapply half_compat; [symmetry; rewrite RE; reflexivity|]; apply half_plus; [apply S|apply X]|].
        rewrite RE. eapply Qle_trans; [apply Qabs_triangle|]. assert (Z := proj2 (fi_res _ _ F i Hm)). lra.
    - rewrite B1, B2 by auto. split; [apply (tw_if _ _ _ _ _ H i)|]. intros Hm. destruct (fi_res _ _ F i Hm) as [Z1 Z2]. split; [exact Z1|]. assert (Z := Qabs_nonneg x). lra. }
  split; [|split; reflexivity]. split; [|split].
  - destruct H. constructor; auto. intros i. simpl. destruct (tw_if i) as (T1 & T2 & T3). specialize (A1 i). specialize (A2 i). unfold if_ex_res in *. split; [|split].
    + rewrite A2, A1. simpl. rewrite T1 at 1. destruct (h_if s i); reflexivity.
    + apply V.
    + rewrite A2, A1. simpl. exact T3.
  - constructor; simpl.
    + intros i Hi. specialize (A1 i). unfold if_ex_res in A1. rewrite A1. simpl. apply (fi_cap _ _ F i Hi).
    + intros i Hi. apply V. exact Hi.
  - constructor; auto; simpl.
    + intros i Hi. specialize (A1 i). unfold if_ex_res in A1. rewrite A1. simpl. auto.
    + intros K i j Hi Hj. unfold loc, rem. simpl. assert (Ai := A1 i). assert (Aj := A1 j). unfold if_ex_res in Ai, Aj. rewrite Ai, Aj. simpl. now apply G3.
Qed.

(** Signalling one LSP *)
Lemma mfilter_incl {A} (f : A -> M bool) l : forall s s' r, mfilter f l s = (s', Ok r) -> incl r l.
Proof.
  induction l as [|x l IH]; cbn [mfilter]; intros s s' r R.
  - injection R as <- <-. apply incl_refl.
  - apply bind_ok in R as (s1 & b & _ & R). apply bind_ok in R as (s2 & r1 & R1 & R). apply ret_ok in R as [_ ->]. apply IH in R1. intros y Hy. destruct b; [destruct Hy as [<-|Hy]|]; [now left|right; auto|right; auto].
Qed.
Lemma lock_at {A B} (V : A -> B -> Prop) (P Q : st -> st -> Prop) m n s t s' a : lock V P Q m n -> P s t -> m s = (s', Ok a) -> exists t' b, n t = (t', Ok b) /\ Q s' t' /\ V a b.
Proof. intros L. apply L. Qed.

Lemma determine_twin M s t l x y s' : (M <= pow2 44)%Q -> pre M s t -> small (wanted s l x) -> (l_cfg (h_ls s l) = None -> (y == x)%Q) ->
  determine_lsp E k l x s = (s', Ok tt) -> exists t', FloatSim.determine_lsp fl E k l y t = (t', Ok tt) /\ pre (M + Qabs (wanted s l x)) s' t'.
Proof.
  intros MM P Sm XY R. unfold determine_lsp in R. unfold FloatSim.determine_lsp. rewrite bind_gets in R. rewrite bind_gets. cbv zeta in R |- *.
  destruct (tw_ldata _ _ _ _ _ (proj1 P) l) as (_ & _ & _ & -> & _). fold (wanted s l x) in R. set (w := wanted s l x) in *.
  set (w' := match l_cfg (h_ls s l) with None => y | Some q => q end).
  assert (W : (w' == w)%Q) by (unfold w', w, wanted; destruct (l_cfg (h_ls s l)); [reflexivity|auto]). clearbody w w'.
  assert (MW : forall a b, pre M a b -> pre (M + Qabs w) a b).
  { intros a b (A1 & [A2 A3] & A4). split; [exact A1|]. split; [|exact A4]. constructor; auto. intros i Hi. destruct (A3 i Hi) as [B1 B2]. split; auto. assert (Z := Qabs_nonneg w). lra. }
  rewrite bind_modify in R. rewrite bind_modify.
  assert (P1 : pre M (upd_ls l (ls_res (RNum w)) s) (upd_ls l (ls_res (RNum w')) t)) by (apply pre_ls; auto; apply lstwin_res; [exact W|apply (tw_ls _ _ _ _ _ (proj1 P))]).
  apply bind_ok in R as (s2 & [] & R2 & R). destruct (lock_setup M l w w' W _ _ _ _ P1 R2) as (t2 & [] & R2' & P2 & _). rewrite (bind_run _ _ _ _ _ R2').
  clear P P1 R2 R2'. rewrite !bind_gets in R. rewrite !bind_gets.
  assert (SV : (lsp_setup_value t2 l == lsp_setup_value s2 l)%Q).
  { unfold lsp_setup_value. destruct (tw_ls _ _ _ _ _ (proj1 P2) l) as (_ & _ & _ & S). unfold same_bw in S. destruct (l_setup (h_ls s2 l)), (l_setup (h_ls t2 l)); try contradiction; try reflexivity. exact S. }
  set (v := lsp_setup_value s2 l) in *. set (v' := lsp_setup_value t2 l) in *. rewrite (same_graph M s2 t2 MM P2 false v v' true SV).
  rewrite bind_modify in R. rewrite bind_modify. 
  assert (P3 : pre M (upd_ls l (ls_path PEmpty) s2) (upd_ls l (ls_path PEmpty) t2)) by (apply pre_ls; auto; apply lstwin_path; [exact I|apply (tw_ls _ _ _ _ _ (proj1 P2))]).
  set (s3 := upd_ls l (ls_path PEmpty) s2) in *. set (t3 := upd_ls l (ls_path PEmpty) t2) in *.
  change (make_graph k s2 false v true) with (make_graph k s3 false v true) in *. clearbody v v' s3 t3. clear P2 s2 t2.
  rewrite bind_gets in R. rewrite bind_gets. cbn [fst snd] in R |- *. rewrite (tw_lsrc _ _ _ _ _ (proj1 P3)), (tw_ldst _ _ _ _ _ (proj1 P3)).
  destruct P3 as (H3 & F3 & [G1 G2 G3]). assert (P3 : pre M s3 t3) by (split; [exact H3|split; [exact F3|constructor; auto]]).
  assert (A := asp_paths E k s3 (considered s3 false v true) (node_names s3) HE G1 G2 G3 (lsrc s3 l) (ldst s3 l)).
  change (mkG (nx_edges k (map (edge_of s3) (filter (considered s3 false v true) (m_ifs s3)))) (node_names s3)) with (make_graph k s3 false v true) in A.
  assert (Off : forall a b, pre M a b -> pre M (upd_ls l (fun r => ls_res RUnrouted (ls_path PUnrouted r)) a) (upd_ls l (fun r => ls_res RUnrouted (ls_path PUnrouted r)) b)).
  { intros a b Pab. apply pre_ls; auto. apply lstwin_res; [exact I|]. apply lstwin_path; [exact I|]. apply (tw_ls _ _ _ _ _ (proj1 Pab)). }
  destruct (nx_asp E (make_graph k s3 false v true) (lsrc s3 l) (ldst s3 l)) as [ps| |]; [|injection R as <-; eexists; split; [reflexivity|auto]|discriminate].
  destruct A as (A1 & A2 & A3 & _). rewrite bind_gets in R. rewrite bind_gets. rewrite (tw_iface_paths k _ _ _ _ _ H3).
  set (cands := iface_paths k s3 (make_graph k s3 false v true) ps) in *. clearbody cands.
  assert (In3 : forall p, In p cands -> NoDup p /\ incl p (m_ifs s3)).
  { intros p Hp. apply A3 in Hp. split; [eapply least_nodup; eauto|]. intros i Hi. exact (proj1 (route_in _ _ _ _ _ (proj1 Hp) i Hi)). }
  apply bind_ok in R as (s4 & ws & R4 & R).
  assert (L4 : lock eq (fun a b => a = s3 /\ b = t3) (fun a b => a = s3 /\ b = t3) (mfilter (fun p => b <- reads (fun s0 => path_min_reservable s0 p) ;; ret (Qleb v b)) cands)
    (mfilter (fun p => b <- reads (fun s0 => FloatSim.path_min_reservable fl s0 p) ;; ret (Qleb v' b)) cands)).
  { apply lock_mfilter. intros p Hp a b a' z (-> & ->) Rz. rewrite bind_reads in Rz. rewrite bind_reads. destruct (path_min_reservable s3 p) as [q|] eqn:Q; [|discriminate].
    destruct (min_twin M s3 t3 MM P3 p q (proj2 (In3 p Hp)) Q) as (q' & -> & Q'). injection Rz as <- <-. eexists _, _. split; [reflexivity|]. split; [auto|]. apply Qleb_ext; now symmetry. }
  destruct (L4 s3 t3 s4 ws (conj eq_refl eq_refl) R4) as (t4 & ws' & R4' & (-> & ->) & <-). rewrite (bind_run _ _ _ _ _ R4').
  assert (Ws : incl ws cands). { intros p Hp. eapply mfilter_incl; [exact R4|exact Hp]. }
  clear R4 R4' L4 A1 A2 A3. destruct ws as [|p0 ws]; [injection R as <-; eexists; split; [reflexivity|auto]|].
  set (all := p0 :: ws) in *. apply bind_ok in R as (s5 & p & R5 & R). destruct (lock_choose M all s3 t3 s5 p P3 R5) as (t5 & p' & R5' & P5 & <-). rewrite (bind_run _ _ _ _ _ R5').
  destruct (choose_run E all s3) as (q & sq & Rq & Sq & Hq & _); [discriminate|]. rewrite R5 in Rq. injection Rq as <- <-.
  destruct (In3 p (Ws p Hq)) as [Np Ip]. assert (Ip5 : incl p (m_ifs s5)) by (destruct Sq as [->| ->]; exact Ip).
  apply bind_ok in R as (s6 & [] & R6 & R). unfold add_lsp_path_data in R6. rewrite bind_reads in R6.
  destruct (path_min_reservable s5 p) as [b|] eqn:B; [|discriminate]. injection R6 as <-. destruct (min_twin M s5 t5 MM P5 p b Ip5 B) as (b' & B' & Bb).
  assert (R6' : FloatSim.add_lsp_path_data fl l p t5 = (upd_ls l (ls_path (PRouted p (Zsum (map (fun i => i_cost (h_if t5 i)) p)) b')) t5, Ok tt)).
  { unfold FloatSim.add_lsp_path_data. rewrite bind_reads, B'. reflexivity. }
  rewrite (bind_run _ _ _ _ _ R6'). 
  assert (P6 : pre M (upd_ls l (ls_path (PRouted p (Zsum (map (fun i => i_cost (h_if s5 i)) p)) b)) s5) (upd_ls l (ls_path (PRouted p (Zsum (map (fun i => i_cost (h_if t5 i)) p)) b')) t5)).
  { apply pre_ls; auto. apply lstwin_path; [|apply (tw_ls _ _ _ _ _ (proj1 P5))]. simpl. split; [reflexivity|]. split; [|exact Bb]. apply (cost_twin M s5 t5 P5). }
  destruct (reserve_twin M _ _ w w' p MM P6 Sm W Np Ip5) as (s7 & t7 & R7 & R7' & P7 & _). rewrite R7 in R. injection R as <-. exists t7. split; [exact R7'|exact P7].
Qed.

(** ** Signalling again *)
Lemma in_hops (a b : string) l : In (a, b) (hops l) -> In a l /\ In b l.
Proof.
  induction l as [|x l IH]; [intros []|]. destruct l as [|y l]; [intros []|]. rewrite hops_cons. intros [X|X]; [injection X as <- <-; simpl; auto|]. destruct (IH X). simpl in *. tauto.
Qed.
Lemma hops_nodup (l : list string) : NoDup l -> NoDup (hops l).
Proof.
  induction l as [|x l IH]; intros N; [constructor|]. destruct l as [|y l]; [constructor|]. rewrite hops_cons. inversion N as [|? ? N1 N2]; subst. constructor; auto.
  intros X. apply in_hops in X as [X _]. auto.
Qed.
Lemma again_in s u v cur old bw p : good k s -> In p (paths_for_routed_lsp E k s u v cur old bw) -> NoDup p /\ incl p (m_ifs s).
Proof.
  intros [G1 G2 G3] Hp. assert (A := asp_paths E k s (eligible_routed s cur old bw) (node_names s) HE G1 G2 G3 u v). unfold paths_for_routed_lsp in Hp.
  change (mkG (nx_edges k (map (edge_of s) (filter (eligible_routed s cur old bw) (m_ifs s)))) (node_names s)) with (make_graph_routed k s cur old bw) in A.
  destruct (nx_asp E (make_graph_routed k s cur old bw) u v) as [nps| |]; [|destruct Hp|destruct Hp]. destruct A as (_ & _ & _ & A4).
  assert (IB : forall a b i, In i (ifaces_between s a b) -> In i (m_ifs s) /\ loc s i = a /\ rem s i = b).
  { intros a b i Hi. unfold ifaces_between in Hi. apply filter_In in Hi as [Hi X]. apply andb_true_iff in X as [X Y]. apply String.eqb_eq in X, Y. auto. }
  destruct k eqn:K.
  - apply in_map_iff in Hp as (np & <- & Hnp). destruct (A4 np Hnp) as (q & Lq & ->). split.
    + unfold flex_routed_path. apply NoDup_flat_map.
      * apply hops_nodup. eapply least_simple; eauto.
      * intros [a b] _. apply NoDup_filter. apply NoDup_filter. exact G1.
      * intros [a b] [a' b'] i _ _ Hi Hi'. apply filter_In in Hi as [Hi _]. apply filter_In in Hi' as [Hi' _]. cbn [fst snd] in Hi, Hi'. apply IB in Hi as (_ & X1 & X2). apply IB in Hi' as (_ & X3 & X4). congruence.
    + intros i Hi. unfold flex_routed_path in Hi. apply in_flat_map in Hi as ([a b] & _ & Hi). apply filter_In in Hi as [Hi _]. now apply IB in Hi.
  - apply in_map_iff in Hp as (np & <- & Hnp). destruct (A4 np Hnp) as (q & Lq & ->). 
    rewrite (perf_path_route Perf s (eligible_routed s cur old bw) (fun _ => G3 eq_refl) q eq_refl _ _ (proj1 Lq)). split; [eapply least_nodup; eauto|].
    intros i Hi. exact (proj1 (route_in _ _ _ _ _ (proj1 Lq) i Hi)).
Qed.

Section Again.
Variables (M : Q) (s t : st) (cur : list nat) (old old' bw bw' : Q).
Hypothesis MM : (M <= pow2 44)%Q.
Hypothesis P : pre M s t.
Hypothesis Old : small old.
Hypothesis OO : (old' == old)%Q.
Hypothesis BB : (bw' == bw)%Q.
Let H := proj1 P.

Lemma eff_twin i : In i (m_ifs s) -> (FloatSim.eff_reservable fl t cur old' i == eff_reservable s cur old i)%Q.
Proof.
  intros Hi. unfold FloatSim.eff_reservable, eff_reservable. rewrite (tw_mem_if _ _ _ _ _ H). destruct (mem_if s i cur); [|apply (rooms M s t MM P i Hi)]. now apply (room_plus M s t MM P).
Qed.
Lemma again_twin u v : FloatSim.paths_for_routed_lsp fl E k t u v cur old' bw' = paths_for_routed_lsp E k s u v cur old bw.
Proof.
  assert (G : FloatSim.make_graph_routed fl k t cur old' bw' = make_graph_routed k s cur old bw).
  { unfold FloatSim.make_graph_routed, make_graph_routed. rewrite (tw_names _ _ _ _ _ H), (tw_ifs _ _ _ _ _ H), (map_ext _ _ (tw_edge _ _ _ _ _ H)). do 3 f_equal.
    apply filter_in_ext. intros i Hi. unfold FloatSim.eligible_routed, eligible_routed. rewrite (Qleb_ext _ _ _ _ BB (eff_twin i Hi)).
    destruct (tw_idata _ _ _ _ _ H i) as (_ & _ & _ & _ & _ & _ & -> & _ & -> & _). reflexivity. }
  unfold FloatSim.paths_for_routed_lsp, paths_for_routed_lsp. rewrite G. destruct (nx_asp E _ u v) as [nps| |]; auto.
  assert (FX : map (FloatSim.flex_routed_path fl t cur old' bw') nps = map (flex_routed_path s cur old bw) nps).
  { apply map_ext. intros np. unfold FloatSim.flex_routed_path, flex_routed_path. apply flat_map_ext. intros [a b]. cbn [fst snd]. rewrite (tw_between _ _ _ _ _ H).
    apply filter_in_ext. intros i Hi. assert (Hm : In i (m_ifs s)) by (unfold ifaces_between in Hi; now apply filter_In in Hi). unfold FloatSim.flex_routed_ok, flex_routed_ok.
    rewrite (tw_mem_if _ _ _ _ _ H), (Qleb_ext _ _ _ _ BB (rooms M s t MM P i Hm)), (Qleb_ext _ _ _ _ BB (room_plus M s t MM P i old old' Hm Old OO)). reflexivity. }
  rewrite FX, (map_ext _ _ (tw_perf_path _ _ _ _ _ H)). reflexivity.
Qed.
End Again.

Lemma nth_pairs {A} (P : A -> A -> Prop) d n xs ys : P d d -> Forall2 P xs ys -> P (nth n xs d) (nth n ys d).
Proof. intros D F. revert n. induction F; intros [|n]; simpl; auto. Qed.
Lemma pairs_length {A B} (P : A -> B -> Prop) xs ys : Forall2 P xs ys -> List.length xs = List.length ys.
Proof. intros F. induction F; simpl; auto. Qed.
Lemma lock_pick {A} M {R : A -> A -> Prop} d xs ys : R d d -> Forall2 R xs ys -> lock R (pre M) (pre M) (random_choice E d xs) (random_choice E d ys).
Proof.
  intros D F s t s' x P X. unfold random_choice in *. rewrite bind_gets, bind_modify in X. rewrite bind_gets, bind_modify. injection X as <- <-.
  rewrite (tw_rng _ _ _ _ _ (proj1 P)), <- (pairs_length _ _ _ F). eexists _, _. split; [reflexivity|]. split; [now apply pre_rng|now apply nth_pairs].
Qed.

Lemma find_twin M s t l bw bw' s' cur c0 b0 old : (M <= pow2 44)%Q -> pre M s t -> l_path (h_ls s l) = PRouted cur c0 b0 -> l_res (h_ls s l) = RNum old -> small old -> (bw' == bw)%Q ->
  find_rsvp_path_w_bw E k l bw s = (s', Ok tt) -> exists t', FloatSim.find_rsvp_path_w_bw fl E k l bw' t = (t', Ok tt) /\ pre M s' t'.
Proof.
  intros MM P Hp Hr So BB R. assert (H := proj1 P). unfold find_rsvp_path_w_bw in R. unfold FloatSim.find_rsvp_path_w_bw.
  assert (LI : lsp_interfaces s l = Ok cur) by (unfold lsp_interfaces; now rewrite Hp).
  destruct (tw_ls _ _ _ _ _ H l) as (_ & _ & Sr & _). rewrite Hr in Sr. destruct (l_res (h_ls t l)) as [| |old'] eqn:Hr'; try contradiction. simpl in Sr.
  rewrite bind_reads, LI, bind_reads, Hr in R. cbn [num_bw] in R. rewrite bind_reads, (tw_interfaces _ _ _ _ _ H), LI, bind_reads, Hr'. cbn [num_bw].
  rewrite bind_gets in R. rewrite bind_gets. rewrite (tw_lsrc _ _ _ _ _ H), (tw_ldst _ _ _ _ _ H), (again_twin M s t cur old old' bw bw' MM P So Sr BB).
  assert (AI := fun p => again_in s (lsrc s l) (ldst s l) cur old bw p (proj2 (proj2 P))).
  set (cands := paths_for_routed_lsp E k s (lsrc s l) (ldst s l) cur old bw) in *. clearbody cands.
  apply bind_ok in R as (s1 & infos & R1 & R).
  assert (L1 : lock (Forall2 same_path) (fun a b => a = s /\ b = t) (fun a b => a = s /\ b = t)
    (mmap (fun p => s0 <- gets (fun s0 => s0) ;; match Qmin_list (map (eff_reservable s0 cur old) p) with None => raise ValueError | Some b => ret (PRouted p (Zsum (map (fun i => i_cost (h_if s0 i)) p)) b) end) cands)
    (mmap (fun p => s0 <- gets (fun s0 => s0) ;; match Qmin_list (map (FloatSim.eff_reservable fl s0 cur old') p) with None => raise ValueError | Some b => ret (PRouted p (Zsum (map (fun i => i_cost (h_if s0 i)) p)) b) end) cands)).
  { apply lock_mmap. intros p Hin a b a' z (-> & ->) Rz. rewrite bind_gets in Rz. rewrite bind_gets. destruct (AI p Hin) as [_ I].
    assert (X := min_pairs (eff_reservable s cur old) (FloatSim.eff_reservable fl t cur old') p (fun i Hi => eff_twin M s t cur old old' MM P So Sr i (I i Hi))).
    destruct (Qmin_list (map (eff_reservable s cur old) p)) as [q|]; [|discriminate]. destruct (Qmin_list (map (FloatSim.eff_reservable fl t cur old') p)) as [q'|]; [|contradiction].
    injection Rz as <- <-. eexists _, _. split; [reflexivity|]. split; [auto|]. simpl. split; [reflexivity|]. split; [apply (cost_twin M s t P)|exact X]. }
  destruct (L1 s t s1 infos (conj eq_refl eq_refl) R1) as (t1 & infos' & R1' & (-> & ->) & F2). rewrite (bind_run _ _ _ _ _ R1'). clear R1 R1' L1.
  assert (Set_ : forall a b i i', pre M a b -> same_path i i' -> (modify (upd_ls l (ls_path i)) ;;; modify (upd_ls l (ls_res (RNum bw))) ;;; set_setup_bw l bw) a = (s', Ok tt) ->
    exists t', (modify (upd_ls l (ls_path i')) ;;; modify (upd_ls l (ls_res (RNum bw'))) ;;; set_setup_bw l bw') b = (t', Ok tt) /\ pre M s' t').
  { intros a b i i' Pab Si Ra. rewrite !bind_modify in Ra. rewrite !bind_modify.
    assert (P2 : pre M (upd_ls l (ls_res (RNum bw)) (upd_ls l (ls_path i) a)) (upd_ls l (ls_res (RNum bw')) (upd_ls l (ls_path i') b))).
    { assert (P1 : pre M (upd_ls l (ls_path i) a) (upd_ls l (ls_path i') b)) by (apply pre_ls; auto; apply lstwin_path; [exact Si|apply (tw_ls _ _ _ _ _ (proj1 Pab))]).
      apply pre_ls; auto. apply lstwin_res; [exact BB|]. apply (tw_ls _ _ _ _ _ (proj1 P1)). }
    destruct (lock_setup M l bw bw' BB _ _ _ _ P2 Ra) as (t' & [] & Rt & P3 & _). eauto. }
  destruct F2 as [|i i' is is' Si F2]; [injection R as <-; exists t; auto|]. destruct F2 as [|j j' js js' Sj F2]; [now apply (Set_ s t i i')|].
  set (xs := i :: j :: js) in *. set (ys := i' :: j' :: js') in *. assert (F3 : Forall2 same_path xs ys) by (constructor; auto).
  apply bind_ok in R as (s1 & x & R1 & R). destruct (lock_pick M PUnrouted xs ys I F3 s t s1 x P R1) as (t1 & y & R1' & P1 & Sxy). rewrite (bind_run _ _ _ _ _ R1'). now apply (Set_ s1 t1 x y).
Qed.

Lemma os_ifs s l s' : only_signals s l s' -> m_ifs s' = m_ifs s.
Proof. intros O. apply (os_sets _ _ _ O). Qed.
Definition held B s l : Prop := forall p co b, l_path (h_ls s l) = PRouted p co b ->
  NoDup p /\ incl p (m_ifs s) /\ exists q, l_res (h_ls s l) = RNum q /\ small q /\ (Qabs q <= B)%Q /\ (0 <= q)%Q.
Lemma pre_mono M M' s t : (M <= M')%Q -> pre M s t -> pre M' s t.
Proof. intros L (H & [A C] & G). split; [exact H|]. split; [|exact G]. constructor; [exact A|]. intros i Hi. destruct (C i Hi). split; [assumption|lra]. Qed.

Lemma optimize_twin M B s t l bw bw' s' cur c0 b0 : (0 <= B)%Q -> (M + B <= pow2 44)%Q -> pre M s t -> l_path (h_ls s l) = PRouted cur c0 b0 -> held B s l -> small bw -> (Qabs bw <= B)%Q -> (0 <= bw)%Q -> (bw' == bw)%Q ->
  optimize_lsp E k bw l s = (s', Ok tt) -> exists t', FloatSim.optimize_lsp fl E k bw' l t = (t', Ok tt) /\ pre (M + 2 * B) s' t' /\ held B s' l.
Proof.
  intros B0 MM P Hp Hd Sb Bb Pb BB R. destruct (Hd _ _ _ Hp) as (Nc & Ic & old & Hr & So & Bo & _). assert (M44 : (M <= pow2 44)%Q) by lra. assert (H := proj1 P).
  assert (HD : held B s' l).
  { destruct (optimize_run E k s l bw cur c0 b0 old Hp Hr s' R) as [[_ ->]|(p & b & Hin & _ & OS & Pp & Rr & _)]; [exact Hd|].
    intros p' c' b' X. rewrite Pp in X. injection X as <- _ _. destruct (again_in s (lsrc s l) (ldst s l) cur old bw p (proj2 (proj2 P)) Hin) as [N1 I1]. split; [exact N1|].
    split; [rewrite (os_ifs _ _ _ OS); exact I1|]. exists bw. auto. }
  unfold optimize_lsp in R. unfold FloatSim.optimize_lsp.
  assert (LI : lsp_interfaces s l = Ok cur) by (unfold lsp_interfaces; now rewrite Hp).
  destruct (tw_ls _ _ _ _ _ H l) as (_ & _ & Sr & _). rewrite Hr in Sr. destruct (l_res (h_ls t l)) as [| |old'] eqn:Hr'; try contradiction. simpl in Sr.
  rewrite bind_reads, LI, bind_reads, Hr in R. cbn [num_bw] in R. rewrite bind_reads, (tw_interfaces _ _ _ _ _ H), LI, bind_reads, Hr'. cbn [num_bw].
  apply bind_ok in R as (s1 & [] & R1 & R). destruct (find_twin M s t l bw bw' s1 cur c0 b0 old M44 P Hp Hr So BB R1) as (t1 & R1' & P1). rewrite (bind_run _ _ _ _ _ R1').
  assert (H1 := proj1 P1). 
  assert (X : exists aft p c1 b1, l_res (h_ls s1 l) = RNum aft /\ small aft /\ (Qabs aft <= B)%Q /\ l_path (h_ls s1 l) = PRouted p c1 b1 /\ NoDup p /\ incl p (m_ifs s1) /\ m_ifs s1 = m_ifs s).
  { destruct (find_path_run E k s l bw cur c0 b0 old Hp Hr s1 R1) as [[_ ->]|(p & b & Hin & _ & OS & _ & Pp & Rr & _)]; [exists old, cur, c0, b0; auto 10|].
    destruct (again_in s (lsrc s l) (ldst s l) cur old bw p (proj2 (proj2 P)) Hin) as [N1 I1]. exists bw, p, (route_cost s p), b. rewrite (os_ifs _ _ _ OS). auto 10. }
  destruct X as (aft & p & c1 & b1 & Ra & Sa & Ba & Pa & Np & Ip & Im).
  destruct (tw_ls _ _ _ _ _ H1 l) as (_ & _ & Sr1 & _). rewrite Ra in Sr1. destruct (l_res (h_ls t1 l)) as [| |aft'] eqn:Ra'; try contradiction. simpl in Sr1.
  rewrite bind_reads, Ra in R. cbn [num_bw] in R. rewrite bind_reads, Ra'. cbn [num_bw].
  assert (QE : Qeqb old' aft' = Qeqb old aft).
  { apply eq_true_iff_eq. unfold Qeqb. rewrite !Qeq_bool_iff, Sr, Sr1. tauto. }
  rewrite QE. destruct (Qeqb old aft); [injection R as <-; exists t1; split; [reflexivity|]; split; [|exact HD]; apply (pre_mono M); [lra|exact P1]|].
  assert (Sm : small (- old)) by (destruct So as [S1 S2]; split; [now apply half_opp|now rewrite Qabs_opp]).
  assert (Oo : (- old' == - old)%Q) by (rewrite Sr; reflexivity). rewrite <- Im in Ic.
  destruct (reserve_twin M s1 t1 (- old) (- old') cur M44 P1 Sm Oo Nc Ic) as (s2 & t2 & A1 & A2 & P2 & E1 & E2).
  rewrite (bind_run _ _ _ _ _ A1) in R. rewrite (bind_run _ _ _ _ _ A2). apply (pre_mono _ (M + Qabs old)) in P2; [|rewrite Qabs_opp; lra].
  assert (LI2 : lsp_interfaces s2 l = Ok p) by (unfold lsp_interfaces; now rewrite E1, Pa).
  rewrite bind_reads, LI2 in R. rewrite bind_reads, (tw_interfaces _ _ _ _ _ (proj1 P2)), LI2. rewrite <- E2 in Ip.
  destruct (reserve_twin (M + Qabs old) s2 t2 aft aft' p ltac:(lra) P2 Sa Sr1 Np Ip) as (s3 & t3 & A3 & A4 & P3 & _).
  rewrite A3 in R. injection R as <-. exists t3. split; [exact A4|]. split; [|exact HD]. apply (pre_mono (M + Qabs old + Qabs aft)); [lra|exact P3].
Qed.
End Sig.
