(** FloatFree.v - the float simulation of a network without LSPs. *)
From Verif Require Import Base Graph Objects Sim Spec SpecCkt SpecSim SpecOrder Float GraphProofs ObjProofs MonadProofs RoundProofs FloatProofs QuietProofs RouteProofs TrafficProofs OrderProofs FloatLock.
From Verif Require FloatSim AddProofs.
From Coq Require Import Lqa.

(** both simulations begin alike *)
Lemma both_start E k s : exists s1, prepared s s1 /\
  update_simulation E k s = bind (route_lsps E k) (fun _ => bind (route_demands E k) (fun _ => validate_model E k)) s1 /\
  FloatSim.update_simulation fl E k s = bind (FloatSim.route_lsps fl E k) (fun _ => bind (FloatSim.route_demands fl E k) (fun _ => FloatSim.validate_model fl E k)) s1.
Proof.
  unfold update_simulation, FloatSim.update_simulation. rewrite !bind_modify, !bind_gets.
  destruct (mfor_upd_if (fun r => if_traffic (TNum 0) (if_res 0%Q r)) (m_ifs (set_groups [] s)) (fun r => eq_refl) (set_groups [] s)) as (h1 & R1 & X1).
  rewrite !(bind_run _ _ _ _ _ R1). rewrite !bind_gets.
  match goal with |- context [bind (mfor ?l _) _ ?s0] => destruct (mfor_upd_ls (ls_path PUnrouted) l (fun r => eq_refl) s0) as (h2 & R2 & X2) end.
  rewrite !(bind_run _ _ _ _ _ R2). rewrite !bind_gets.
  match goal with |- context [bind (mfor ?l _) _ ?s0] => destruct (mfor_upd_dm (dm_path DUnrouted) l (fun r => eq_refl) s0) as (h3 & R3 & X3) end.
  rewrite !(bind_run _ _ _ _ _ R3). eexists. split; [|split; reflexivity]. constructor; auto.
Qed.

Lemma same_bw_refl a : same_bw a a.
Proof. destruct a; simpl; auto; reflexivity. Qed.
Lemma same_path_refl a : same_path a a.
Proof. destruct a; simpl; auto. repeat split; reflexivity. Qed.
Lemma twin_refl (tr : nat -> Q -> Q -> Prop) (sh : Q -> Q -> Prop) c s : (forall i, In i (m_ifs s) -> i_traffic (h_if s i) = TNum 0) -> (forall n, tr n 0%Q 0%Q) -> twin tr sh c s s.
Proof.
  intros Z T. constructor; auto; intros x.
  - split; [destruct (h_if s x); reflexivity|]. split; [reflexivity|]. destruct (i_traffic (h_if s x)) eqn:X; simpl; auto. intros I. rewrite (Z x I) in X. injection X as <-. apply T.
  - split; [destruct (h_dm s x); reflexivity|now left].
  - split; [destruct (h_ls s x); reflexivity|]. split; [apply same_path_refl|]. split; apply same_bw_refl.
Qed.

(** the stages one after the other *)
Section Stages.
Variables (E : env) (k : kind).
Variables (tr : nat -> Q -> Q -> Prop) (sh : Q -> Q -> Prop) (loose : Prop).
Hypothesis loose_tr : loose -> forall n q f, tr n q f.
Hypothesis loose_sh : loose -> forall x y, sh x y.
Hypothesis tr_zero : forall n, tr n 0%Q 0%Q.
Hypothesis tr_le : forall n m q f, (n <= m)%nat -> tr n q f -> tr m q f.
Hypothesis tr_add : forall n q f x y, tr n q f -> sh x y -> tr (S n) (q + x)%Q (fl (f + y)%Q).
Variable pos : Q -> Prop.
Hypothesis sh_path : forall t mx, pos t -> (0 <= mx)%Z -> sh (t / inject_Z mx)%Q (fl (fl t / fl (inject_Z mx)))%Q.
Hypothesis sh_lsp : forall t n, pos t -> (0 < n)%Z -> sh (t / inject_Z n)%Q (fl (t / inject_Z n))%Q.
Variable J : st -> Prop.
Hypothesis J_frame : forall s s', vframe s s' -> J s -> J s'.
Hypothesis J_ok : forall c s t, twin tr sh c s t -> J s -> sums_ok s t.

Lemma stages_twin s s' s1 s2 s3 s4 : env_ok E -> NoDup (m_ifs s) -> simulated E k s s1 s2 s3 s4 s' ->
  forall c t2, update_simulation E k s = bind (route_lsps E k) (fun _ => bind (route_demands E k) (fun _ => validate_model E k)) s1 ->
  FloatSim.update_simulation fl E k s = bind (FloatSim.route_lsps fl E k) (fun _ => bind (FloatSim.route_demands fl E k) (fun _ => FloatSim.validate_model fl E k)) s1 ->
  FloatSim.route_lsps fl E k s1 = (t2, Ok tt) -> tws tr sh c s2 t2 ->
  plain E k loose s3 -> (forall d, In d (m_dms s) -> pos (d_traffic (h_dm s d))) -> J s4 ->
  exists t', FloatSim.update_simulation fl E k s = (t', Ok tt) /\ twin tr sh (fun _ => all_ways s' (m_dms s')) s' t'.
Proof.
  intros HE N Sm c t2 U1 U2 RL HT PL HP HJ.
  assert (RD : route_demands E k s2 = (s4, Ok tt)).
  { unfold route_demands. rewrite !bind_gets. rewrite (bind_run _ _ _ _ _ (sm_loop _ _ _ _ _ _ _ _ Sm)). exact (sm_util _ _ _ _ _ _ _ _ Sm). }
  assert (R23 := df_same _ _ _ (sm_23 _ _ _ _ _ _ _ _ Sm)). destruct (sm_12 _ _ _ _ _ _ _ _ Sm) as (_ & _ & _ & D2 & _ & _ & _ & DD & _).
  destruct (route_demands_twin E k tr sh loose loose_tr loose_sh tr_zero tr_le tr_add pos sh_path sh_lsp c s2 t2 s4 HT RD) as (t4 & R4 & H4).
  { intros s3' X _. rewrite (sm_loop _ _ _ _ _ _ _ _ Sm) in X. injection X as <-. split; [exact PL|]. intros d Hd.
    rewrite (rs_dms _ _ _ R23), D2 in Hd. rewrite (rs_traffic E s2 s3 d R23). destruct (DD d) as (p & ->). exact (HP d Hd). }
  destruct (lock_validate E k tr sh J J_frame J_ok _ s4 t4 s' tt (conj H4 HJ) (sm_val _ _ _ _ _ _ _ _ Sm)) as (t' & [] & R5 & H5 & _).
  exists t'. split; [rewrite U2, (bind_run _ _ _ _ _ RL), (bind_run _ _ _ _ _ R4); exact R5|].
  destruct (sm_rest _ _ _ _ _ _ _ _ Sm HE N) as (_ & _ & X & _ & _ & _ & Y & _). unfold all_ways, ways in *. rewrite X, Y. exact H5.
Qed.
End Stages.

(** ** Without LSPs *)
Definition empty_ok (s : st) : Prop := m_lsps s = [] /\ forall i, In i (m_ifs s) -> i_res (h_if s i) = 0%Q.
Lemma empty_frame s s' : vframe s s' -> empty_ok s -> empty_ok s'.
Proof. intros (_ & A & B & C) [D F]. split; [congruence|]. intros i. rewrite B, C. apply F. Qed.
Lemma empty_sums (tr : nat -> Q -> Q -> Prop) (sh : Q -> Q -> Prop) c s t : twin tr sh c s t -> empty_ok s -> sums_ok s t.
Proof.
  intros H [L Z].
  assert (X : forall i, In i (m_ifs s) -> FloatSim.reserved_bw fl t i = 0%Q /\ (reserved_bw s i == 0)%Q).
  { intros i Hi. unfold FloatSim.reserved_bw, reserved_bw. destruct (tw_if _ _ _ _ _ H i) as (_ & B & _). rewrite (Z i Hi) in B |- *.
    assert (Y : (round1 (i_res (h_if t i)) == 0)%Q) by (rewrite round1_roundd, (roundd_compat 10 _ _ B); reflexivity). rewrite (fl_zero _ Y). split; reflexivity. }
  split.
  - intros i Hi. unfold FloatSim.res_too_high, res_too_high. destruct (X i Hi) as [-> B]. destruct (tw_idata _ _ _ _ _ H i) as (_ & _ & -> & _). rewrite !AddProofs.Qltb_false. lra.
  - intros info. unfold int_info, FloatSim.int_info. rewrite (tw_lsps _ _ _ _ _ H), L. simpl. intros R. injection R as <-. exists []. split; [reflexivity|].
    intros i Hi _. unfold FloatSim.res_sum_wrong. destruct (X i Hi) as [-> _]. reflexivity.
Qed.

Section Free.
Variables (E : env) (k : kind) (s s' : st).
Hypothesis HE : env_ok E.
Hypothesis NL : m_lsps s = [].
Hypothesis WP : well_posed s.
Hypothesis EK : ends_known s.
Hypothesis CS : cids_set k s.
Hypothesis Pos : forall i, In i (m_ifs s) -> (0 <= i_cap (h_if s i))%Q /\ (0 <= i_pct (h_if s i))%Q.
Hypothesis U : update_simulation E k s = (s', Ok tt).

Lemma free_twin (tr : nat -> Q -> Q -> Prop) (sh : Q -> Q -> Prop) (loose : Prop) (pos : Q -> Prop) :
  (loose -> forall n q f, tr n q f) -> (loose -> forall x y, sh x y) -> (forall n, tr n 0%Q 0%Q) -> (forall n m q f, (n <= m)%nat -> tr n q f -> tr m q f) ->
  (forall n q f x y, tr n q f -> sh x y -> tr (S n) (q + x)%Q (fl (f + y)%Q)) ->
  (forall t mx, pos t -> (0 <= mx)%Z -> sh (t / inject_Z mx)%Q (fl (fl t / fl (inject_Z mx)))%Q) ->
  (forall t n, pos t -> (0 < n)%Z -> sh (t / inject_Z n)%Q (fl (t / inject_Z n))%Q) ->
  loose \/ k = Flex -> (forall d, In d (m_dms s) -> pos (d_traffic (h_dm s d))) ->
  exists t', FloatSim.update_simulation fl E k s = (t', Ok tt) /\ twin tr sh (fun _ => all_ways s' (m_dms s')) s' t'.
Proof.
  intros A1 A2 A3 A4 A5 A6 A7 L HP. assert (N := proj1 WP).
  destruct (both_start E k s) as (s1 & P1 & U1 & U2). assert (U' := U). rewrite U1 in U'.
  apply bind_ok in U' as (s2 & [] & R2 & U'). apply bind_ok in U' as (s4 & [] & R4 & V). unfold route_demands in R4. rewrite !bind_gets in R4.
  apply bind_ok in R4 as (s3 & [] & R3 & R4).
  assert (Sm : simulated E k s s1 s2 s3 s4 s') by (constructor; auto). destruct (start_of E k HE s NL s1 s2 _ P1 R2) as [S2 _].
  assert (RL : FloatSim.route_lsps fl E k s1 = (s2, Ok tt)).
  { revert R2. unfold route_lsps, FloatSim.route_lsps. rewrite !bind_gets.
    destruct (mfor_upd_if (if_res 0%Q) (m_ifs s1) (fun r => eq_refl) s1) as (h & R1 & X1). rewrite !(bind_run _ _ _ _ _ R1).
    destruct (groups_run E (CircuitProofs.with_if s1 h)) as (sg & Rg & _).
    assert (EG : egroups E (CircuitProofs.with_if s1 h) = []).
    { unfold egroups. simpl. rewrite (pr_groups _ _ P1), (pr_lsps _ _ P1), NL. now apply no_groups. }
    rewrite EG in Rg. rewrite !(bind_run _ _ _ _ _ Rg), !bind_gets. auto. }
  refine (stages_twin E k tr sh loose A1 A2 A3 A4 A5 pos A6 A7 empty_ok empty_frame (empty_sums tr sh) s s' s1 s2 s3 s4 HE N Sm (fun _ => 0%nat) s2 U1 U2 RL _ _ HP _).
  - split.
    + apply twin_refl; auto. rewrite (so_ifs _ _ _ S2). intros i Hi. now rewrite (so_if _ _ _ S2 i Hi).
    + intros i. rewrite (so_ifs _ _ _ S2). intros Hi. unfold FloatSim.reservable_bw, reservable_bw, FloatSim.reserved_bw, reserved_bw. rewrite (so_if _ _ _ S2 i Hi). simpl.
      destruct (i_rsvp (h_if s i)); [|reflexivity]. destruct (Pos i Hi) as [Q1 Q2].
      assert (R0 : (fl (round1 0) == 0)%Q) by reflexivity. assert (R0' : (round1 0 == 0)%Q) by reflexivity.
      destruct (room_sign _ _ _ Q1 Q2 R0) as [B1 _]. destruct (room_sign _ _ _ Q1 Q2 R0') as [_ B2].
      assert (X : forall x, (0 <= x)%Q -> Qleb 0 x = true) by (intros x; apply Qle_bool_iff). now rewrite !X.
  - destruct L as [L| ->]; [now left|right]. split; [reflexivity|]. assert (T34 := sm_34 _ _ _ _ _ _ _ _ Sm). assert (R23 := df_same _ _ _ (sm_23 _ _ _ _ _ _ _ _ Sm)).
    destruct (sm_rest _ _ _ _ _ _ _ _ Sm HE N) as (_ & _ & X & _). split.
    + intros d ps ls Hd DP O. rewrite (rs_own_lsps E Flex s2 s3 d R23), (own_nil E Flex s s2 S2 d) in O. injection O as <-. split; [|congruence]. intros _ p it Hp Hit.
      rewrite (rs_dms _ _ _ R23), (so_dms _ _ _ S2) in Hd. rewrite <- (tf_path _ _ _ T34), <- X in DP.
      destruct (final_paths E Flex s s' d HE NL WP EK CS U Hd) as [[F _]|(L0 & F & _)]; rewrite DP in F; [discriminate|]. injection F as ->.
      apply in_map_iff in Hp as (q & <- & _). apply in_map_iff in Hit as (i & <- & _). eauto.
    + intros d ls l p Hd O. rewrite (rs_own_lsps E Flex s2 s3 d R23), (own_nil E Flex s s2 S2 d) in O. injection O as <-. intros [].
  - assert (R24 := sm_24 _ _ _ _ _ _ _ _ Sm). split; [rewrite (rs_lsps _ _ _ R24); apply S2|]. intros i. rewrite (rs_ifs _ _ _ R24), (so_ifs _ _ _ S2). intros Hi.
    destruct (rs_idata _ _ _ R24 i) as (_ & _ & _ & _ & _ & _ & _ & -> & _). now rewrite (so_if _ _ _ S2 i Hi).
Qed.

End Free.

(** traffic close to the exact value *)
Definition close_tr (n : nat) (q f : Q) : Prop := (0 <= q)%Q /\ (0 <= f)%Q /\ near (3 + n) q f.
Definition close_sh (q f : Q) : Prop := (0 <= q)%Q /\ (0 <= f)%Q /\ near 3 q f.

Lemma near_zero n : near n 0 0.
Proof. unfold near. split; lra. Qed.
Lemma close_add n q f x y : close_tr n q f -> close_sh x y -> close_tr (S n) (q + x)%Q (fl (f + y)%Q).
Proof.
  intros (A & B & C) (D & F & G). assert (X : (0 <= q + x)%Q) by lra. assert (Y : (0 <= f + y)%Q) by lra. split; [exact X|]. split; [now apply fl_nonneg|].
  apply near_fl; auto. apply near_plus; auto. apply (near_mono 3); auto. lia.
Qed.
Lemma close_le n m q f : (n <= m)%nat -> close_tr n q f -> close_tr m q f.
Proof. intros L (A & B & C). split; [exact A|]. split; [exact B|]. apply (near_mono (3 + n)); auto; lia. Qed.
Lemma close_zero n : close_tr n 0 0.
Proof. split; [apply Qle_refl|]. split; [apply Qle_refl|]. apply near_zero. Qed.
Lemma inject_pos z : (0 < z)%Z -> (0 < inject_Z z)%Q.
Proof. intros H. unfold Qlt, inject_Z. simpl. lia. Qed.
Lemma close_path t mx : (0 <= t)%Q -> (0 <= mx)%Z -> close_sh (t / inject_Z mx)%Q (fl (fl t / fl (inject_Z mx)))%Q.
Proof.
  intros T M. assert (Ft := fl_nonneg t T). assert (N1 : near 1 t (fl t)) by (apply near_fl; auto; apply near_refl; reflexivity).
  destruct (Z.eq_dec mx 0) as [->|Nz].
  - assert (A : (t / inject_Z 0 == 0)%Q) by (unfold Qdiv; change (/ inject_Z 0)%Q with 0%Q; ring).
    assert (B : (fl t / fl (inject_Z 0) == 0)%Q) by (change (fl (inject_Z 0)) with 0%Q; unfold Qdiv; change (/ 0)%Q with 0%Q; ring).
    rewrite (fl_zero _ B). split; [rewrite A; apply Qle_refl|]. split; [apply Qle_refl|]. apply (near_compat 3 0 _ 0 _); [now symmetry|reflexivity|]. apply near_zero.
  - assert (P : (0 < inject_Z mx)%Q) by (apply inject_pos; lia). assert (N2 : near 1 (inject_Z mx) (fl (inject_Z mx))) by (apply near_fl; [lra|apply near_refl; reflexivity]).
    assert (Q0 : (0 <= t / inject_Z mx)%Q) by (apply Qle_shift_div_l; auto; lra).
    assert (N3 := near_div 1 1 _ _ _ _ T P N1 N2). assert (N4 := near_fl 2 _ _ Q0 N3). split; [exact Q0|]. split; [|exact N4]. exact (near_nonneg _ _ _ Q0 N4).
Qed.
Lemma close_lsp t n : (0 <= t)%Q -> (0 < n)%Z -> close_sh (t / inject_Z n)%Q (fl (t / inject_Z n))%Q.
Proof.
  intros T M. assert (P := inject_pos n M). assert (Q0 : (0 <= t / inject_Z n)%Q) by (apply Qle_shift_div_l; auto; lra).
  assert (N4 : near 1 (t / inject_Z n) (fl (t / inject_Z n))) by (apply near_fl; auto; apply near_refl; reflexivity). assert (F := near_nonneg _ _ _ Q0 N4).
  split; [exact Q0|]. split; [exact F|]. apply (near_mono 1); auto.
Qed.
