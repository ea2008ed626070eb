(** FloatLsps.v - a whole simulation with LSPs in floating point arithmetic, when all
    amounts are multiples of a half. *)
From Verif Require Import Base Graph Objects Sim Spec SpecCkt Float GraphProofs ObjProofs MonadProofs RoundProofs FloatProofs ResProofs PathProofs QuietProofs CircuitProofs RouteProofs TrafficProofs FloatLock FloatFree LeastProofs OrderProofs SpecSig SigProofs SigSeq ResigProofs SigUpdate LspSucceeds FloatSig FloatGroups GroupProofs IgpProofs MetricProofs UtilProofs SpecSim SpecFloat FloatMain.
From Verif Require FloatSim.
From Coq Require Import Lqa.

(** ** The checks of the reservations *)
Definition sums_known (B : Q) (s : st) : Prop := (forall i, In i (m_ifs s) -> small (i_res (h_if s i))) /\ (forall l, In l (m_lsps s) -> held B s l).
Lemma sums_frame B s s' : vframe s s' -> sums_known B s -> sums_known B s'.
Proof.
  intros (A & C & D & F) [X Y]. split.
  - intros i. rewrite D, F. apply X.
  - intros l. rewrite C. intros Hl. unfold held. rewrite A, D. apply Y, Hl.
Qed.

Lemma rmap_pairs {A U V} (P : U -> V -> Prop) (f : A -> res U) (g : A -> res V) l : (forall x u, In x l -> f x = Ok u -> exists v, g x = Ok v /\ P u v) ->
  forall r, rmap f l = Ok r -> exists r', rmap g l = Ok r' /\ Forall2 P r r'.
Proof.
  induction l as [|x l IH]; intros H r R; simpl in *.
  - injection R as <-. exists []. auto.
  - destruct (f x) as [u|] eqn:F; [|discriminate]. simpl in R. destruct (rmap f l) as [us|] eqn:G; [|discriminate]. injection R as <-.
    destruct (H x u (or_introl eq_refl) F) as (v & -> & Hv). destruct (IH (fun y w Hy => H y w (or_intror Hy)) us eq_refl) as (vs & -> & Hs). exists (v :: vs). auto.
Qed.
Lemma concat_pairs {U V} (P : U -> V -> Prop) r r' : Forall2 (Forall2 P) r r' -> Forall2 P (List.concat r) (List.concat r').
Proof. induction 1; simpl; auto. now apply Forall2_app. Qed.

Definition same_entry (a b : (string * string) * Q) : Prop := fst b = fst a /\ (snd b == snd a)%Q /\ half (snd a) /\ (0 <= snd a)%Q.
Lemma entries_sum info info' key : Forall2 same_entry info info' -> (info_sum info key <= pow2 44)%Q -> (FloatSim.info_sum fl info' key == info_sum info key)%Q.
Proof.
  intros F L. unfold FloatSim.info_sum, info_sum in *. set (f := fun kq : (string * string) * Q => key2_eqb (fst kq) key) in *.
  assert (X : Forall2 (fun x y => (y == x)%Q /\ half x /\ (0 <= x)%Q) (map snd (filter f info)) (map snd (filter f info'))).
  { clear L. induction F as [|a b l l' H F IH]; simpl; auto. destruct H as (H1 & H2 & H3 & H4). assert (fb : f b = f a) by (unfold f; rewrite H1; reflexivity). rewrite fb. destruct (f a); simpl; auto. }
  set (xs := map snd (filter f info)) in *. set (ys := map snd (filter f info')) in *. clearbody xs ys. clear F f info info'.
  assert (Hy : forall y, In y ys -> half y /\ (0 <= y)%Q).
  { clear L. induction X as [|a b l l' H F IH]; intros y [].
    - subst y. destruct H as (H1 & H2 & H3). split; [eapply half_compat; [symmetry; exact H1|exact H2]|rewrite H1; exact H3].
    - auto. }
  assert (Sm : (Qsum ys == Qsum xs)%Q).
  { clear L Hy. induction X as [|a b l l' H F IH]; [reflexivity|]. simpl. rewrite IH. destruct H as (-> & _). reflexivity. }
  unfold FloatSim.Rsum. rewrite Rsum_half; [rewrite Sm; ring|exact Hy|exists 0%Z; reflexivity|apply Qle_refl|rewrite Sm; lra].
Qed.

Lemma entries_half info info' key : Forall2 same_entry info info' -> half (info_sum info key).
Proof.
  intros F. unfold info_sum. set (f := fun kq : (string * string) * Q => key2_eqb (fst kq) key). induction F as [|a b l l' H F IH]; simpl; [exists 0%Z; reflexivity|].
  destruct (f a); simpl; [|exact IH]. apply half_plus; [apply H|exact IH].
Qed.

Lemma known_sums (tr : nat -> Q -> Q -> Prop) (sh : Q -> Q -> Prop) B c s t : twin tr sh c s t -> sums_known B s -> sums_ok s t.
Proof.
  intros H [Res Held].
  assert (R1 : forall i, In i (m_ifs s) -> (reserved_bw s i == i_res (h_if s i))%Q) by (intros i Hi; apply half_round1, Res, Hi).
  assert (R2 : forall i, In i (m_ifs s) -> (FloatSim.reserved_bw fl t i == i_res (h_if s i))%Q).
  { intros i Hi. rewrite (tw_reserved _ _ _ _ _ H i). rewrite (fl_ext _ _ (R1 i Hi)). apply small_fl. now apply Res. }
  split.
  - intros i Hi. unfold FloatSim.res_too_high, res_too_high. destruct (tw_idata _ _ _ _ _ H i) as (_ & _ & -> & _). rewrite !AddProofs.Qltb_false, (R1 i Hi), (R2 i Hi). auto.
  - intros info I. unfold int_info in I. unfold FloatSim.int_info.
    set (f := fun l => rbind (lsp_interfaces s l) _) in I. set (g := fun l => rbind (lsp_interfaces t l) _).
    destruct (rmap f (filter (lsp_routed s) (m_lsps s))) as [ls|] eqn:Rf; [|discriminate]. injection I as <-.
    destruct (rmap_pairs (Forall2 same_entry) f g (filter (lsp_routed s) (m_lsps s))) with (r := ls) as (ls' & Rg & F2).
    { intros l u Hl U. apply filter_In in Hl as [Hl Rt]. subst f g. cbv beta in *. rewrite (tw_interfaces _ _ _ _ _ H). destruct (lsp_interfaces s l) as [p|] eqn:LI; [|discriminate]. simpl in U |- *.
      assert (LP : exists co b, l_path (h_ls s l) = PRouted p co b) by (unfold lsp_interfaces in LI; destruct (l_path (h_ls s l)); try discriminate; injection LI as ->; eauto). destruct LP as (co & b & LP).
      destruct (Held l Hl _ _ _ LP) as (_ & _ & q & Hq & Sq & _ & Q0). destruct (tw_ls _ _ _ _ _ H l) as (_ & _ & Sr & _). rewrite Hq in Sr. destruct (l_res (h_ls t l)) as [| |q'] eqn:Hq'; try contradiction. simpl in Sr.
      revert u U. apply rmap_pairs. intros i u Hi U. rewrite (tw_ifs _ _ _ _ _ H). 
      assert (EX : forall js, existsb (fun j => key2_eqb (ikey t j) (ikey t i)) js = existsb (fun j => key2_eqb (ikey s j) (ikey s i)) js).
      { induction js as [|j js IH]; simpl; auto. rewrite IH, !(tw_key _ _ _ _ _ H). reflexivity. }
      rewrite EX. destruct (existsb _ _); [|discriminate]. rewrite Hq in U. simpl in U. injection U as <-. eexists. split; [reflexivity|].
      assert (V : (round1 q == q)%Q) by (apply half_round1, Sq). assert (V' : (round1 q' == q)%Q) by (rewrite (round1_ext _ _ Sr); exact V).
      split; [simpl; apply (tw_key _ _ _ _ _ H)|]. cbn [fst snd]. split; [|split].
      - rewrite (fl_ext _ _ V'), V. now apply small_fl.
      - eapply half_compat; [symmetry; exact V|apply Sq].
      - rewrite V. exact Q0. }
    { exact Rf. }
    rewrite (tw_lsps _ _ _ _ _ H). rewrite (filter_ext (lsp_routed t) (lsp_routed s) (tw_routed _ _ _ _ _ H)). rewrite Rg. simpl. eexists. split; [reflexivity|].
    intros i Hi W. unfold FloatSim.res_sum_wrong, res_sum_wrong in *. rewrite negb_false_iff in *. unfold Qeqb in *. rewrite Qeq_bool_iff in *.
    destruct (Res i Hi) as [Hh Hb]. 
    assert (X : (round1 (reserved_bw s i) == i_res (h_if s i))%Q) by (rewrite (round1_ext _ _ (R1 i Hi)); now apply half_round1).
    assert (X' : (round1 (FloatSim.reserved_bw fl t i) == i_res (h_if s i))%Q) by (rewrite (round1_ext _ _ (R2 i Hi)); now apply half_round1).
    apply concat_pairs in F2. assert (Y := entries_half _ _ (ikey s i) F2). rewrite X, (half_round1 _ Y) in W.
    assert (Z := entries_sum _ _ (ikey s i) F2). rewrite (tw_key _ _ _ _ _ H). rewrite <- W in Z. assert (L := Qle_Qabs (i_res (h_if s i))).
    apply fl_ext. rewrite X', (round1_ext _ _ (Z ltac:(lra))). symmetry. now apply half_round1.
Qed.

(** ** The start of the signalling, in both simulations *)
Section Both.
Variables (E : env) (k : kind).
Hypothesis HE : env_ok E.
Variables s s1 s2 s3 s4 s' : st.
Hypothesis Sm : simulated E k s s1 s2 s3 s4 s'.
Hypothesis N : NoDup (m_ifs s).
Hypothesis Cost : forall i, In i (m_ifs s) -> 1 <= i_cost (h_if s i).
Hypothesis TD : texts_distinct s.

Lemma both_lsps_start x : exists s0, 
  route_lsps E k x = mfor (egroups E x) (route_lsp_group E k (parallel_demand_groups E x)) s0 /\ 
  FloatSim.route_lsps fl E k x = mfor (egroups E x) (FloatSim.route_lsp_group fl E k (parallel_demand_groups E x)) s0 /\ 
  (forall i, i_res (h_if s0 i) = if mem_nat i (m_ifs x) then 0%Q else i_res (h_if x i)) /\
  h_nd s0 = h_nd x /\ h_sr s0 = h_sr x /\ h_dm s0 = h_dm x /\ h_ls s0 = h_ls x /\
  m_ifs s0 = m_ifs x /\ m_nds s0 = m_nds x /\ m_dms s0 = m_dms x /\ m_lsps s0 = m_lsps x /\ m_srs s0 = m_srs x /\ 
  (forall i, if_ex_res (h_if x i) (h_if s0 i)) /\ egroups E s0 = egroups E x.
Proof.
  unfold route_lsps, FloatSim.route_lsps. rewrite !bind_gets.
  destruct (mfor_upd_if (if_res 0%Q) (m_ifs x) (fun r => eq_refl) x) as (h1 & R1 & X1). rewrite !(bind_run _ _ _ _ _ R1).
  assert (XR : forall i, if_ex_res (h_if x i) (h1 i)).
  { intros i. unfold if_ex_res. rewrite X1. destruct (mem_nat i (m_ifs x)); destruct (h_if x i); reflexivity. }
  assert (X0 : forall i, i_res (h1 i) = if mem_nat i (m_ifs x) then 0%Q else i_res (h_if x i)) by (intros i; rewrite X1; destruct (mem_nat i _); auto).
  assert (G : exists gs, parallel_lsp_groups E (CircuitProofs.with_if x h1) = (set_groups gs (CircuitProofs.with_if x h1), Ok (egroups E x)) /\ egroups E (set_groups gs (CircuitProofs.with_if x h1)) = egroups E x).
  { unfold parallel_lsp_groups, egroups. rewrite bind_gets. change (m_groups (CircuitProofs.with_if x h1)) with (m_groups x). destruct (m_groups x) as [|g gs] eqn:G.
    - rewrite bind_gets, bind_modify. eexists. split; [reflexivity|]. simpl. destruct (build_groups E _ _ _) eqn:Bg; auto.
    - exists (g :: gs). split; [|reflexivity]. unfold ret. f_equal. unfold CircuitProofs.with_if, set_groups. simpl. rewrite <- G. reflexivity. }
  destruct G as (gs & G & EG). rewrite !(bind_run _ _ _ _ _ G), !bind_gets. eexists. split; [reflexivity|]. split; [reflexivity|]. split; [exact X0|]. repeat (split; [reflexivity|]). split; [exact XR|exact EG].
Qed.

Lemma both_signals : exists s0, cleared s s0 /\ good k s0 /\ texts_distinct s0 /\
  let gs := build_groups E (lsrc s0) (ldst s0) (m_lsps s0) in
  mfor gs (route_lsp_group E k (parallel_demand_groups E s0)) s0 = (s2, Ok tt) /\
  FloatSim.route_lsps fl E k s1 = mfor gs (FloatSim.route_lsp_group fl E k (parallel_demand_groups E s0)) s0.
Proof.
  pose proof (sm_lsps _ _ _ _ _ _ _ _ Sm) as R. pose proof (sm_prep _ _ _ _ _ _ _ _ Sm) as P.
  destruct (both_lsps_start s1) as (s0 & R0 & R0' & Z & A1 & A2 & A3 & A4 & A5 & A6 & A7 & A8 & A9 & A13 & A14).
  rewrite R0 in R.
  assert (I0 : m_ifs s0 = m_ifs s) by (rewrite A5; apply P). assert (N0 : h_nd s0 = h_nd s) by (rewrite A1; apply P).
  assert (HI : forall i, In i (m_ifs s) -> h_if s0 i = if_traffic (TNum 0) (if_res 0%Q (h_if s i))).
  { intros i Hi. rewrite (A13 i), (pr_if _ _ P i), Z, (pr_ifs _ _ P). replace (mem_nat i (m_ifs s)) with true by (symmetry; now apply mem_nat_In). reflexivity. }
  assert (HL : forall l, In l (m_lsps s) -> h_ls s0 l = ls_path PUnrouted (h_ls s l)).
  { intros l Hl. rewrite A4, (pr_ls _ _ P l). replace (mem_nat l (m_lsps s)) with true by (symmetry; now apply mem_nat_In). reflexivity. }
  assert (HD : forall d, same_dm_data (h_dm s d) (h_dm s0 d)).
  { intros d. rewrite A3, (pr_dm _ _ P d). destruct (mem_nat d (m_dms s)); repeat split. }
  assert (LF : forall i, In i (m_ifs s) -> loc s0 i = loc s i /\ rem s0 i = rem s i) by (intros i Hi; unfold loc, rem; rewrite N0, HI by auto; auto).
  assert (EG : egroups E s1 = build_groups E (lsrc s0) (ldst s0) (m_lsps s0)).
  { rewrite <- A14. assert (B : m_groups s1 = []) by apply P. unfold egroups in A14. rewrite B in A14. unfold egroups. destruct (m_groups s0) eqn:G0; auto.
    rewrite A14. symmetry. apply build_ext; auto; intros m; [now rewrite A1|rewrite A4; auto]. }
  assert (DG : parallel_demand_groups E s1 = parallel_demand_groups E s0).
  { unfold parallel_demand_groups. rewrite A7. unfold dsrc, ddst. rewrite A1, A3. reflexivity. }
  exists s0. split; [|split; [|split]].
  - constructor; auto. repeat split; [exact I0|rewrite A6|rewrite A7|rewrite A8|rewrite A9]; apply P.
  - constructor; [now rewrite I0| |].
    + intros i Hi. rewrite I0 in Hi. rewrite HI by auto. apply Cost, Hi.
    + intros Hk i j Hi Hj L1 L2. rewrite I0 in Hi, Hj. destruct (sm_12 _ _ _ _ _ _ _ _ Sm) as (B1 & B2 & _ & _ & _ & X & _).
      assert (LF2 : forall i, loc s2 i = loc s i /\ rem s2 i = rem s i) by (intros x; unfold loc, rem; rewrite B1; destruct (X x) as (t & q & ->); auto).
      apply (sm_nopar E k HE _ _ _ _ _ _ Sm N Hk i j); rewrite ?B2; auto.
      * destruct (LF2 i) as [-> _], (LF2 j) as [-> _]. destruct (LF i Hi) as [<- _], (LF j Hj) as [<- _]. exact L1.
      * destruct (LF2 i) as [_ ->], (LF2 j) as [_ ->]. destruct (LF i Hi) as [_ <-], (LF j Hj) as [_ <-]. exact L2.
  - assert (FN : from_names s0 = from_names s /\ to_names s0 = to_names s).
    { unfold from_names, to_names. rewrite A8, A7, (pr_lsps _ _ P), (pr_dms _ _ P). split; f_equal; apply map_ext_in; intros x Hx.
      - unfold lsp_from. rewrite N0, HL by auto. reflexivity.
      - unfold dmd_from. rewrite N0. destruct (HD x) as (-> & _). reflexivity.
      - unfold lsp_to. rewrite N0, HL by auto. reflexivity.
      - unfold dmd_to. rewrite N0. destruct (HD x) as (_ & -> & _). reflexivity. }
    intros a a' b b'. destruct FN as [-> ->]. apply TD.
  - cbv zeta. rewrite EG, DG in R, R0'. split; [exact R|exact R0'].
Qed.

(** ** All LSPs *)
Variable B : Q.
Hypothesis HB : in_halves B s.
Hypothesis NL : NoDup (m_lsps s).
Variables (tr : nat -> Q -> Q -> Prop) (sh : Q -> Q -> Prop).
Hypothesis tr_zero : forall n, tr n 0%Q 0%Q.

Lemma lsps_twin : exists t2, FloatSim.route_lsps fl E k s1 = (t2, Ok tt) /\
  pre k tr sh (fun _ => 0%nat) (3 * B * nq (List.length (m_lsps s))) s2 t2 /\ (forall l, In l (m_lsps s) -> held B s2 l).
Proof.
  destruct both_signals as (s0 & Cl & Gd & T0 & R & R'). cbv zeta in R, R'. rewrite R'.
  set (gs := build_groups E (lsrc s0) (ldst s0) (m_lsps s0)) in *. set (dg := parallel_demand_groups E s0) in *.
  assert (EL : m_lsps s0 = m_lsps s) by apply (cl_sets _ _ Cl). assert (EI : m_ifs s0 = m_ifs s) by apply (cl_sets _ _ Cl). assert (ED : m_dms s0 = m_dms s) by apply (cl_sets _ _ Cl).
  assert (NG : NoDup (flat_map snd gs)) by (apply groups_nodup; auto; rewrite EL; exact NL).
  assert (PG : List.length (flat_map snd gs) = List.length (m_lsps s)).
  { apply Permutation.Permutation_length, Permutation.NoDup_Permutation; auto. intros l. rewrite <- EL. symmetry. apply (groups_all E s0 HE T0). }
  destruct (hv_bound _ _ HB) as [B0 BB]. fold (nq (List.length (m_lsps s))) in BB. change (inject_Z (2 ^ 44)) with (pow2 44) in BB.
  assert (P0 : pre k tr sh (fun _ => 0%nat) 0 s0 s0).
  { split; [|split; [|exact Gd]].
    - apply twin_refl; auto. rewrite EI. intros i Hi. now rewrite (cl_if _ _ Cl i Hi).
    - constructor; rewrite EI; intros i Hi; rewrite (cl_if _ _ Cl i Hi); simpl; [apply (hv_ifs _ _ HB i Hi)|]. split; [exists 0%Z; reflexivity|]. vm_compute. discriminate. }
  destruct (list_eq_dec Nat.eq_dec (m_lsps s) []) as [Z|Z].
  { assert (G : gs = []) by (unfold gs; rewrite EL, Z; now apply no_groups). rewrite G in R |- *. injection R as <-. exists s0. split; [reflexivity|]. rewrite Z. split; [|intros l []].
    eapply pre_mono; [|exact P0]. cbn [List.length]. rewrite times_0. lra. }
  assert (B44 : (B <= pow2 44)%Q).
  { destruct (m_lsps s) as [|l ls]; [congruence|]. cbn [List.length] in BB. rewrite times_S in BB. assert (X := times_pos (3 * B) (List.length ls) ltac:(lra)). lra. }
  rewrite <- PG in BB |- *. destruct (groups_twin E k HE tr sh (fun _ => 0%nat) B B0 dg gs B44 NG 0%Q s0 s0 s2 ltac:(lra) ltac:(lra) P0) as (t2 & R2 & P2 & H2).
  - intros [key ls] Hg. assert (X : exists l, In l ls).
    { assert (Hg' := Hg). apply groups_in in Hg' as (a & b & _ & _ & X); auto; [|now apply lsps_apart]. destruct ls as [|l ls]; [congruence|]. exists l. simpl. auto. }
    destruct X as (l & Hl). destruct (group_lsps E s0 HE T0 _ l Hg Hl) as (Ll0 & G1 & G2). cbn [fst snd] in G1, G2. assert (Ll : In l (m_lsps s)) by now rewrite <- EL.
    assert (HD : forall d, d_traffic (h_dm s0 d) = d_traffic (h_dm s d)) by (intros d; destruct (cl_dm _ _ Cl d) as (_ & _ & -> & _); reflexivity).
    unfold ready_group. cbn [fst snd]. destruct (cl_share s s0 l Cl Ll) as [S1 S2].
    assert (T : group_traffic s0 dg key = traffic_of s l) by (rewrite G1; unfold dg; rewrite (group_total E s0 HE T0 l Ll0); exact S1). rewrite T, G2, S2. split; [|split; [|split]].
    + intros ds d Hds Hin. destruct (build_groups_sound _ _ _ E key ds d Hds Hin) as [Id _]. rewrite ED in Id. rewrite HD. apply (hv_dms _ _ HB d Id).
    + split; [apply traffic_of_pos; intros d Hd; apply (hv_dms _ _ HB d Hd)|apply (hv_traffic _ _ HB l Ll)].
    + intros n Hn. apply (hv_shares _ _ HB l n Ll Hn).
    + intros m x Hm. assert (Lm : In m (m_lsps s)) by (unfold lsps_of in Hm; now apply filter_In in Hm). rewrite (cl_ls _ _ Cl m Lm). cbn [l_cfg ls_path]. intros C.
      destruct (hv_config _ _ HB m x Lm C) as [C1 C2]. split; [exact C1|]. split; [rewrite Qabs_pos; lra|lra].
  - exact R.
  - exists t2. split; [exact R2|]. split; [eapply pre_mono; [|exact P2]; lra|]. intros l Hl. apply H2. rewrite <- EL in Hl. now apply (groups_all E s0 HE T0).
Qed.
End Both.

(** ** The whole simulation *)
Section Whole.
Variables (E : env) (k : kind) (s s' : st) (B : Q).
Hypothesis HE : env_ok E.
Hypothesis WP : well_posed s.
Hypothesis NL : NoDup (m_lsps s).
Hypothesis HB : in_halves B s.
Hypothesis U : update_simulation E k s = (s', Ok tt).

Lemma halves_twin (tr : nat -> Q -> Q -> Prop) (sh : Q -> Q -> Prop) (loose : Prop) (pos : Q -> Prop) :
  (loose -> forall n q f, tr n q f) -> (loose -> forall x y, sh x y) -> (forall n, tr n 0%Q 0%Q) -> (forall n m q f, (n <= m)%nat -> tr n q f -> tr m q f) ->
  (forall n q f x y, tr n q f -> sh x y -> tr (S n) (q + x)%Q (fl (f + y)%Q)) ->
  (forall t mx, pos t -> (0 <= mx)%Z -> sh (t / inject_Z mx)%Q (fl (fl t / fl (inject_Z mx)))%Q) ->
  (forall t n, pos t -> (0 < n)%Z -> sh (t / inject_Z n)%Q (fl (t / inject_Z n))%Q) ->
  loose \/ (k = Flex /\ same_failures s s' /\ forall d, In d (m_dms s) -> no_shortcuts_for k s' d) ->
  (forall d, In d (m_dms s) -> pos (d_traffic (h_dm s d))) ->
  exists t', FloatSim.update_simulation fl E k s = (t', Ok tt) /\ twin tr sh (fun _ => all_ways s' (m_dms s')) s' t'.
Proof.
  intros A1 A2 A3 A4 A5 A6 A7 L HP. destruct WP as (N & Cost & TD).
  destruct (both_start E k s) as (s1 & P1 & U1 & U2). assert (U' := U). rewrite U1 in U'.
  apply bind_ok in U' as (s2 & [] & R2 & U'). apply bind_ok in U' as (s4 & [] & R4 & V). unfold route_demands in R4. rewrite !bind_gets in R4.
  apply bind_ok in R4 as (s3 & [] & R3 & R4).
  assert (Sm : simulated E k s s1 s2 s3 s4 s') by (constructor; auto).
  destruct (lsps_twin E k HE s s1 s2 s3 s4 s' Sm N Cost TD B HB NL tr sh A3) as (t2 & RL & P2 & H2).
  destruct (hv_bound _ _ HB) as [B0 BB]. fold (nq (List.length (m_lsps s))) in BB. change (inject_Z (2 ^ 44)) with (pow2 44) in BB.
  destruct (sm_12 _ _ _ _ _ _ _ _ Sm) as (_ & I2 & _ & D2 & L2 & _).
  refine (stages_twin E k tr sh loose A1 A2 A3 A4 A5 pos A6 A7 (sums_known B) (sums_frame B) (fun c a b => known_sums tr sh B c a b) s s' s1 s2 s3 s4 HE N Sm (fun _ => 0%nat) t2 U1 U2 RL _ _ HP _).
  - split; [apply (proj1 P2)|]. intros i Hi. apply Qleb_ext; [reflexivity|]. exact (rooms k tr sh _ _ s2 t2 BB P2 i Hi).
  - destruct L as [L|(K & St & NS)]; [now left|right]. split; [exact K|]. assert (T34 := sm_34 _ _ _ _ _ _ _ _ Sm). assert (R23 := df_same _ _ _ (sm_23 _ _ _ _ _ _ _ _ Sm)).
    destruct (sm_rest _ _ _ _ _ _ _ _ Sm HE N) as (_ & _ & X & _). 
    assert (D3 : forall d, In d (m_dms s3) -> In d (m_dms s)) by (intros d; rewrite (rs_dms _ _ _ R23), D2; auto). split.
    + intros d ps ls Hd DP O. apply D3 in Hd. rewrite <- (tf_path _ _ _ T34), <- X in DP.
      destruct (lsp_cases E k HE _ _ _ _ _ _ Sm WP U d) as [Ex|No].
      * destruct (sm_ride E k HE _ _ _ _ _ _ Sm WP U St d Hd NL Ex) as (ls' & Ne & _ & _ & Pd & O' & _). rewrite DP in Pd. injection Pd as ->. rewrite O in O'. injection O' as ->.
        split; [congruence|]. intros _. now rewrite map_length.
      * rewrite (sm_ride_not E k HE _ _ _ _ _ _ Sm WP d Hd No ps DP) in O. injection O as <-. split; [|congruence]. intros _ p it Hp Hit.
        assert (Y := igp_paths E k HE s s' d N Cost TD U St Hd No (NS d Hd)). rewrite DP in Y. destruct Y as (Ls & -> & _).
        apply in_map_iff in Hp as (q & <- & _). apply in_map_iff in Hit as (i & <- & _). eauto.
    + intros d ls l p Hd O Hl LI. apply D3 in Hd. destruct (lsp_cases E k HE _ _ _ _ _ _ Sm WP U d) as [Ex|No].
      * destruct (sm_ride E k HE _ _ _ _ _ _ Sm WP U St d Hd NL Ex) as (ls' & _ & _ & Pf & _ & O' & _). rewrite O in O'. injection O' as <-. apply Pf in Hl as ((Hl & _) & _).
        assert (Hl2 : In l (m_lsps s)) by (destruct (sm_lsps' _ _ _ _ _ _ _ _ Sm HE N) as (Y & _); congruence).
        assert (LP : exists co b, l_path (h_ls s3 l) = PRouted p co b) by (unfold lsp_interfaces in LI; destruct (l_path (h_ls s3 l)); try discriminate; injection LI as ->; eauto).
        destruct LP as (co & b & LP). rewrite (rs_ls _ _ _ R23 l) in LP. apply (H2 l Hl2 p co b LP).
      * exfalso. rewrite (rs_own_lsps E k s2 s3 d R23) in O. rewrite (own_e2e E k s2 d _ _ O (sm_no_e2e E k HE _ _ _ _ _ _ Sm N d TD Hd No)) in Hl. destruct Hl.
  - assert (R24 := sm_24 _ _ _ _ _ _ _ _ Sm). split.
    + intros i. rewrite (rs_ifs _ _ _ R24). intros Hi. destruct (rs_idata _ _ _ R24 i) as (_ & _ & _ & _ & _ & _ & _ & -> & _). exact (res_small k tr sh _ _ s2 t2 BB P2 i Hi).
    + intros l. rewrite (rs_lsps _ _ _ R24), L2. intros Hl. assert (H := H2 l Hl). unfold held. rewrite (proj1 (sm_sig24 _ _ _ _ _ _ _ _ Sm l)), (rs_ifs _ _ _ R24), (rs_ls _ _ _ R24 l). exact H.
Qed.

Lemma halves_routes : exists t', FloatSim.update_simulation fl E k s = (t', Ok tt) /\ same_routes s' t'.
Proof.
  destruct (halves_twin (fun _ _ _ => True) (fun _ _ => True) True (fun _ => True)) as (t' & R & H); auto.
  exists t'. split; [exact R|]. eapply twin_routes; exact H.
Qed.
Lemma halves_traffic : k = Flex -> same_failures s s' -> (forall d, In d (m_dms s) -> no_shortcuts_for k s' d) -> (Z.of_nat (3 + all_paths s' (m_dms s')) <= 2 ^ 52)%Z ->
  exists t', FloatSim.update_simulation fl E k s = (t', Ok tt) /\ same_routes s' t' /\ close_traffic (3 + all_paths s' (m_dms s')) s' t' /\ close_details 3 s' t'.
Proof.
  intros K St NS Bd.
  destruct (halves_twin close_tr close_sh False (fun t => 0 <= t)%Q) as (t' & R & H); auto.
  - intros [].
  - intros [].
  - apply close_zero.
  - apply close_le.
  - apply close_add.
  - apply close_path.
  - apply close_lsp.
  - intros d Hd. apply (hv_dms _ _ HB d Hd).
  - exists t'. split; [exact R|]. split; [eapply twin_routes; exact H|]. rewrite all_ways_paths in H. split; [now apply twin_traffic|eapply twin_details; exact H].
Qed.
End Whole.
