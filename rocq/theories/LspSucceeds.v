(** LspSucceeds.v - when update_simulation succeeds on a model with LSPs (C88). *)
From Verif Require Import Base Graph Objects Sim Spec SpecCkt SpecSim SpecMetric SpecOrder SpecShort SpecTotal GraphProofs MonadProofs RoundProofs ResProofs ObjProofs CircuitProofs
  ValidateProofs GroupProofs PathProofs QuietProofs RouteProofs LeastProofs OrderProofs SpecSig SigProofs ResigProofs SigSeq SigUpdate SigEnd LspTotal SigTotal.
From Coq Require Import Permutation Lqa.

(** ** What the circuits check asks depends on availability only *)
Lemma fit_avail k a b : m_ifs b = m_ifs a -> m_nds b = m_nds a -> (forall n, h_nd b n = h_nd a n) ->
  (forall i, In i (m_ifs a) -> i_cap (h_if b i) = i_cap (h_if a i) /\ i_cid (h_if b i) = i_cid (h_if a i) /\ loc b i = loc a i /\ rem b i = rem a i /\
     (available b i <-> available a i)) -> fit k a -> fit k b.
Proof.
  intros I1 I2 Hn L (F1 & F2 & F3 & F4 & F5). unfold fit, pairs_up. rewrite I1, I2.
  assert (O : forall (P Q : nat -> Prop), (forall x, In x (m_ifs a) -> (P x <-> Q x)) -> one_in (m_ifs a) P -> one_in (m_ifs a) Q).
  { intros P Q H (x & Hx & Px & U). exists x. split; [auto|]. split; [now apply H|]. intros y Hy Qy. apply U; auto. now apply H. }
  split; [|split; [|split; [|split]]].
  - intros i Hi Av. destruct (L i Hi) as (_ & L3 & L1 & L2 & L4). apply L4 in Av. destruct (F1 i Hi Av) as [(j & J1 & J2 & J3 & J4) X]. split.
    + exists j. destruct (L j J1) as (_ & M3 & M1 & M2 & M4). rewrite M1, M2, L1, L2. split; [auto|]. split; [now apply M4|auto].
    + rewrite L3. intros Hk Nc. destruct (X Hk Nc) as [X1 X2]. rewrite L1, L2. split; [revert X1|revert X2]; apply O; intros x Hx; destruct (L x Hx) as (_ & -> & -> & -> & _); reflexivity.
  - intros i Hi. destruct (L i Hi) as (-> & _). auto.
  - intros i j Hi Hj Av Rv. destruct (L i Hi) as (-> & L3 & L1 & L2 & L4). destruct (L j Hj) as (-> & M3 & M1 & M2 & M4).
    apply F3; auto; [now apply L4|]. unfold is_reverse in *. now rewrite <- L1, <- L2, <- L3, <- M1, <- M2, <- M3.
  - unfold nd_name. rewrite (map_ext _ (fun n => n_name (h_nd a n))) by (intros n; now rewrite Hn). exact F4.
  - intros Hk. destruct (F5 Hk) as [X Y]. split.
    + rewrite (map_ext_in _ (fun i => ends_text (loc a i) (rem a i))); auto. intros i Hi. destruct (L i Hi) as (_ & _ & -> & -> & _). reflexivity.
    + intros n Hn'. rewrite Hn. now apply Y.
Qed.

(** ** The start of the signalling *)
Section Start.
Variables (E : env) (k : kind).
Hypothesis HE : env_ok E.
Variables s s1 : st.
Hypothesis P : prepared s s1.
Hypothesis N : NoDup (m_ifs s).
Hypothesis Cost : forall i, In i (m_ifs s) -> 1 <= i_cost (h_if s i).
Hypothesis TD : texts_distinct s.
Hypothesis NP : k = Perf -> no_parallel s.

Lemma signals_start : exists s0, cleared s s0 /\ good k s0 /\ texts_distinct s0 /\
  route_lsps E k s1 = mfor (build_groups E (lsrc s0) (ldst s0) (m_lsps s0)) (route_lsp_group E k (parallel_demand_groups E s0)) s0.
Proof.
  destruct (route_lsps_start E k s1) as (s0 & R0 & Z & A1 & A2 & A3 & A4 & A5 & A6 & A7 & A8 & A9 & A10 & A11 & A12 & A13 & A14).
  assert (I0 : m_ifs s0 = m_ifs s) by (rewrite A5; apply P). assert (N0 : h_nd s0 = h_nd s) by (rewrite A1; apply P).
  assert (HI : forall i, In i (m_ifs s) -> h_if s0 i = if_traffic (TNum 0) (if_res 0%Q (h_if s i))).
  { intros i Hi. rewrite (A13 i), (pr_if _ _ P i), Z, (pr_ifs _ _ P). replace (mem_nat i (m_ifs s)) with true by (symmetry; now apply mem_nat_In). reflexivity. }
  assert (HL : forall l, In l (m_lsps s) -> h_ls s0 l = ls_path PUnrouted (h_ls s l)).
  { intros l Hl. rewrite A4, (pr_ls _ _ P l). replace (mem_nat l (m_lsps s)) with true by (symmetry; now apply mem_nat_In). reflexivity. }
  assert (HD : forall d, same_dm_data (h_dm s d) (h_dm s0 d)).
  { intros d. rewrite A3, (pr_dm _ _ P d). destruct (mem_nat d (m_dms s)); repeat split. }
  assert (LF : forall i, In i (m_ifs s) -> loc s0 i = loc s i /\ rem s0 i = rem s i) by (intros i Hi; unfold loc, rem; rewrite N0, HI by auto; auto).
  exists s0. split; [|split; [|split]].
  - constructor; auto. repeat split; [exact I0|rewrite A6|rewrite A7|rewrite A8|rewrite A9]; apply P.
  - constructor; [now rewrite I0| |].
    + intros i Hi. rewrite I0 in Hi. rewrite HI by auto. apply Cost, Hi.
    + intros Hk i j Hi Hj L1 L2. rewrite I0 in Hi, Hj. destruct (LF i Hi) as [X1 X2], (LF j Hj) as [X3 X4]. apply (NP Hk i j Hi Hj); congruence.
  - assert (FN : from_names s0 = from_names s /\ to_names s0 = to_names s).
    { unfold from_names, to_names. rewrite A8, A7, (pr_lsps _ _ P), (pr_dms _ _ P). split; f_equal; apply map_ext_in; intros x Hx.
      - unfold lsp_from. rewrite N0, HL by auto. reflexivity.
      - unfold dmd_from. rewrite N0. destruct (HD x) as (-> & _). reflexivity.
      - unfold lsp_to. rewrite N0, HL by auto. reflexivity.
      - unfold dmd_to. rewrite N0. destruct (HD x) as (_ & -> & _). reflexivity. }
    intros a a' b b'. destruct FN as [-> ->]. apply TD.
  - assert (EG : egroups E s1 = build_groups E (lsrc s0) (ldst s0) (m_lsps s0)).
    { rewrite <- A14. assert (B : m_groups s1 = []) by apply P. unfold egroups in A14. rewrite B in A14. unfold egroups. destruct (m_groups s0) eqn:G0; auto.
      rewrite A14. symmetry. apply build_ext; auto; intros m; [now rewrite A1|rewrite A4; auto]. }
    rewrite EG in R0. assert (DG : parallel_demand_groups E s1 = parallel_demand_groups E s0).
    { unfold parallel_demand_groups. rewrite A7. unfold dsrc, ddst. rewrite A1, A3. reflexivity. }
    rewrite DG in R0. exact R0.
Qed.
End Start.

(** ** Cleared interfaces *)
Lemma fit_nopar k s : k = Perf -> fit k s -> no_parallel s.
Proof.
  intros Hk (_ & _ & _ & _ & F) i j Hi Hj L R. destruct (F Hk) as [F1 _].
  apply (NoDup_map_inj _ _ i j F1 Hi Hj). change (ends_text (loc s i) (rem s i) = ends_text (loc s j) (rem s j)). congruence.
Qed.
Lemma share_pos c p : (0 <= c)%Q -> (0 <= p)%Q -> (0 <= c * (p / 100))%Q.
Proof. intros Hc Hp. apply Qmult_le_0_compat; auto. unfold Qdiv. apply Qmult_le_0_compat; auto. discriminate. Qed.
Lemma share_le c p : (0 <= c)%Q -> (p <= 100)%Q -> (c * (p / 100) <= c)%Q.
Proof.
  intros Hc Hp. assert (X : (p / 100 <= 1)%Q) by (unfold Qdiv; setoid_replace 1%Q with (100 * / 100)%Q by reflexivity; apply Qmult_le_compat_r; [exact Hp|discriminate]).
  setoid_replace c with (c * 1)%Q at 2 by ring. rewrite !(Qmult_comm c). apply Qmult_le_compat_r; auto.
Qed.

Section Total.
Variables (E : env) (k : kind).
Hypothesis HE : env_ok E.
Variable s : st.
Hypothesis WP : well_posed s.
Hypothesis EK : ends_known s.
Hypothesis CS : cids_set k s.
Hypothesis LU : lsps_usual k s.
Hypothesis LF : lsps_fine s.
Hypothesis NP : k = Perf -> no_parallel s.

Lemma cap_pos i : In i (m_ifs s) -> (0 <= i_cap (h_if s i))%Q.
Proof. intros Hi. apply (lu_caps _ _ LU i Hi). Qed.
Lemma cl_open s0 i : cleared s s0 -> In i (m_ifs s) -> open_if s0 i /\ (reserved_bw s0 i == 0)%Q.
Proof.
  intros Cl Hi. assert (R0 : reserved_bw s0 i = 0 # 10) by (unfold reserved_bw; rewrite (cl_if _ _ Cl i Hi); reflexivity). split; [|rewrite R0; reflexivity].
  intros R. unfold reservable_bw. rewrite R, R0. rewrite (cl_if _ _ Cl i Hi). cbn [i_cap i_pct if_traffic if_res].
  apply round1_ge0. destruct (lu_caps _ _ LU i Hi) as (_ & _ & P0 & _). assert (X := share_pos _ _ (cap_pos i Hi) P0). setoid_replace (0 # 10)%Q with 0%Q by reflexivity. lra.
Qed.
Lemma wanted_pos l : In l (m_lsps s) -> (0 <= wanted s l (equal_share s l))%Q.
Proof.
  intros Hl. unfold wanted. destruct (l_cfg (h_ls s l)) as [c|] eqn:C; [exact (lu_cfg _ _ LU l c Hl C)|]. unfold equal_share, Qdiv. apply Qmult_le_0_compat.
  - apply traffic_of_pos. apply (lu_traffic _ _ LU).
  - apply Qinv_le_0_compat. unfold Qle. simpl. lia.
Qed.

Section Groups.
Variable s0 : st.
Hypothesis Cl : cleared s s0.
Hypothesis Gd : good k s0.
Hypothesis T0 : texts_distinct s0.
Let gs := build_groups E (lsrc s0) (ldst s0) (m_lsps s0).
Let dg := parallel_demand_groups E s0.
Let EL : m_lsps s0 = m_lsps s.
Proof. apply (cl_sets _ _ Cl). Qed.

Lemma groups_bw g l : In g gs -> In l (snd g) -> In l (m_lsps s) /\ (wanted s0 l (each (group_traffic s0 dg (fst g)) (List.length (snd g))) == wanted s l (equal_share s l))%Q.
Proof.
  intros Hg Hl. destruct (group_lsps E s0 HE T0 g l Hg Hl) as (Ll0 & G1 & G2). assert (Ll : In l (m_lsps s)) by now rewrite <- EL. split; auto. rewrite G1, G2.
  unfold dg. rewrite (group_total E s0 HE T0 l Ll0). destruct (cl_share s s0 l Cl Ll) as [S1 S2]. rewrite S1, S2.
  unfold wanted. rewrite (cl_ls _ _ Cl l Ll). cbn [l_cfg ls_path]. destruct (l_cfg (h_ls s l)); [reflexivity|]. unfold equal_share. apply each_share. apply traffic_of_pos. apply (lu_traffic _ _ LU).
Qed.
Lemma order_fst g : map fst (flat_map (group_order dg s0) g) = flat_map snd g.
Proof. induction g as [|x l IH]; simpl; auto. rewrite map_app, IH. f_equal. unfold group_order. rewrite map_map. apply map_id. Qed.
Lemma order_bw pre : incl pre gs -> forall l bw, In (l, bw) (flat_map (group_order dg s0) pre) -> (bw == wanted s l (equal_share s l))%Q.
Proof.
  intros I l bw Hin. apply in_flat_map in Hin as (g & Hg & Hin). unfold group_order in Hin. apply in_map_iff in Hin as (m & Em & Hm). injection Em as -> <-.
  apply groups_bw; auto.
Qed.
Lemma nodup_prefix (a b : list nat) : NoDup (a ++ b) -> NoDup a.
Proof. induction a as [|x a IH]; intros H; [constructor|]. simpl in H. inversion H; subst. constructor; auto. intros I. apply H2. apply in_or_app; auto. Qed.

Lemma groups_done : never_split s -> exists s2, mfor gs (route_lsp_group E k dg) s0 = (s2, Ok tt) /\
  let order := flat_map (group_order dg s0) gs in signalling s0 order s2 /\ NoDup (map fst order) /\ Permutation (map fst order) (m_lsps s) /\
  (forall l bw, In (l, bw) order -> (bw == wanted s l (equal_share s l))%Q).
Proof.
  intros NS. assert (NG : NoDup (flat_map snd gs)) by (apply groups_nodup; auto; rewrite EL; apply (lu_once _ _ LU)).
  destruct (groups_run E k HE dg gs s0 Gd) as (s2 & R & Q).
  - intros g l Hg Hl. destruct (groups_bw g l Hg Hl) as [Ll ->]. destruct (cl_ends s s0 l Cl Ll) as [-> ->]. destruct (LF l Ll) as (A & B).
    split; auto. split; [|now apply wanted_pos]. unfold node_names. rewrite (cl_nd _ _ Cl). destruct (cl_sets _ _ Cl) as (_ & -> & _). exact A.
  - intros pre g post s1 Eg Q l m Hl Hm. assert (Ig : incl (pre ++ [g]) gs) by (intros x Hx; rewrite Eg; apply in_or_app; apply in_app_or in Hx as [Hx|[<-|[]]]; simpl; auto).
    assert (Hg : In g gs) by (apply Ig, in_or_app; simpl; auto).
    assert (H1 : forall x, In x (snd g) -> In x (flat_map snd (pre ++ [g]))) by (intros x Hx; apply in_flat_map; exists g; split; auto; apply in_or_app; simpl; auto).
    assert (W : forall h x, In h gs -> In x (snd h) -> forall y, In y (snd h) <-> In y (m_lsps s) /\ lsp_from s y = lsp_from s x /\ lsp_to s y = lsp_to s x).
    { intros h x Hh Hx y. destruct (group_lsps E s0 HE T0 h x Hh Hx) as (Lx & _ & G2). rewrite EL in Lx. rewrite G2. unfold lsps_of. rewrite filter_In, EL.
      split; intros [A B]; (split; [exact A|]); destruct (cl_ends s s0 x Cl Lx) as [E1 E2], (cl_ends s s0 y Cl A) as [E3 E4]; rewrite E1, E2, E3, E4 in *.
      - apply andb_true_iff in B as [B1 B2]. split; now apply String.eqb_eq.
      - destruct B as [-> ->]. now rewrite !String.eqb_refl. }
    apply (NS s0 (flat_map (group_order dg s0) (pre ++ [g])) s1 Cl Q); rewrite ?order_fst; auto.
    + assert (X : gs = (pre ++ [g]) ++ post) by (rewrite Eg, <- app_assoc; reflexivity). rewrite X, flat_map_app in NG. now apply nodup_prefix in NG.
    + intros x Hx. apply in_flat_map in Hx as (h & Hh & Hx). now apply (groups_bw h x (Ig h Hh) Hx).
    + intros x y Hx Hy Ef Et. apply in_flat_map in Hx as (h & Hh & Hx). apply in_flat_map. exists h. split; auto. apply (W h x); auto.
    + apply order_bw. exact Ig.
    + apply (W g l Hg Hl) in Hm as (_ & A & _). auto.
    + apply (W g l Hg Hl) in Hm as (_ & _ & A). auto.
  - exists s2. split; [exact R|]. cbv zeta. split; [exact Q|]. rewrite order_fst. split; [exact NG|]. split.
    + apply NoDup_Permutation; auto; [apply (lu_once _ _ LU)|]. intros l. rewrite <- EL. symmetry. apply (groups_all E s0 HE T0).
    + apply order_bw. apply incl_refl.
Qed.
End Groups.

(** ** After the signalling *)
Section After.
Variables s0 s2 : st.
Variable order : list (nat * Q).
Hypothesis Cl : cleared s s0.
Hypothesis Gd : good k s0.
Hypothesis Q : signalling s0 order s2.
Hypothesis ND : NoDup (map fst order).
Hypothesis PM : Permutation (map fst order) (m_lsps s).
Hypothesis BW : forall l bw, In (l, bw) order -> (bw == wanted s l (equal_share s l))%Q.
Let F : seq_frame s0 s2 := signalling_frame _ _ _ Q.

Lemma af_sets : m_ifs s2 = m_ifs s /\ m_nds s2 = m_nds s /\ m_dms s2 = m_dms s /\ m_lsps s2 = m_lsps s.
Proof. destruct (qf_sets _ _ F) as (A & B & C & D & _), (cl_sets _ _ Cl) as (A' & B' & C' & D' & _). repeat split; congruence. Qed.
Lemma af_nd : h_nd s2 = h_nd s.
Proof. rewrite (qf_nd _ _ F). apply Cl. Qed.
Lemma af_if i : In i (m_ifs s) -> h_if s2 i = if_res (i_res (h_if s2 i)) (if_traffic (TNum 0) (h_if s i)).
Proof. intros Hi. rewrite (qf_if _ _ F i) at 1. rewrite (cl_if _ _ Cl i Hi). reflexivity. Qed.
Lemma af_loc i : In i (m_ifs s) -> loc s2 i = loc s i /\ rem s2 i = rem s i.
Proof. intros Hi. unfold loc, rem. rewrite af_nd, (af_if i Hi). auto. Qed.
Lemma af_ls l : In l (m_lsps s) -> h_ls s2 l = ls_setup (l_setup (h_ls s2 l)) (ls_res (l_res (h_ls s2 l)) (ls_path (l_path (h_ls s2 l)) (h_ls s l))).
Proof. intros Hl. rewrite (qf_ls _ _ F l) at 1. rewrite (cl_ls _ _ Cl l Hl). reflexivity. Qed.
Lemma af_ends l : In l (m_lsps s) -> lsp_from s2 l = lsp_from s l /\ lsp_to s2 l = lsp_to s l.
Proof. intros Hl. unfold lsp_from, lsp_to. rewrite af_nd, (af_ls l Hl). auto. Qed.
Lemma af_tenths l bw : In (l, bw) order -> tenths bw.
Proof.
  intros H. eapply tenths_eq; [symmetry; exact (BW l bw H)|]. apply (lu_tenths _ _ LU). eapply Permutation_in; [exact PM|]. apply in_map_iff. exists (l, bw). auto.
Qed.
Lemma af_open i : In i (m_ifs s) -> open_if s2 i.
Proof. intros Hi. eapply signalling_open; [exact Q|]. now apply cl_open. Qed.
Lemma booked_perm i a b : Permutation a b -> (booked s2 i a == booked s2 i b)%Q.
Proof. unfold booked. induction 1; cbn [map Qsum fold_right]; try reflexivity; fold (Qsum) in *; unfold Qsum in *; [rewrite IHPermutation; reflexivity|ring|etransitivity; eauto]. Qed.
Lemma af_booked i : In i (m_ifs s) -> (reserved_bw s2 i == booked s2 i (m_lsps s))%Q.
Proof.
  intros Hi. rewrite (signalling_booked _ _ _ i Q ND af_tenths). destruct (cl_open s0 i Cl Hi) as [_ ->]. rewrite (booked_perm i _ _ PM). ring.
Qed.
Lemma af_road l : In l (m_lsps s) -> unr s2 l \/ exists p c b q, l_path (h_ls s2 l) = PRouted p c b /\ l_res (h_ls s2 l) = RNum q /\ tenths q /\
  road s2 l p /\ NoDup p.
Proof.
  intros Hl. assert (I : In l (map fst order)) by (eapply Permutation_in; [apply Permutation_sym; exact PM|exact Hl]).
  destruct (signalling_roads k s0 order s2 Gd Q ND l I) as [U|(p & c & b & q & A & B & C & D & G)]; [auto|]. right. exists p, c, b, q. repeat split; auto.
  - eapply af_tenths; eauto.
  - eapply seq_road; eauto.
Qed.
Lemma af_groups s1 : prepared s s1 -> route_lsps E k s1 = (s2, Ok tt) -> egroups E s2 = build_groups E (lsrc s2) (ldst s2) (m_lsps s2).
Proof.
  intros P R. destruct (route_lsps_frame E k s1 s2 (Ok tt) R) as (A1 & _ & _ & _ & _ & _ & A7 & _ & _ & _ & _ & A12 & ->).
  unfold egroups. rewrite (pr_groups _ _ P). symmetry. apply build_ext; auto; [intros n; now rewrite A1|]. intros l. rewrite (A12 l). auto.
Qed.

(** Everything routing the demands needs *)
Lemma af_demands s1 : prepared s s1 -> route_lsps E k s1 = (s2, Ok tt) -> demands_fine s -> exists s4, route_demands E k s2 = (s4, Ok tt) /\ rsame E s2 s4 /\ same_sig s2 s4.
Proof.
  intros P R D. destruct af_sets as (S1 & S2 & S3 & S4). destruct WP as (N & C & _).
  assert (HD : h_dm s2 = h_dm s1) by apply (route_lsps_frame E k s1 s2 (Ok tt) R).
  assert (DE : forall d, dmd_from s2 d = dmd_from s d /\ dmd_to s2 d = dmd_to s d).
  { intros d. unfold dmd_from, dmd_to. rewrite af_nd, HD, (pr_dm _ _ P d). destruct (mem_nat d (m_dms s)); auto. }
  apply (demands_total E k HE s2).
  - now rewrite S1.
  - rewrite S1. intros i Hi. rewrite (af_if i Hi). apply C, Hi.
  - rewrite S1. intros Hk i j Hi Hj. destruct (af_loc i Hi) as [-> ->], (af_loc j Hj) as [-> ->]. now apply NP.
  - intros i. rewrite S1, S2. intros Hi. destruct (af_loc i Hi) as [-> ->]. unfold nd_name. rewrite af_nd. exact (EK i Hi).
  - eapply af_groups; eauto.
  - rewrite S4. intros l Hl. assert (M : omm (h_ls s2 l) = omm (h_ls s l)) by (rewrite (af_ls l Hl); reflexivity). rewrite M.
    assert (X := lu_metric _ _ LU l). unfold mstate_of, omm in *. destruct (l_imm (h_ls s l)) as [z|]; [|eauto]. destruct (Z.eqb z 0); [eauto|].
    assert (0 < z)%Z by (apply X; auto). destruct (Z.ltb_spec 0 z); [eauto|lia].
  - rewrite S4. intros l Hl Rl. destruct (af_road l Hl) as [U|(p & c & b & q & A & B & T & Ro & Np)].
    + unfold lsp_routed, unr in *. rewrite U in Rl. discriminate.
    + exists p, c, b. split; auto. eapply route_weaken; [|exact Ro]. intros i Hi [X Y]. rewrite S1 in Hi. split; auto.
      apply (open_reservable s2 i Y). apply af_open, Hi.
  - intros Hk (n & Hn & Sn). rewrite S2 in Hn. rewrite af_nd in Sn. assert (X := lu_texts _ _ LU Hk (ex_intro _ n (conj Hn Sn))).
    unfold node_texts in *. rewrite S2, S4. unfold nd_name. rewrite af_nd.
    rewrite (map_ext_in (lsp_from s2) (lsp_from s)) by (intros l Hl; now apply af_ends). rewrite (map_ext_in (lsp_to s2) (lsp_to s)) by (intros l Hl; now apply af_ends). exact X.
  - rewrite S4. intros l Hl. destruct (af_ends l Hl) as [-> ->]. apply (LF l Hl).
  - intros d. rewrite S2, S3. intros Hd. destruct (DE d) as [-> ->]. unfold nd_name. rewrite af_nd. exact (D d Hd).
Qed.

(** Validation *)
Lemma filter_key i p : In i (m_ifs s) -> NoDup p -> (forall j, In j p -> In j (m_ifs s)) ->
  List.length (filter (same_key s i) p) = (if existsb (Nat.eqb i) p then 1 else 0)%nat.
Proof.
  intros Hi. assert (SK : forall j, In j (m_ifs s) -> same_key s i j = Nat.eqb i j).
  { intros j Hj. unfold same_key. destruct (Nat.eqb_spec i j) as [->|Ne]; [now rewrite !String.eqb_refl|].
    destruct (String.eqb_spec (i_name (h_if s i)) (i_name (h_if s j))) as [A|A]; auto. destruct (String.eqb_spec (loc s i) (loc s j)) as [B|B]; auto.
    destruct Ne. apply (NoDup_map_inj (if_key s) (m_ifs s)); auto; [apply (lu_ifs _ _ LU)|]. unfold if_key. congruence. }
  induction p as [|j p IH]; intros Np Hp; [reflexivity|]. inversion Np as [|? ? Nj Np']; subst. cbn [filter existsb]. rewrite (SK j) by (apply Hp; left; auto).
  specialize (IH Np' (fun x Hx => Hp x (or_intror Hx))). destruct (Nat.eqb_spec i j) as [->|Ne]; [|exact IH]. cbn [orb List.length]. rewrite IH.
  destruct (existsb (Nat.eqb j) p) eqn:X; auto. apply existsb_exists in X as (y & Hy & Ey). apply Nat.eqb_eq in Ey. subst y. contradiction.
Qed.
Lemma tenths_le x y : tenths x -> tenths y -> (x <= y + (1 # 20))%Q -> (x <= y)%Q.
Proof.
  intros (a & Ha) (b & Hb) H. rewrite Ha, Hb in *. unfold Qle, Qplus in *. simpl in *. nia.
Qed.
Lemma af_cap i : In i (m_ifs s) -> (reserved_bw s2 i <= i_cap (h_if s i))%Q.
Proof.
  intros Hi. destruct (lu_caps _ _ LU i Hi) as (Tc & _ & P0 & P1). destruct (i_rsvp (h_if s i)) eqn:Rs.
  - apply tenths_le; auto; [exists (rhe (i_res (h_if s2 i) * 10)); reflexivity|]. assert (O := af_open i Hi).
    assert (R2 : i_rsvp (h_if s2 i) = true) by (rewrite (af_if i Hi); exact Rs). assert (B := open_bound s2 i (reserved_bw s2 i) O R2 (proj2 (reserved_iff _ _ _) (Qeq_refl _))).
    rewrite (af_if i Hi) in B. cbn [i_cap i_pct if_res if_traffic] in B. rewrite <- cap_pct in B. assert (X := share_le _ _ (cap_pos i Hi) P1). lra.
  - rewrite (af_booked i Hi). assert (Z : (booked s2 i (m_lsps s) == 0)%Q).
    { unfold booked. assert (X : forall l, In l (m_lsps s) -> holds s2 i l = 0%Q).
      { intros l Hl. unfold holds. destruct (af_road l Hl) as [U|(p & c & b & q & A & B & T & Ro & Np)]; [unfold unr in U; now rewrite U|]. rewrite A, B.
        destruct (existsb (Nat.eqb i) p) eqn:Ex; auto. apply existsb_exists in Ex as (y & Hy & Ey). apply Nat.eqb_eq in Ey. subst y.
        destruct (PathProofs.route_in _ _ _ _ _ Ro i Hy) as [_ [_ Y]]. rewrite (af_if i Hi) in Y. cbn [i_rsvp if_res if_traffic] in Y. congruence. }
      clear -X. induction (m_lsps s) as [|l ls IH]; [reflexivity|]. cbn [map Qsum fold_right]. rewrite (X l) by (left; auto). fold (Qsum (map (holds s2 i) ls)).
      rewrite IH by (intros; apply X; right; auto). reflexivity. }
    rewrite Z. apply cap_pos, Hi.
Qed.

Section Valid.
Variable s4 : st.
Hypothesis R : rsame E s2 s4.
Hypothesis Sg : same_sig s2 s4.
Let S1 := proj1 af_sets.
Let S2 := proj1 (proj2 af_sets).
Let S4 := proj2 (proj2 (proj2 af_sets)).
Lemma va_ifs : m_ifs s4 = m_ifs s.
Proof. rewrite (rs_ifs _ _ _ R); exact S1. Qed.
Lemma va_lsps : m_lsps s4 = m_lsps s.
Proof. rewrite (rs_lsps _ _ _ R); exact S4. Qed.
Lemma va_nd n : h_nd s4 n = h_nd s n.
Proof. rewrite (rs_nd _ _ _ R), af_nd; reflexivity. Qed.
Lemma va_if i : In i (m_ifs s) -> i_cap (h_if s4 i) = i_cap (h_if s i) /\ i_cid (h_if s4 i) = i_cid (h_if s i) /\ i_name (h_if s4 i) = i_name (h_if s i) /\
    i_rsvp (h_if s4 i) = i_rsvp (h_if s i) /\ i_pct (h_if s4 i) = i_pct (h_if s i) /\ i_res (h_if s4 i) = i_res (h_if s2 i) /\ loc s4 i = loc s i /\ rem s4 i = rem s i.
Proof. intros Hi. unfold loc, rem. rewrite !va_nd, (rs_if _ _ _ R i), (af_if i Hi). repeat split. Qed.
Lemma va_ls l : l_path (h_ls s4 l) = l_path (h_ls s2 l) /\ l_res (h_ls s4 l) = l_res (h_ls s2 l).
Proof. split; [rewrite (rs_ls _ _ _ R l); reflexivity|apply (Sg l)]. Qed.
Lemma va_road l p : In l (m_lsps s) -> road s2 l p -> forall j, In j p -> In j (m_ifs s).
Proof. intros Hl Ro j Hj. rewrite <- S1. apply (PathProofs.route_in _ _ _ _ _ Ro j Hj). Qed.
Lemma va_sane : lsps_sane s4.
Proof.
  intros l. rewrite va_lsps. intros Hl. destruct (va_ls l) as [-> ->]. destruct (af_road l Hl) as [U|(p & c & b & q & A & B & T & Ro & Np)].
  - unfold unr in U. rewrite U. exact I.
  - rewrite A. split; [|eauto]. intros j Hj. apply in_map. rewrite va_ifs. eapply va_road; eauto.
Qed.
Lemma va_cids : cids_set k s4.
Proof. intros Hk i; rewrite va_ifs; intros Hi; destruct (va_if i Hi) as (_ & -> & _); now apply CS. Qed.
Lemma va_avail i : In i (m_ifs s) -> (available s4 i <-> available (unreserved s) i).
Proof.
  intros Hi. assert (A : forall t, available t i <-> Qleb 0 (reservable_bw t i) = true) by (intros t; apply reservable_ge).
  rewrite !A, !Qleb_le. assert (B : reservable_bw s4 i = reservable_bw s2 i).
  { unfold reservable_bw, reserved_bw. destruct (va_if i Hi) as (-> & _ & _ & -> & -> & -> & _). rewrite (af_if i Hi). reflexivity. }
  rewrite B. assert (R2 : i_rsvp (h_if s2 i) = i_rsvp (h_if s i)) by (rewrite (af_if i Hi); reflexivity). destruct (i_rsvp (h_if s i)) eqn:X.
  - split; intros _.
    + unfold reservable_bw. cbn [h_if unreserved i_rsvp if_res i_cap i_pct]. rewrite X. apply round1_ge0. unfold reserved_bw. cbn [h_if unreserved i_res if_res]. 
      destruct (lu_caps _ _ LU i Hi) as (_ & _ & P0 & _). assert (Y := share_pos _ _ (cap_pos i Hi) P0). setoid_replace (round1 0) with 0%Q by reflexivity. lra.
    + apply (af_open i Hi). exact R2.
  - unfold reservable_bw. cbn [h_if unreserved i_rsvp if_res]. rewrite R2, X. reflexivity.
Qed.
Lemma va_fit : fit k s4 <-> fit k (unreserved s).
Proof.
  split; apply fit_avail.
  - symmetry. exact va_ifs.
  - rewrite (rs_nds _ _ _ R). symmetry. exact S2.
  - intros n. symmetry. apply va_nd.
  - rewrite va_ifs. intros i Hi. destruct (va_if i Hi) as (X1 & X2 & _ & _ & _ & _ & X3 & X4). repeat (split; [symmetry; assumption|]). rewrite (va_avail i Hi). reflexivity.
  - exact va_ifs.
  - rewrite (rs_nds _ _ _ R). exact S2.
  - exact va_nd.
  - intros i Hi. change (m_ifs (unreserved s)) with (m_ifs s) in Hi. destruct (va_if i Hi) as (X1 & X2 & _ & _ & _ & _ & X3 & X4).
    do 4 (split; [assumption|]). exact (va_avail i Hi).
Qed.

Lemma af_validate s' r : validate_model E k s4 = (s', r) -> (r = Ok tt <-> fit k (unreserved s)).
Proof.
  intros V. rewrite <- va_fit. assert (N4' : NoDup (m_ifs s4)) by (rewrite va_ifs; apply WP).
  rewrite (validate_accepts_exactly E k s4 s' r round1 HE N4' va_sane va_cids round1_ok V). split.
  - intros (F1 & _ & F3). split; [exact F1|]. split; [|exact F3]. intros i. rewrite va_ifs. intros Hi. destruct (va_if i Hi) as (-> & _). now apply cap_pos.
  - intros (F1 & F2 & F3). split; [exact F1|]. split; [|exact F3].
    intros i. rewrite va_ifs. intros Hi. destruct (va_if i Hi) as (-> & _ & _ & _ & _ & -> & _). fold (reserved_bw s2 i). split; [now apply af_cap|].
    assert (T : (lsp_total round1 s4 i (m_lsps s4) == reserved_bw s2 i)%Q).
    { rewrite (af_booked i Hi), va_lsps. unfold booked. assert (X : forall l, In l (m_lsps s) -> (lsp_amount round1 s4 i l == holds s2 i l)%Q).
      { intros l Hl. unfold lsp_amount, holds. destruct (va_ls l) as [-> ->]. destruct (af_road l Hl) as [U|(p & c & b & q & A & B & Tq & Ro & Np)]; [unfold unr in U; rewrite U; reflexivity|].
        rewrite A, B. assert (SK : filter (same_key s4 i) p = filter (same_key s i) p).
        { apply filter_ext_in. intros j Hj. assert (Hj' := va_road l p Hl Ro j Hj). unfold same_key. destruct (va_if i Hi) as (_ & _ & -> & _ & _ & _ & -> & _), (va_if j Hj') as (_ & _ & -> & _ & _ & _ & -> & _). reflexivity. }
        rewrite SK, (filter_key i p Hi Np (va_road l p Hl Ro)). assert (Rq : (round1 q == q)%Q) by (rewrite round1_roundd; apply roundd_id; exact Tq).
        destruct (existsb (Nat.eqb i) p); cbn [Z.of_nat Pos.of_succ_nat]; rewrite Rq; ring. }
      clear -X. induction (m_lsps s) as [|l ls IH]; [reflexivity|]. cbn [map Qsum fold_right lsp_total]. fold (Qsum (map (holds s2 i) ls)).
      rewrite (X l) by (left; auto). rewrite IH by (intros; apply X; right; auto). reflexivity. }
    rewrite (round1_compat _ _ T). unfold reserved_bw. rewrite round1_idem. reflexivity.
Qed.
End Valid.
End After.

(** ** update_simulation succeeds *)
Lemma succeeds_lsps : demands_fine s -> never_split s -> fit k (unreserved s) -> exists s', update_simulation E k s = (s', Ok tt).
Proof.
  intros D NS FT. destruct (update_start E k s) as (s1 & P & U). destruct WP as (N & C & T). destruct (signals_start E k s s1 P N C T NP) as (s0 & Cl & Gd & T0 & R).
  destruct (groups_done s0 Cl Gd T0 NS) as (s2 & R2 & Q & ND & PM & BW). rewrite R2 in R.
  destruct (af_demands s0 s2 _ Cl Gd Q ND PM BW s1 P R D) as (s4 & R4 & S4 & G4). destruct (validate_model E k s4) as [s' r] eqn:V.
  apply (af_validate s0 s2 _ Cl Gd Q ND PM BW s4 S4 G4 s' r V) in FT. subst r.
  exists s'. rewrite U, (bind_run _ _ _ _ _ R), (bind_run _ _ _ _ _ R4). exact V.
Qed.

(** Conversely, when no group is routed in part *)
Lemma needs_fit s' : never_split s -> update_simulation E k s = (s', Ok tt) -> fit k (unreserved s).
Proof.
  intros NS H. destruct (update_start E k s) as (s1 & P & U). destruct WP as (N & C & T). destruct (signals_start E k s s1 P N C T NP) as (s0 & Cl & Gd & T0 & R).
  destruct (groups_done s0 Cl Gd T0 NS) as (s2 & R2 & Q & ND & PM & BW). rewrite R2 in R. rewrite U, (bind_run _ _ _ _ _ R) in H.
  apply bind_ok in H as (s4 & [] & H4 & V). unfold route_demands in H4. rewrite !bind_gets in H4. apply bind_ok in H4 as (s3 & [] & H3 & H4).
  destruct (route_demand_loop E k _ _ _ _ H3) as (F & _). assert (T4 := pres_run _ _ _ _ _ (tframe_util E k) H4).
  assert (S4 : rsame E s2 s4) by (eapply rsame_trans; [apply F|apply T4]).
  assert (G4 : same_sig s2 s4) by (eapply same_sig_trans; [apply (df_sig _ _ _ F)|apply (tf_sig _ _ _ T4)]).
  now apply (af_validate s0 s2 _ Cl Gd Q ND PM BW s4 S4 G4 s' (Ok tt) V).
Qed.

(** What update_simulation then makes of the LSPs *)
Lemma update_never s' : never_split s -> update_simulation E k s = (s', Ok tt) ->
  exists s0 order s2, cleared s s0 /\ good k s0 /\ signalling s0 order s2 /\ NoDup (map fst order) /\ Permutation (map fst order) (m_lsps s) /\
    (forall l bw, In (l, bw) order -> (bw == wanted s l (equal_share s l))%Q) /\ (forall l, l_path (h_ls s' l) = l_path (h_ls s2 l) /\ l_res (h_ls s' l) = l_res (h_ls s2 l)).
Proof.
  intros NS H. destruct WP as (N & C & T). destruct (simulated_ex E k s s' H) as (s1 & s2 & s3 & s4 & Sm).
  destruct (signals_start E k s s1 (sm_prep _ _ _ _ _ _ _ _ Sm) N C T NP) as (s0 & Cl & Gd & T0 & R).
  destruct (groups_done s0 Cl Gd T0 NS) as (t & R2 & Q & ND & PM & BW). rewrite R2 in R. rewrite (sm_lsps _ _ _ _ _ _ _ _ Sm) in R. injection R as <-.
  eexists s0, _, s2. split; [exact Cl|]. split; [exact Gd|]. split; [exact Q|]. split; [exact ND|]. split; [exact PM|]. split; [exact BW|].
  intros l. destruct (sm_lsp E k HE _ _ _ _ _ _ Sm N l) as (A & B & _). auto.
Qed.
End Total.
