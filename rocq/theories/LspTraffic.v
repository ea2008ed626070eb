(** LspTraffic.v - RSVP_LSP.traffic_on_lsp after update_simulation. *)
From Verif Require Import Base Graph Objects Sim Spec SpecCkt SpecSim SpecMetric GraphProofs MonadProofs RoundProofs ResProofs ObjProofs CircuitProofs
  ValidateProofs GroupProofs PathProofs QuietProofs RouteProofs LeastProofs IgpProofs Ecmp TrafficProofs ShareProofs SpecSig SigUpdate MetricProofs FlowProofs UtilProofs
  DemandProofs SpecQuery PathQuery SpecFlow.
From Coq Require Import Lqa.

Lemma same_length (l m : list nat) : NoDup l -> NoDup m -> (forall x, In x l <-> In x m) -> List.length l = List.length m.
Proof. intros A B H. apply Nat.le_antisymm; apply NoDup_incl_length; auto; intros x; apply H. Qed.

Section Least.
Variable E : env.
Variable k : kind.
Hypothesis HE : env_ok E.
Variable X : st.
Hypothesis SR : sig_ready k X.
Variables (u v : string) (cands : list nat).
Hypothesis HC : forall l, In l cands <-> In l (m_lsps X) /\ lsp_from X l = u /\ lsp_to X l = v.
Hypothesis HR : forall l, In l cands -> (lsp_routed X l = true <-> routed_lsp X l).
Hypothesis Ne : u <> v.

Lemma emet_ok l m : In l cands -> lsp_routed X l = true -> emet E k X l = Ok m -> metric X l (mopt m) /\ m <> MUnrouted.
Proof.
  intros Hl Rl Em. destruct (proj1 (HC l) Hl) as (_ & F1 & F2). split.
  - apply (emet_metric E k HE X SR l m); [now apply HR|left; congruence|exact Em].
  - intros ->. unfold emet in Em. unfold lsp_routed in Rl. apply negb_true_iff in Rl. rewrite Rl in Em.
    destruct (omm (h_ls X l)) as [[z|]|]; try discriminate Em. destruct (fst _); discriminate Em.
Qed.

Lemma min_least ms m : rmap (emet E k X) (filter (lsp_routed X) cands) = Ok ms -> py_min (dedup_by mval_eqb ms) = Ok m ->
  forall l, In l (filter (has_metric E k X m) (filter (lsp_routed X) cands)) <-> least_metric X u v l.
Proof.
  intros M P. apply py_min_ok in P as [P1 P2].
  destruct (dedup_spec mval_eqb ms) as [_ DI]; [intros; apply mval_eqb_eq|]. rewrite DI in P1.
  assert (P3 : forall x, In x ms -> mle m x) by (intros; now apply P2, DI). clear P2 DI.
  assert (EV : forall l, In l cands -> lsp_routed X l = true -> exists m', emet E k X l = Ok m' /\ In m' ms).
  { intros l A B. apply rmap_ok in M. assert (I : In l (filter (lsp_routed X) cands)) by (apply filter_In; auto).
    clear - M I. induction M as [|x y l0 l1 H M IH]; [destruct I|]. destruct I as [->|I]; [exists y; split; auto; left; auto|].
    destruct (IH I) as (m' & A & B). exists m'. split; auto. right; auto. }
  intros l. rewrite !filter_In. unfold least_metric. split.
  - intros [[A R] Hm]. split; [now apply HC|]. split; [now apply HR|]. unfold has_metric in Hm.
    destruct (emet E k X l) as [m'|] eqn:El; [|discriminate]. apply mval_eqb_eq in Hm. subst m'. destruct (emet_ok l m A R El) as [Q1 Q2].
    exists (mopt m). split; auto. intros l' A' B'. apply HC in A'. assert (R' := proj2 (HR l' A') B'). destruct (EV l' A' R') as (m' & E1 & E2).
    destruct (emet_ok l' m' A' R' E1) as [Q1' Q2']. exists (mopt m'). split; auto. specialize (P3 m' E2). destruct m, m'; simpl in *; auto; congruence.
  - intros (A & B & mo & Q1 & Q2). apply HC in A. assert (R := proj2 (HR l A) B). split; [auto|]. unfold has_metric.
    destruct (EV l A R) as (m1 & E1 & E2). rewrite E1. apply mval_eqb_eq. destruct (emet_ok l m1 A R E1) as [Q3 Q4].
    assert (mo = mopt m1) by (eapply metric_fun; eauto). subst mo.
    assert (EM : exists l', In l' (filter (lsp_routed X) cands) /\ emet E k X l' = Ok m).
    { apply rmap_ok in M. clear - M P1. induction M as [|x y l0 l1 H M IH]; [destruct P1|]. destruct P1 as [->|P1]; [exists x; split; auto; left; auto|].
      destruct (IH P1) as (l' & A & B). exists l'. split; auto. right; auto. }
    destruct EM as (l' & F1 & F2). apply filter_In in F1 as [F1 F3].
    destruct (emet_ok l' m F1 F3 F2) as [Q5 Q6]. destruct (Q2 l') as (mo' & Q7 & Q8); [now apply HC|now apply HR|].
    assert (mo' = mopt m) by (eapply metric_fun; eauto). subst mo'. specialize (P3 m1 E2).
    destruct m, m1; simpl in *; try congruence; try tauto. f_equal. lia.
Qed.
End Least.

(** the shape of traffic_on_lsp *)
Section Run.
Variable E : env.
Variable k : kind.
Definition demand_share (s : st) (l d : nat) : res Q :=
  match d_detail (h_dm s d) with
  | PDInitial => Err AttributeError
  | PDInfo infos =>
      rbind (rmap (fun inf => match pi_items inf with
                     | None => Err KeyError
                     | Some its => Ok (if mem_item s (ILsp l) its then pi_traffic inf else 0%Q)
                     end) infos) (fun qs => Ok (Qsum qs))
  end.
Lemma Qm_run {A} (m : M A) s : Qm E m -> exists s1, m s = (s1, snd (m s)) /\ quiet E s s1.
Proof. intros [H _]. specialize (H s). exists (fst (m s)). split; [apply surjective_pairing|exact H]. Qed.

Lemma quiet_dms s t l : quiet E s t -> demands_on_lsp t l = demands_on_lsp s l /\ h_dm t = h_dm s.
Proof.
  intros (R & _ & _ & D & _). split; [|exact D]. unfold demands_on_lsp. rewrite (rs_dms _ _ _ R), D. apply filter_ext. intros d. reflexivity.
Qed.

Lemma tol_run s l cands : dict_get (pair_key (lsrc s l) (ldst s l)) (egroups E s) = Some cands ->
  exists s1, quiet E s s1 /\ traffic_on_lsp E k l s = (s1,
   rbind (rmap (emet E k s) (filter (lsp_routed s) cands)) (fun ms =>
   rbind (py_min (dedup_by mval_eqb ms)) (fun m =>
   rbind (rfilter (fun l' => rbind (emet E k s l') (fun m' => Ok (mval_eqb m' m))) (filter (lsp_routed s) cands)) (fun mins =>
   if Nat.eqb (List.length mins) 0 then Err ZeroDivisionError else
   match k with
   | Perf => Ok (Qsum (map (fun d => d_traffic (h_dm s d)) (demands_on_lsp s l)) / inject_Z (Z.of_nat (List.length mins)))%Q
   | Flex => rbind (rmap (demand_share s l) (demands_on_lsp s l)) (fun qs => Ok (Qsum qs))
   end)))).
Proof.
  intros G. unfold traffic_on_lsp. destruct (groups_run E s) as (sa & Ra & Qa). unfold bind at 1. rewrite Ra. cbv beta iota.
  destruct (quiet_dms s sa l Qa) as [D1 D2]. rewrite bind_gets. rewrite D1, D2. rewrite bind_gets.
  assert (RS : rsame E s sa) by apply Qa. rewrite (rs_lsrc _ _ _ RS), (rs_ldst _ _ _ RS), G. rewrite bind_gets.
  assert (FR : filter (lsp_routed sa) cands = filter (lsp_routed s) cands) by (apply filter_ext; intros; now apply (rs_routed E)). rewrite FR.
  destruct (Qm_run (mmap (effective_metric E k) (filter (lsp_routed s) cands)) sa) as (sb & Rb & Qb); [apply Qm_mmap; intros; apply Qm_effective|].
  rewrite (Qv_mmap E) in Rb; [|intros; apply Qm_effective]. rewrite (rmap_ext _ (emet E k s)) in Rb.
  2:{ intros y _. rewrite Qv_effective. now apply emet_rsame. }
  assert (Qab : quiet E s sb) by (eapply (po_trans _ (quiet_preorder E)); eauto).
  unfold bind at 1. rewrite Rb. destruct (rmap (emet E k s) (filter (lsp_routed s) cands)) as [ms|e]; cbn [rbind]; [|exists sb; split; [exact Qab|reflexivity]].
  unfold bind at 1. unfold reads at 1. destruct (py_min (dedup_by mval_eqb ms)) as [m|e]; cbn [rbind]; [|exists sb; split; [exact Qab|reflexivity]].
  assert (QF : forall l', Qm E (m' <- effective_metric E k l' ;; ret (mval_eqb m' m))) by (intros; apply Qm_bind; [apply Qm_effective|intros; apply Qm_ret]).
  destruct (Qm_run (mfilter (fun l' => m' <- effective_metric E k l' ;; ret (mval_eqb m' m)) (filter (lsp_routed s) cands)) sb) as (sc & Rc & Qc); [apply Qm_mfilter; intros; apply QF|].
  rewrite (Qv_mfilter E) in Rc; [|intros; apply QF]. rewrite (rfilter_ext _ (fun l' => rbind (emet E k s l') (fun m' => Ok (mval_eqb m' m)))) in Rc.
  2:{ intros y _. rewrite (Qv_bind E); [|apply Qm_effective|intros; apply Qm_ret]. rewrite Qv_effective. rewrite (emet_rsame E k s sb y); [|apply Qab]. destruct (emet E k s y); reflexivity. }
  assert (Qac : quiet E s sc) by (eapply (po_trans _ (quiet_preorder E)); eauto). exists sc. split; [exact Qac|].
  unfold bind at 1. rewrite Rc. destruct (rfilter _ _) as [mins|e]; cbn [rbind]; [|reflexivity].
  destruct (Nat.eqb (List.length mins) 0); [reflexivity|]. destruct k; [|reflexivity]. unfold reads. 
  destruct (quiet_dms s sc l Qac) as [D3 D4]. rewrite D3. unfold demand_share. rewrite D4. reflexivity.
Qed.
End Run.

Section Done.
Variable E : env.
Variable k : kind.
Hypothesis HE : env_ok E.
Variables s s' : st.
Hypothesis WP : well_posed s.
Hypothesis Up : update_simulation E k s = (s', Ok tt).
Hypothesis St : same_failures s s'.
Let N : NoDup (m_ifs s) := proj1 WP.
Let Cost : forall i, In i (m_ifs s) -> 1 <= i_cost (h_if s i) := proj1 (proj2 WP).
Let TD := proj2 (proj2 WP).

Lemma done_ready : sig_ready k s'.
Proof.
  destruct (simulated_ex _ _ _ _ Up) as (s1 & s2 & s3 & s4 & Sm). assert (SN := sm_same_net E k HE _ _ _ _ _ _ Sm N St).
  split; [rewrite (sn_ifs _ _ SN); exact (sm_N2 E k _ _ _ _ _ _ Sm N)|]. split; [exact (up_cost E k HE s s' WP Up St)|].
  intros Hk i j Hi Hj A B. rewrite (sn_ifs _ _ SN) in Hi, Hj. rewrite !(sn_loc _ _ SN) in A. rewrite !(sn_rem _ _ SN) in B.
  exact (sm_nopar E k HE _ _ _ _ _ _ Sm N Hk i j Hi Hj A B).
Qed.

Lemma done_lsps : m_lsps s' = m_lsps s /\ (forall l, lsp_from s' l = lsp_from s l) /\ (forall l, lsp_to s' l = lsp_to s l).
Proof.
  destruct (simulated_ex _ _ _ _ Up) as (s1 & s2 & s3 & s4 & Sm).
  destruct (sm_rest _ _ _ _ _ _ _ _ Sm HE N) as (B1 & _ & _ & B4 & _ & _ & _ & B8 & _). pose proof (sm_24 _ _ _ _ _ _ _ _ Sm) as R.
  destruct (sm_12 _ _ _ _ _ _ _ _ Sm) as (A1 & A2 & A3 & A4 & A5 & A6 & A7 & A8 & _).
  split; [rewrite B8, (rs_lsps _ _ _ R); exact A5|]. split; intros l.
  - unfold lsp_from. rewrite B1, B4. change (lsrc s4 l = lsrc s l). rewrite (rs_lsrc _ _ _ R). unfold lsrc. rewrite A1. destruct (A7 l) as (p & a & b & ->). reflexivity.
  - unfold lsp_to. rewrite B1, B4. change (ldst s4 l = ldst s l). rewrite (rs_ldst _ _ _ R). unfold ldst. rewrite A1. destruct (A7 l) as (p & a & b & ->). reflexivity.
Qed.

Lemma done_group l : In l (m_lsps s) -> dict_get (pair_key (lsrc s' l) (ldst s' l)) (egroups E s') = Some (lsps_of s' l).
Proof.
  intros Hl. destruct (simulated_ex _ _ _ _ Up) as (s1 & s2 & s3 & s4 & Sm). destruct done_lsps as (D1 & D2 & D3).
  destruct (sm_rest _ _ _ _ _ _ _ _ Sm HE N) as (B1 & _ & _ & B4 & _ & _ & _ & B8 & _ & B10). pose proof (sm_24 _ _ _ _ _ _ _ _ Sm) as R.
  destruct (sm_12 _ _ _ _ _ _ _ _ Sm) as (A1 & A2 & A3 & A4 & A5 & A6 & A7 & A8 & A9).
  assert (EG : egroups E s' = egroups E s2).
  { rewrite <- (rs_gr _ _ _ R). unfold egroups. rewrite B10. destruct (m_groups s4); [|reflexivity]. unfold lsrc, ldst. now rewrite B1, B4, B8. }
  assert (L1 : forall l, lsrc s2 l = lsp_from s l) by (intros x; unfold lsrc, lsp_from; rewrite A1; destruct (A7 x) as (p & a & b & ->); reflexivity).
  assert (L2 : forall l, ldst s2 l = lsp_to s l) by (intros x; unfold ldst, lsp_to; rewrite A1; destruct (A7 x) as (p & a & b & ->); reflexivity).
  assert (I1 : forall a, In a (map (lsrc s2) (m_lsps s2)) -> In a (from_names s)).
  { intros a Ha. rewrite A5 in Ha. unfold from_names. apply in_or_app. left. apply in_map_iff in Ha as (x & <- & Hx). rewrite L1. now apply in_map. }
  assert (I2 : forall a, In a (map (ldst s2) (m_lsps s2)) -> In a (to_names s)).
  { intros a Ha. rewrite A5 in Ha. unfold to_names. apply in_or_app. left. apply in_map_iff in Ha as (x & <- & Hx). rewrite L2. now apply in_map. }
  assert (Hl2 : In l (m_lsps s2)) by (rewrite A5; exact Hl).
  rewrite EG, A9. change (lsrc s' l) with (lsp_from s' l). change (ldst s' l) with (lsp_to s' l). rewrite D2, D3, <- L1, <- L2. rewrite group_get; auto.
  - assert (M : members (lsrc s2) (ldst s2) (m_lsps s2) (lsrc s2 l, ldst s2 l) = lsps_of s' l).
    { unfold members, lsps_of. cbn [fst snd]. rewrite D1, <- A5. apply filter_ext. intros x. now rewrite !D2, !D3, !L1, !L2. }
    rewrite M. assert (I : In l (lsps_of s' l)). { unfold lsps_of. apply filter_In. rewrite !String.eqb_refl, D1. auto. }
    destruct (lsps_of s' l); [destruct I|reflexivity].
  - intros a a' b b' Ha Ha' Hb Hb'. apply TD; auto.
  - intros a' b' Ha' Hb'. apply TD; auto; [apply I1|apply I2]; now apply in_map.
Qed.

(** the metrics are compared without an error if every routed LSP of the group has a
    positive metric *)
Lemma tol_reaches l : In l (m_lsps s) -> routed_lsp s' l -> (forall m, In m (lsps_of s' l) -> routed_lsp s' m -> exists c, 0 < c /\ metric s' m (Some c)) ->
  exists s'' n, quiet E s' s'' /\ traffic_on_lsp E k l s' = (s'', match k with
   | Perf => Ok (Qsum (map (fun d => d_traffic (h_dm s' d)) (demands_on_lsp s' l)) / inject_Z (Z.of_nat n))%Q
   | Flex => rbind (rmap (demand_share s' l) (demands_on_lsp s' l)) (fun qs => Ok (Qsum qs))
   end).
Proof.
  intros Hl Rl PM. destruct (tol_run E k s' l _ (done_group l Hl)) as (s1 & Qs & R). exists s1. rewrite R. clear R. destruct done_lsps as (D1 & D2 & D3).
  assert (HR : forall y, In y (lsps_of s' l) -> (lsp_routed s' y = true <-> routed_lsp s' y)).
  { intros y Hy. unfold lsps_of in Hy. apply filter_In in Hy as [Hy _]. destruct (simulated_ex _ _ _ _ Up) as (t1 & s2 & s3 & s4 & Sm).
    rewrite D1 in Hy. destruct (sm_12 _ _ _ _ _ _ _ _ Sm) as (_ & _ & _ & _ & A & _). rewrite <- A in Hy.
    rewrite <- (sm_routed E k HE _ _ _ _ _ _ Sm WP Up y Hy). unfold lsp_routed. now rewrite (sm_lpath _ _ _ _ _ _ _ _ Sm y HE N). }
  assert (Self : lsp_from s' l <> lsp_to s' l) by (rewrite D2, D3; apply (update_settled E k HE s s' WP Up l Hl)).
  assert (EM : forall y, In y (filter (lsp_routed s') (lsps_of s' l)) -> exists c, emet E k s' y = Ok (MInt c)).
  { intros y Hy. apply filter_In in Hy as [Hy Ry]. destruct (PM y Hy) as (c & Pc & Mc); [now apply HR|].
    assert (Em : forall m, emet E k s' y = Ok m -> metric s' y (mopt m)).
    { intros m. apply (emet_metric E k HE s' done_ready y m); [now apply HR|]. left. unfold lsps_of in Hy. apply filter_In in Hy as [_ Hy].
      rewrite andb_true_iff, !String.eqb_eq in Hy. destruct Hy as [-> ->]. exact Self. }
    destruct (emet E k s' y) as [m|e] eqn:Ey.
    - specialize (Em m eq_refl). assert (X := metric_fun _ _ _ _ Mc Em). destruct m; try discriminate X. eauto.
    - exfalso. revert Ey Mc. unfold emet, metric, omm, mstate_of. destruct (HR y Hy) as [X _]. unfold lsp_routed in Ry. apply negb_true_iff in Ry. rewrite Ry.
      destruct (l_imm (h_ls s' y)) as [z|]; [destruct (z =? 0)%Z|]; try (destruct (l_mm (h_ls s' y)); [intros Q; discriminate Q|]; destruct (fst _); intros Q; discriminate Q).
      intros Q M0. injection M0 as ->. destruct (0 <? z)%Z eqn:Z0; [discriminate Q|]. apply Z.ltb_ge in Z0. lia. }
  set (routed := filter (lsp_routed s') (lsps_of s' l)) in *.
  assert (Il : In l routed). { apply filter_In. split; [unfold lsps_of; apply filter_In; rewrite !String.eqb_refl, D1; auto|]. apply HR; auto. unfold lsps_of. apply filter_In. rewrite !String.eqb_refl, D1; auto. }
  assert (RM : exists zs, rmap (emet E k s') routed = Ok (map MInt zs)).
  { clear - EM. induction routed as [|y r IH]; [exists []; reflexivity|]. destruct (EM y (or_introl eq_refl)) as (c & Ec). destruct IH as (zs & Z); [intros; apply EM; right; auto|].
    exists (c :: zs). simpl. rewrite Ec. cbn [rbind]. rewrite Z. reflexivity. }
  destruct RM as (zs & Z). rewrite Z. cbn [rbind].
  assert (PMin : exists m, py_min (dedup_by mval_eqb (map MInt zs)) = Ok m).
  { destruct (dedup_spec mval_eqb (map MInt zs)) as [_ DI]; [intros; apply mval_eqb_eq|].
    assert (NeD : dedup_by mval_eqb (map MInt zs) <> []).
    { apply rmap_ok in Z. destruct routed as [|y r]; [destruct Il|]. destruct zs as [|z zs]; [inversion Z|]. cbn [map dedup_by]. intros C. discriminate C. }
    assert (AllI : forall x, In x (dedup_by mval_eqb (map MInt zs)) -> is_mint x = true). { intros x Hx. apply DI in Hx. apply in_map_iff in Hx as (z & <- & _). reflexivity. }
    destruct (dedup_by mval_eqb (map MInt zs)) as [|a [|b r]]; [congruence|simpl; eauto|]. unfold py_min. replace (forallb is_mint (a :: b :: r)) with true by (symmetry; now apply forallb_forall).
    destruct (Zmin_list _) as [z|] eqn:Zm; [eauto|]. apply Zmin_list_none in Zm. specialize (AllI a (or_introl eq_refl)). destruct a; try discriminate AllI. discriminate Zm. }
  destruct PMin as (m & Pm). rewrite Pm. cbn [rbind].
  assert (FM : exists mins, rfilter (fun l' => rbind (emet E k s' l') (fun m' => Ok (mval_eqb m' m))) routed = Ok mins).
  { clear - EM. induction routed as [|y r IH]; [exists []; reflexivity|]. destruct (EM y (or_introl eq_refl)) as (c & Ec). destruct IH as (mins & F); [intros; apply EM; right; auto|].
    simpl. rewrite Ec. cbn [rbind]. rewrite F. cbn [rbind]. eauto. }
  destruct FM as (mins & F). rewrite F. cbn [rbind].
  assert (NeM : mins <> []).
  { apply rfilter_ok in F as [_ ->]. apply py_min_ok in Pm as [P1 _]. destruct (dedup_spec mval_eqb (map MInt zs)) as [_ DI]; [intros; apply mval_eqb_eq|]. apply DI in P1.
    apply rmap_ok in Z. assert (X : exists y, In y routed /\ emet E k s' y = Ok m).
    { clear - Z P1. induction Z as [|x y l0 l1 H Z IH]; [destruct P1|]. destruct P1 as [->|P1]; [exists x; split; auto; left; auto|]. destruct (IH P1) as (l' & A & B). exists l'. split; auto. right; auto. }
    destruct X as (y & Hy & Ey). intros C. assert (I : In y []); [|destruct I]. rewrite <- C. apply filter_In. split; auto. rewrite Ey. cbn [rbind]. now apply mval_eqb_eq. }
  destruct mins as [|y mins]; [congruence|]. exists (List.length (y :: mins)). split; [exact Qs|]. reflexivity.
Qed.

Hypothesis NL : NoDup (m_lsps s).
Hypothesis NS : forall d, In d (m_dms s) -> no_shortcuts_for k s' d.

Variables (l : nat) (ls : list nat).
Hypothesis Hl : In l (m_lsps s).
Hypothesis Rl : routed_lsp s' l.
Hypothesis Nls : NoDup ls.
Hypothesis Hls : forall m, In m ls <-> least_metric s' (lsp_from s' l) (lsp_to s' l) m.

Lemma done_dms : m_dms s' = m_dms s.
Proof.
  destruct (simulated_ex _ _ _ _ Up) as (s1 & s2 & s3 & s4 & Sm).
  destruct (sm_rest _ _ _ _ _ _ _ _ Sm HE N) as (_ & _ & _ & _ & _ & _ & B7 & _). pose proof (sm_24 _ _ _ _ _ _ _ _ Sm) as R.
  destruct (sm_12 _ _ _ _ _ _ _ _ Sm) as (_ & _ & _ & A4 & _). rewrite B7, (rs_dms _ _ _ R). exact A4.
Qed.

Lemma in_dmds d : In d (dmds_of s' l) <-> In d (m_dms s) /\ dmd_from s' d = lsp_from s' l /\ dmd_to s' d = lsp_to s' l.
Proof. unfold dmds_of. rewrite filter_In, andb_true_iff, !String.eqb_eq, done_dms. reflexivity. Qed.

(** the demands on the LSP *)
Lemma on_lsp d : In d (m_dms s) ->
  (match d_path (h_dm s' d) with DUnrouted => false | DPaths ps => existsb (fun p => mem_item s' (ILsp l) p) ps end = true <-> In d (dmds_of s' l) /\ In l ls) /\
  (In d (dmds_of s' l) -> exists ls', List.length ls' = List.length ls /\ NoDup ls' /\ (forall m, In m ls' <-> In m ls) /\
    match k with Flex => d_detail (h_dm s' d) = PDInfo (map (fun m => mkPinfo (Some [ILsp m]) None None (d_traffic (h_dm s' d) / count ls)%Q) ls')
               | Perf => True end).
Proof.
  intros Hd. destruct (simulated_ex _ _ _ _ Up) as (s1 & s2 & s3 & s4 & Sm). destruct (lsp_cases E k HE _ _ _ _ _ _ Sm WP Up d) as [Ex|No].
  - destruct (sm_ride E k HE _ _ _ _ _ _ Sm WP Up St d Hd NL Ex) as (ls' & Ne & ND & P & Pd & _ & D).
    assert (PL : In d (dmds_of s' l) -> forall m, In m ls' <-> In m ls).
    { intros Hin m. apply in_dmds in Hin as (_ & F1 & F2). rewrite P, Hls. unfold preferred, least_metric, lsp_of. now rewrite F1, F2. }
    split.
    + rewrite Pd. split.
      * intros H. apply existsb_exists in H as (p & Hp & Hm). apply in_map_iff in Hp as (m & <- & Hm2). unfold mem_item in Hm. simpl in Hm. rewrite orb_false_r in Hm.
        apply Nat.eqb_eq in Hm. subst m. assert (Hin : In d (dmds_of s' l)).
        { apply P in Hm2 as ((_ & F1 & F2) & _). apply in_dmds. auto. }
        split; [exact Hin|]. now apply (PL Hin).
      * intros [Hin Il]. apply existsb_exists. exists [ILsp l]. split; [|unfold mem_item; simpl; now rewrite Nat.eqb_refl].
        apply (in_map (fun m => [ILsp m])). now apply (PL Hin).
    + intros Hin. assert (LL : List.length ls' = List.length ls) by (apply same_length; auto). exists ls'. split; [exact LL|]. split; [exact ND|]. split; [now apply PL|].
      destruct (kind_dec k) as [K|K]; rewrite K; auto. rewrite D. unfold lsp_detail. rewrite K. rewrite (sm_share3 E k HE _ _ _ _ _ _ Sm WP d ls').
      unfold count. now rewrite LL.
  - assert (NI : ~ In d (dmds_of s' l)).
    { intros Hin. apply in_dmds in Hin as (_ & F1 & F2). destruct Rl as (p & c & b & Pl). rewrite (No l) in Pl; [discriminate Pl|]. destruct done_lsps as (D1 & _). split; [now rewrite D1|auto]. }
    split; [|tauto]. split; [|tauto]. intros H. exfalso. assert (A := igp_paths E k HE s s' d N Cost TD Up St Hd No (NS d Hd)).
    destruct (d_path (h_dm s' d)) as [|ps]; [discriminate H|]. destruct A as (L & -> & _). apply existsb_exists in H as (p & Hp & Hm).
    apply in_map_iff in Hp as (q & <- & _). unfold mem_item, if_path in Hm. apply existsb_exists in Hm as (x & Hx & Ex). apply in_map_iff in Hx as (i & <- & _). discriminate Ex.
Qed.

Lemma on_lsp_list : demands_on_lsp s' l = if existsb (Nat.eqb l) ls then dmds_of s' l else [].
Proof.
  unfold demands_on_lsp. set (f := fun d => match d_path (h_dm s' d) with DUnrouted => false | DPaths ps => existsb (fun p => mem_item s' (ILsp l) p) ps end).
  assert (H : forall d, In d (m_dms s') -> (f d = true <-> In d (dmds_of s' l) /\ In l ls)).
  { intros d Hd. rewrite done_dms in Hd. apply (on_lsp d Hd). }
  destruct (existsb (Nat.eqb l) ls) eqn:Il.
  - apply existsb_exists in Il as (x & Hx & Ex). apply Nat.eqb_eq in Ex. subst x. unfold dmds_of. apply filter_ext_in. intros d Hd.
    apply eq_true_iff_eq. rewrite (H d Hd). unfold dmds_of. rewrite filter_In. tauto.
  - assert (NI : ~ In l ls). { intros I. assert (existsb (Nat.eqb l) ls = true) by (apply existsb_exists; exists l; split; [exact I|apply Nat.eqb_refl]). congruence. }
    assert (X : forall d, In d (m_dms s') -> f d = false). { intros d Hd. destruct (f d) eqn:F; auto. apply H in F; tauto. }
    clear - X. induction (m_dms s') as [|d m IH]; auto. simpl. rewrite (X d); [|left; auto]. apply IH. intros; apply X; right; auto.
Qed.

Lemma share_val d : k = Flex -> In d (dmds_of s' l) -> exists q, demand_share s' l d = Ok q /\ (q == if existsb (Nat.eqb l) ls then d_traffic (h_dm s' d) / count ls else 0)%Q.
Proof.
  intros K Hin. assert (Hd : In d (m_dms s)) by (apply in_dmds in Hin; tauto). destruct (proj2 (on_lsp d Hd) Hin) as (ls' & LL & ND & PL & D). rewrite K in D.
  unfold demand_share. rewrite D. set (x := (d_traffic (h_dm s' d) / count ls)%Q).
  assert (X : forall m, rmap (fun inf => match pi_items inf with None => Err KeyError | Some its => Ok (if mem_item s' (ILsp l) its then pi_traffic inf else 0%Q) end)
     (map (fun m => mkPinfo (Some [ILsp m]) None None x) m) = Ok (map (fun m => if Nat.eqb l m then x else 0%Q) m)).
  { induction m as [|y m IH]; [reflexivity|]. cbn [map rmap pi_items pi_traffic]. rewrite IH. unfold mem_item. simpl. now rewrite orb_false_r. }
  rewrite X. cbn [rbind]. eexists. split; [reflexivity|].
  assert (Ex : existsb (Nat.eqb l) ls = existsb (Nat.eqb l) ls').
  { apply eq_true_iff_eq. rewrite !existsb_exists. split; intros (y & Hy & Ey); exists y; split; auto; now apply PL. }
  rewrite Ex. clear - ND. induction ls' as [|y m IH]; [reflexivity|]. inversion ND as [|? ? N1 N2]; subst. cbn [map Qsum fold_right existsb]. fold (Qsum (map (fun m => if Nat.eqb l m then x else 0%Q) m)).
  rewrite (IH N2). destruct (Nat.eqb l y) eqn:El; cbn [orb].
  - apply Nat.eqb_eq in El. subst y. assert (F : existsb (Nat.eqb l) m = false).
    { destruct (existsb (Nat.eqb l) m) eqn:F; auto. apply existsb_exists in F as (z & Hz & Ez). apply Nat.eqb_eq in Ez. subst z. tauto. }
    rewrite F. ring.
  - destruct (existsb (Nat.eqb l) m); ring.
Qed.

Lemma tol_done s'' q : traffic_on_lsp E k l s' = (s'', Ok q) ->
  (q == if existsb (Nat.eqb l) ls then traffic_of s' l / count ls else 0)%Q.
Proof.
  intros H. destruct (tol_run E k s' l _ (done_group l Hl)) as (s1 & Qs & R). rewrite R in H. apply (f_equal snd) in H. cbn [snd] in H. clear R Qs s1.
  apply rbind_ok in H as (ms & M & H). apply rbind_ok in H as (m & P & H). apply rbind_ok in H as (mins & Mn & H).
  apply rfilter_ok in Mn as [_ Mn]. 
  assert (MM : mins = filter (has_metric E k s' m) (filter (lsp_routed s') (lsps_of s' l))).
  { rewrite Mn. apply filter_ext. intros y. unfold has_metric. destruct (emet E k s' y); reflexivity. }
  destruct done_lsps as (D1 & D2 & D3).
  assert (ML := min_least E k HE s' done_ready (lsp_from s' l) (lsp_to s' l) (lsps_of s' l)).
  assert (LM : forall x, In x mins <-> In x ls).
  { intros x. rewrite MM, Hls. apply ML with (ms := ms); auto.
    - intros y. unfold lsps_of. rewrite filter_In, andb_true_iff, !String.eqb_eq. reflexivity.
    - intros y Hy. unfold lsps_of in Hy. apply filter_In in Hy as [Hy _]. destruct (simulated_ex _ _ _ _ Up) as (s1 & s2 & s3 & s4 & Sm).
      rewrite D1 in Hy. destruct (sm_12 _ _ _ _ _ _ _ _ Sm) as (_ & _ & _ & _ & A & _). rewrite <- A in Hy.
      rewrite <- (sm_routed E k HE _ _ _ _ _ _ Sm WP Up y Hy). unfold lsp_routed. now rewrite (sm_lpath _ _ _ _ _ _ _ _ Sm y HE N).
    - rewrite D2, D3. apply (update_settled E k HE s s' WP Up l Hl). }
  assert (LL : List.length mins = List.length ls).
  { apply same_length; auto. rewrite MM. do 2 apply NoDup_filter. unfold lsps_of. apply NoDup_filter. now rewrite D1. }
  rewrite LL in H. destruct (Nat.eqb (List.length ls) 0); [discriminate H|]. rewrite on_lsp_list in H. destruct (kind_dec k) as [K|K]; rewrite K in H.
  - apply rbind_ok in H as (qs & Q1 & Q2). injection Q2 as <-. destruct (existsb (Nat.eqb l) ls) eqn:Ex.
    + assert (X : Forall2 (fun d q => (q == d_traffic (h_dm s' d) / count ls)%Q) (dmds_of s' l) qs).
      { apply rmap_ok in Q1. assert (Y : forall d q, In d (dmds_of s' l) -> demand_share s' l d = Ok q -> (q == d_traffic (h_dm s' d) / count ls)%Q).
        { intros d q Hd Hq. destruct (share_val d K Hd) as (q' & V1 & V2). rewrite Ex in V2. congruence. }
        clear - Q1 Y. revert Y. induction Q1 as [|d q ds qs H F IH]; intros Y; constructor; [apply Y; simpl; auto|apply IH; intros; apply Y; simpl; auto]. }
      unfold traffic_of. clear - X. induction X as [|d q ds qs H F IH]; [simpl; unfold Qdiv; ring|]. cbn [map Qsum fold_right].
      fold (Qsum qs). fold (Qsum (map (fun d => d_traffic (h_dm s' d)) ds)). rewrite H, IH. unfold Qdiv. ring.
    + simpl in Q1. injection Q1 as <-. reflexivity.
  - injection H as <-. destruct (existsb (Nat.eqb l) ls) eqn:Ex; [reflexivity|]. simpl. unfold Qdiv. ring.
Qed.

(** it returns if every routed LSP of the group has a positive metric *)
Lemma tol_returns : (forall m, In m (lsps_of s' l) -> routed_lsp s' m -> exists c, 0 < c /\ metric s' m (Some c)) ->
  exists s'' q, traffic_on_lsp E k l s' = (s'', Ok q).
Proof.
  intros PM. destruct (tol_reaches l Hl Rl PM) as (s1 & n & _ & ->). destruct (kind_dec k) as [K|K].
  - rewrite K. assert (RQ : exists qs, rmap (demand_share s' l) (demands_on_lsp s' l) = Ok qs).
    { rewrite on_lsp_list. destruct (existsb (Nat.eqb l) ls) eqn:Ex; [|exists []; reflexivity].
      assert (V : forall d, In d (dmds_of s' l) -> exists q, demand_share s' l d = Ok q) by (intros d Hd; destruct (share_val d K Hd) as (q & V & _); eauto).
      clear - V. induction (dmds_of s' l) as [|d r IH]; [exists []; reflexivity|]. destruct (V d (or_introl eq_refl)) as (q & Eq). destruct IH as (qs & Q); [intros; apply V; right; auto|].
      exists (q :: qs). simpl. rewrite Eq. cbn [rbind]. rewrite Q. reflexivity. }
    destruct RQ as (qs & Q). rewrite Q. cbn [rbind]. eauto.
  - rewrite K. eauto.
Qed.
End Done.

Section Group.
Variables (E : env) (k : kind).
Hypothesis HE : env_ok E.
Variables s s' : st.
Hypothesis WP : well_posed s.
Hypothesis Up : update_simulation E k s = (s', Ok tt).
Hypothesis St : same_failures s s'.

Lemma done_ls_in l : In l (m_lsps s') -> In l (m_lsps s).
Proof. destruct (simulated_ex _ _ _ _ Up) as (s1 & s2 & s3 & s4 & Sm). destruct (sm_lsps' _ _ _ _ _ _ _ _ Sm HE (proj1 WP)) as (A & _).
  destruct (sm_12 _ _ _ _ _ _ _ _ Sm) as (_ & _ & _ & _ & B & _). congruence. Qed.

Lemma up_ends d : dmd_from s' d = dmd_from s d /\ dmd_to s' d = dmd_to s d.
Proof.
  destruct (simulated_ex _ _ _ _ Up) as (s1 & s2 & s3 & s4 & Sm). destruct (sm_12 _ _ _ _ _ _ _ _ Sm) as (A1 & _ & _ & _ & _ & _ & _ & A8 & _).
  rewrite (sm_from _ _ _ _ _ _ _ _ Sm d HE (proj1 WP)), (sm_to _ _ _ _ _ _ _ _ Sm d HE (proj1 WP)).
  unfold dsrc, ddst, dmd_from, dmd_to. rewrite A1. destruct (A8 d) as (p & ->). split; reflexivity.
Qed.

Lemma tol_group (NL : NoDup (m_lsps s)) (NS : forall d, In d (m_dms s) -> no_shortcuts_for k s' d) l ls (f : nat -> Q) :
  In l ls -> NoDup ls -> (forall m, In m ls <-> least_metric s' (lsp_from s' l) (lsp_to s' l) m) ->
  (forall m, In m ls -> exists s'', traffic_on_lsp E k m s' = (s'', Ok (f m))) ->
  (Qsum (map f ls) == traffic_of s' l)%Q.
Proof.
  intros Hl Nls Hls Hf.
  assert (V : forall m, In m ls -> (f m == traffic_of s' l / count ls)%Q).
  { intros m Hm. destruct (Hf m Hm) as (s'' & R). destruct (proj1 (Hls m) Hm) as ((Im & Fm & Tm) & Rm & _).
    assert (Y := tol_done E k HE s s' WP Up St NL NS m ls (done_ls_in m Im) Rm Nls). rewrite Fm, Tm in Y. specialize (Y Hls s'' (f m) R).
    assert (B : existsb (Nat.eqb m) ls = true) by (apply existsb_exists; exists m; split; [exact Hm|apply Nat.eqb_refl]).
    rewrite B in Y. rewrite Y. unfold traffic_of, dmds_of. now rewrite Fm, Tm. }
  assert (G : forall x m, (forall y, In y m -> (f y == x)%Q) -> (Qsum (map f m) == count m * x)%Q).
  { intros x m. unfold count. induction m as [|y m IH]; intros H; [simpl; ring|]. cbn [map Qsum fold_right]. fold (Qsum (map f m)).
    rewrite (H y) by (simpl; auto). rewrite IH by (intros; apply H; simpl; auto). cbn [List.length]. rewrite Nat2Z.inj_succ. unfold Z.succ. rewrite inject_Z_plus. ring. }
  rewrite (G _ _ V). field. unfold count. destruct ls; [destruct Hl|]. cbn [List.length]. intros X. unfold Qeq in X. simpl in X. lia.
Qed.

Lemma only_own_lsps (NL : NoDup (m_lsps s)) d ps p l : In d (m_dms s) -> no_shortcuts_for k s' d -> d_path (h_dm s' d) = DPaths ps -> In p ps -> In (ILsp l) p ->
  lsp_of s' d l /\ routed_lsp s' l /\ p = [ILsp l].
Proof.
  intros Hd NS Pd Hp Hl. destruct (simulated_ex _ _ _ _ Up) as (s1 & s2 & s3 & s4 & Sm).
  destruct (lsp_cases E k HE _ _ _ _ _ _ Sm WP Up d) as [Ex|NLs].
  - destruct (ride_detail E k HE _ _ _ _ _ _ Sm WP Up St d Hd NL Ex) as (ls & es & _ & _ & Pf & Pd' & _).
    rewrite Pd in Pd'. injection Pd' as ->. apply in_map_iff in Hp as (m & <- & Hm). destruct Hl as [Hl|[]]. injection Hl as ->.
    destruct (proj1 (Pf l) Hm) as (A & B & _). auto.
  - assert (X := igp_paths E k HE s s' d (proj1 WP) (proj1 (proj2 WP)) (proj2 (proj2 WP)) Up St Hd NLs NS). rewrite Pd in X.
    destruct X as (L & -> & _). apply in_map_iff in Hp as (q & <- & Hq). unfold if_path in Hl. apply in_map_iff in Hl as (i & Z & _). discriminate Z.
Qed.

Lemma utilization_down i : In i (m_ifs s) -> (utilization s' i = None <-> i_failed (h_if s' i) = true).
Proof.
  intros Hi. destruct (simulated_ex _ _ _ _ Up) as (s1 & s2 & s3 & s4 & Sm).
  assert (X := sm_iftraffic E k HE _ _ _ _ _ _ Sm WP St i Hi). unfold utilization. destruct (i_failed (h_if s' i)).
  - rewrite X. tauto.
  - destruct X as (q & -> & _). split; intros Z0; discriminate Z0.
Qed.
End Group.

Lemma utilization_spec s i :
  match i_traffic (h_if s i) with
  | TDown => utilization s i = None
  | TNum t => exists q, utilization s i = Some q /\ rounds 100 (t / i_cap (h_if s i) * 100) q
  end.
Proof. unfold utilization. destruct (i_traffic (h_if s i)) as [|q]; [reflexivity|]. eexists. split; [reflexivity|]. rewrite round2_roundd. apply roundd_rounds. Qed.
