(** MetricProofs.v - the least-metric LSPs a demand rides. *)
From Verif Require Import Base Graph Objects Sim Spec SpecCkt SpecSim SpecMetric SpecFlow GraphProofs MonadProofs RoundProofs ResProofs ObjProofs CircuitProofs
  ValidateProofs GroupProofs PathProofs QuietProofs RouteProofs LeastProofs IgpProofs Ecmp TrafficProofs ShareProofs SpecSig SigUpdate.
From Coq Require Import Lqa.

Definition mle (a b : mval) : Prop :=
  match a, b with MInt x, MInt y => x <= y | MNone, MNone => True | MUnrouted, MUnrouted => True | _, _ => False end.
Lemma mle_refl a : mle a a.
Proof. destruct a; simpl; auto. lia. Qed.
Lemma mval_eqb_eq a b : mval_eqb a b = true <-> a = b.
Proof. destruct a, b; simpl; split; intros H; try discriminate; auto; [apply Z.eqb_eq in H; now subst|injection H as ->; apply Z.eqb_refl]. Qed.
Lemma py_min_ok ms m : py_min ms = Ok m -> In m ms /\ forall x, In x ms -> mle m x.
Proof.
  unfold py_min. destruct ms as [|a ms]; [discriminate|]. destruct ms as [|b ms].
  { intros H. injection H as <-. split; [left; auto|]. intros x [<-|[]]. apply mle_refl. }
  set (l := a :: b :: ms). assert (Nl : In a l) by (left; auto). clearbody l.
  destruct (forallb is_mint l) eqn:F.
  - rewrite forallb_forall in F. destruct (Zmin_list _) as [z|] eqn:Z; [|discriminate]. intros H. injection H as <-.
    apply Zmin_list_some in Z as [Z1 Z2]. split.
    + apply in_flat_map in Z1 as (x & Hx & Ix). destruct x; simpl in Ix; try tauto. destruct Ix as [->|[]]. exact Hx.
    + intros x Hx. specialize (F x Hx). destruct x; try discriminate. simpl. apply Z2. apply in_flat_map. exists (MInt z0). simpl. auto.
  - clear F. destruct (forallb _ l) eqn:F; [|discriminate]. rewrite forallb_forall in F. intros H. injection H as <-.
    assert (A : forall x, In x l -> x = MUnrouted) by (intros x Hx; now apply mval_eqb_eq, F).
    split; [now rewrite <- (A a Nl)|]. intros x Hx. rewrite (A x Hx). exact I.
Qed.

Section Value.
Variable E : env.
Variable k : kind.
Variable s : st.

Lemma min_value key : snd (min_metric_lsps E k key s) =
  match dict_get key (egroups E s) with
  | None => Ok []
  | Some cands => rbind (rmap (emet E k s) (filter (lsp_routed s) cands)) (fun ms =>
      match py_min ms with
      | Err ValueError => Ok []
      | Err e => Err e
      | Ok m => rfilter (fun l => rbind (emet E k s l) (fun m' => Ok (mval_eqb m' m && lsp_routed s l))) cands
      end)
  end.
Proof.
  unfold min_metric_lsps.
  assert (QF : forall m l, Qm E (m' <- effective_metric E k l ;; r <- gets (fun s => lsp_routed s l) ;; ret (mval_eqb m' m && r))).
  { intros. apply Qm_bind; [apply Qm_effective|intros; apply Qm_bind; [apply Qm_gets; intros; now apply (rs_routed E)|intros; apply Qm_ret]]. }
  assert (QM : forall cands ms, Qm E (match py_min ms with Err ValueError => ret [] | Err e => raise e | Ok m =>
      mfilter (fun l => m' <- effective_metric E k l ;; r <- gets (fun s => lsp_routed s l) ;; ret (mval_eqb m' m && r)) cands end)).
  { intros. destruct (py_min ms) as [m|e]; [apply Qm_mfilter; intros; apply QF|]. destruct e; try apply Qm_raise; apply Qm_ret. }
  rewrite (Qv_bind E (parallel_lsp_groups E)); [|apply Qm_groups|].
  2:{ intros g. destruct (dict_get key g); [|apply Qm_ret]. apply Qm_bind; [apply Q_routed|]. intros l0. apply Qm_bind; [apply Qm_mmap; intros; apply Qm_effective|]. apply QM. }
  rewrite Qv_groups. cbn [rbind]. destruct (dict_get key (egroups E s)) as [cands|]; [|reflexivity]. rewrite bind_gets.
  rewrite (Qv_bind E); [|apply Qm_mmap; intros; apply Qm_effective|apply QM].
  rewrite (Qv_mmap E); [|intros; apply Qm_effective]. rewrite (rmap_ext _ (emet E k s)); [|intros; apply Qv_effective].
  destruct (rmap (emet E k s) (filter (lsp_routed s) cands)) as [ms|e]; cbn [rbind]; auto. destruct (py_min ms) as [m|e]; [|destruct e; reflexivity].
  rewrite (Qv_mfilter E); [|intros; apply QF]. apply rfilter_ext. intros y _. rewrite (Qv_bind E); [|apply Qm_effective|].
  2:{ intros; apply Qm_bind; [apply Qm_gets; intros; now apply (rs_routed E)|intros; apply Qm_ret]. }
  rewrite Qv_effective. destruct (emet E k s y); cbn [rbind]; auto.
Qed.

(** both computations select the same LSPs *)
Definition has_metric (m : mval) (l : nat) : bool := match emet E k s l with Ok m' => mval_eqb m' m | Err _ => false end.
Lemma filter_filter' {A} (f g : A -> bool) l : filter f (filter g l) = filter (fun x => f x && g x) l.
Proof. induction l as [|x l IH]; auto. simpl. destruct (g x) eqn:Gx; simpl; rewrite IH, ?andb_true_r, ?andb_false_r; destruct (f x); auto. Qed.

Lemma e2e_value d ls : snd (e2e_lsps E k d s) = Ok ls ->
  match dict_get (pair_key (dsrc s d) (ddst s d)) (egroups E s) with
  | None => ls = []
  | Some cands => (filter (lsp_routed s) cands = [] /\ ls = []) \/
      exists ms m, rmap (emet E k s) (filter (lsp_routed s) cands) = Ok ms /\ py_min ms = Ok m /\
                   ls = filter (has_metric m) (filter (lsp_routed s) cands)
  end.
Proof.
  rewrite e2e_none. destruct (dict_get _ _) as [cands|]; [|congruence]. destruct (filter (lsp_routed s) cands) as [|x l] eqn:F; [left; split; congruence|].
  intros H. right. apply rbind_ok in H as (ms & H1 & H). apply rbind_ok in H as (m & H2 & H). exists ms, m. split; [exact H1|]. split; [exact H2|].
  apply rfilter_ok in H as [_ ->]. apply filter_ext. intros y. unfold has_metric. destruct (emet E k s y); reflexivity.
Qed.
Lemma own_e2e d ls ls' : own_lsps E k s d = Ok ls -> snd (e2e_lsps E k d s) = Ok ls' -> ls = ls'.
Proof.
  intros H H'. apply e2e_value in H'. unfold own_lsps in H. rewrite min_value in H. destruct (dict_get _ _) as [cands|]; [|congruence].
  destruct H' as [[F ->]|(ms & m & M & P & ->)].
  - rewrite F in H. cbn in H. congruence.
  - rewrite M in H. cbn [rbind] in H. rewrite P in H. apply rfilter_ok in H as [_ ->]. rewrite filter_filter'. apply filter_ext. intros y.
    unfold has_metric. destruct (emet E k s y); reflexivity.
Qed.
(** when no LSP of the group is routed *)
End Value.

Lemma metric_fun s l m m' : metric s l m -> metric s l m' -> m = m'.
Proof.
  unfold metric. destruct (mstate_of (h_ls s l)) as [c|[c|]]; try congruence. destruct m as [c|], m' as [c'|]; auto.
  - intros (p & [R1 M1] & ->) (q & [R2 M2] & ->). f_equal. apply Z.le_antisymm; auto.
  - intros (p & [R1 _] & _) H. destruct (H p R1).
  - intros H (p & [R1 _] & _). destruct (H p R1).
Qed.

Section Done.
Variable E : env.
Variable k : kind.
Hypothesis HE : env_ok E.
Variables s s1 s2 s3 s4 s' : st.
Hypothesis Sm : simulated E k s s1 s2 s3 s4 s'.
Hypothesis WP : well_posed s.
Hypothesis Up : update_simulation E k s = (s', Ok tt).
Hypothesis St : same_failures s s'.
Let N : NoDup (m_ifs s) := proj1 WP.
Let Cost : forall i, In i (m_ifs s) -> 1 <= i_cost (h_if s i) := proj1 (proj2 WP).

Definition mopt (m : mval) : option Z := match m with MInt z => Some z | _ => None end.

Lemma sm_routed l : In l (m_lsps s2) -> (lsp_routed s2 l = true <-> routed_lsp s' l).
Proof.
  intros Hl. destruct (sm_12 _ _ _ _ _ _ _ _ Sm) as (_ & _ & _ & _ & A & _). rewrite A in Hl.
  destruct (update_settled E k HE s s' WP Up l Hl) as [Se _]. unfold lsp_routed, routed_lsp.
  rewrite (sm_lpath _ _ _ _ _ _ _ _ Sm l HE N). destruct Se as [(p & c & b & q & X & _)|[X _]].
  - rewrite (sm_lpath _ _ _ _ _ _ _ _ Sm l HE N) in X. rewrite X. simpl. split; eauto.
  - unfold unr in X. rewrite (sm_lpath _ _ _ _ _ _ _ _ Sm l HE N) in X. rewrite X. simpl. split; [discriminate|]. intros (p & c & b & Y). discriminate.
Qed.


Lemma sm_cost l : In l (m_lsps s2) -> match fst (get_shortest_path E k s2 (lsrc s2 l) (ldst s2 l) 0) with
  | Some c => exists p, least_cost s' (usable s') (lsp_from s' l) p (lsp_to s' l) /\ c = route_cost s' p
  | None => forall p, ~ route s' (usable s') (lsp_from s' l) p (lsp_to s' l)
  end.
Proof.
  intros Hl. destruct (sm_12 _ _ _ _ _ _ _ _ Sm) as (_ & _ & _ & _ & A & _). assert (Hl' := Hl). rewrite A in Hl'.
  destruct (update_settled E k HE s s' WP Up l Hl') as [_ Ne].
  rewrite (sm_lfrom _ _ _ _ _ _ _ _ Sm), (sm_lto _ _ _ _ _ _ _ _ Sm) by auto.
  assert (Ne2 : lsrc s2 l <> ldst s2 l).
  { destruct (sm_12 _ _ _ _ _ _ _ _ Sm) as (B1 & _ & _ & _ & _ & _ & B7 & _). unfold lsrc, ldst. rewrite B1. destruct (B7 l) as (p & a & b & ->). exact Ne. }
  unfold get_shortest_path. set (G := make_graph k s2 false 0 false). assert (X := sm_asp E k HE _ _ _ _ _ _ Sm N Cost St (lsrc s2 l) (ldst s2 l)). fold G in X.
  assert (GP := sm_Gpos E k HE _ _ _ _ _ _ Sm N Cost).
  assert (Y := ok_asp E HE G (lsrc s2 l) (ldst s2 l) GP).
  destruct (nx_asp E G (lsrc s2 l) (ldst s2 l)) as [nps| |]; cbn [fst].
  - destruct X as (_ & X2 & (p0 & X3) & X4). destruct Y as (Y1 & _ & Y3 & _). destruct nps as [|np nps]; [congruence|].
    destruct (X4 np (or_introl eq_refl)) as (p & Lp & _). 
    assert (W : shortest_walk G (lsrc s2 l) (map (edge_of s2) p) (ldst s2 l)).
    { apply (shortest_walk_least k s2 (considered s2 false 0 false) (node_names s2) (sm_N2 E k _ _ _ _ _ _ Sm N) (sm_nopar E k HE _ _ _ _ _ _ Sm N)).
      exists p. split; auto. now apply (sm_least E k HE _ _ _ _ _ _ Sm N St). }
    rewrite (ok_len E HE G _ _ _ GP Y1 W). exists p. split; auto. rewrite wcost_route. symmetry. apply sn_route_cost, (sm_same_net E k HE _ _ _ _ _ _ Sm N St).
  - exact X.
  - intros p R. apply Y. apply (sm_route E k HE _ _ _ _ _ _ Sm N St) in R.
    apply (route_walk k s2 (considered s2 false 0 false) (node_names s2) (sm_N2 E k _ _ _ _ _ _ Sm N) (sm_nopar E k HE _ _ _ _ _ _ Sm N)) in R.
    fold G in R. change (mkG (nx_edges k (map (edge_of s2) (filter (considered s2 false 0 false) (m_ifs s2)))) (node_names s2)) with G in R.
    inversion R as [n Q1 Q2 Q3|e es d0 He W Q1 Q2 Q3]; [congruence|]. unfold in_graph. right. exists e. auto.
Qed.

Lemma sm_metric l m : In l (m_lsps s2) -> lsp_routed s2 l = true -> emet E k s2 l = Ok m -> metric s' l (mopt m) /\ m <> MUnrouted.
Proof.
  intros Hl Hr. unfold emet, metric. pose proof (sm_24 _ _ _ _ _ _ _ _ Sm) as R. destruct (sm_rest _ _ _ _ _ _ _ _ Sm HE N) as (_ & _ & _ & -> & _).
  assert (O := rs_mm _ _ _ R l). unfold lsp_routed in Hr. apply negb_true_iff in Hr. rewrite Hr. rewrite <- O. clear O.
  assert (X := sm_cost l Hl). unfold omm, mstate_of. destruct (sm_rest _ _ _ _ _ _ _ _ Sm HE N) as (_ & _ & _ & Y & _). 
  assert (Z : forall v, (match v with Some z => Ok (MInt z) | None => match fst (get_shortest_path E k s2 (lsrc s2 l) (ldst s2 l) 0) with Some c => Ok (MInt c) | None => Ok MNone end end) = Ok m ->
     match v with Some c => mopt m = Some c | None => match mopt m with Some c => exists p, least_cost s' (usable s') (lsp_from s' l) p (lsp_to s' l) /\ c = route_cost s' p
         | None => forall p, ~ route s' (usable s') (lsp_from s' l) p (lsp_to s' l) end end /\ m <> MUnrouted).
  { intros [v|] H; [injection H as <-; split; [reflexivity|discriminate]|]. destruct (fst _) as [c|]; injection H as <-; split; auto; discriminate. }
  destruct (l_imm (h_ls s4 l)) as [z|]; [|exact (Z (l_mm (h_ls s4 l)))]. destruct (z =? 0)%Z; [exact (Z (l_mm (h_ls s4 l)))|]. destruct (0 <? z)%Z; [exact (Z (Some z))|discriminate].
Qed.

(** the LSPs a demand rides *)
Lemma sm_preferred d ls : In d (m_dms s) -> snd (e2e_lsps E k d s2) = Ok ls ->
  NoDup (m_lsps s) -> NoDup ls /\ forall l, In l ls <-> preferred s' d l.
Proof.
  intros Hd H NL. apply e2e_value in H. pose proof (proj2 (proj2 WP)) as TD. rewrite (sm_group _ _ _ _ _ _ _ _ _ Sm HE N TD Hd) in H.
  set (cands := filter _ (m_lsps s2)) in H.
  assert (HC : forall l, In l cands <-> In l (m_lsps s2) /\ lsp_of s' d l).
  { intros l. unfold cands, lsp_of. rewrite filter_In, andb_true_iff, !String.eqb_eq.
    rewrite (sm_from _ _ _ _ _ _ _ _ Sm), (sm_to _ _ _ _ _ _ _ _ Sm), (sm_lfrom _ _ _ _ _ _ _ _ Sm), (sm_lto _ _ _ _ _ _ _ _ Sm) by auto.
    destruct (sm_lsps' _ _ _ _ _ _ _ _ Sm HE N) as (-> & _). tauto. }
  assert (HP : forall l, lsp_of s' d l -> In l (m_lsps s2)) by (intros l (X & _); destruct (sm_lsps' _ _ _ _ _ _ _ _ Sm HE N) as (Y & _); now rewrite <- Y).
  assert (ND : NoDup cands) by (apply NoDup_filter; destruct (sm_12 _ _ _ _ _ _ _ _ Sm) as (_ & _ & _ & _ & -> & _); exact NL).
  assert (H1 : (filter (lsp_routed s2) cands = [] /\ ls = []) \/ exists ms m, rmap (emet E k s2) (filter (lsp_routed s2) cands) = Ok ms /\ py_min ms = Ok m /\
                   ls = filter (has_metric E k s2 m) (filter (lsp_routed s2) cands)).
  { destruct cands; [left; auto|exact H]. }
  clear H. destruct H1 as [[F ->]|(ms & m & M & P & ->)].
  - split; [constructor|]. intros l. split; [intros []|]. intros (A & B & _). assert (X : In l (filter (lsp_routed s2) cands)).
    { apply filter_In. split; [apply HC; auto|]. apply sm_routed; auto. }
    rewrite F in X. destruct X.
  - split; [do 2 apply NoDup_filter; exact ND|]. apply py_min_ok in P as [P1 P2].
    assert (EV : forall l, In l cands -> lsp_routed s2 l = true -> exists m', emet E k s2 l = Ok m' /\ In m' ms).
    { intros l A B. apply rmap_ok in M. assert (I : In l (filter (lsp_routed s2) cands)) by (apply filter_In; auto).
      clear - M I. induction M as [|x y l0 l1 H M IH]; [destruct I|]. destruct I as [->|I]; [exists y; split; auto; left; auto|].
      destruct (IH I) as (m' & A & B). exists m'. split; auto. right; auto. }
    intros l. rewrite !filter_In. rewrite HC. split.
    + intros [[[A B] R] Hm]. split; [exact B|]. split; [now apply sm_routed|]. unfold has_metric in Hm. 
      destruct (emet E k s2 l) as [m'|] eqn:El; [|discriminate]. apply mval_eqb_eq in Hm. subst m'. destruct (sm_metric l m A R El) as [Q1 Q2].
      exists (mopt m). split; auto. intros l' A' B'. assert (R' := proj2 (sm_routed l' (HP l' A')) B'). destruct (EV l') as (m' & E1 & E2); [apply HC; auto|auto|].
      destruct (sm_metric l' m' (HP l' A') R' E1) as [Q1' Q2']. exists (mopt m'). split; auto. specialize (P2 m' E2). destruct m, m'; simpl in *; auto; congruence.
    + intros (A & B & mo & Q1 & Q2). assert (R := proj2 (sm_routed l (HP l A)) B). split; [auto|]. unfold has_metric. 
      destruct (EV l) as (m1 & E1 & E2); [apply HC; auto|auto|]. rewrite E1. apply mval_eqb_eq. destruct (sm_metric l m1 (HP l A) R E1) as [Q3 Q4].
      assert (mo = mopt m1) by (eapply metric_fun; eauto). subst mo.
      assert (EM : exists l', In l' (filter (lsp_routed s2) cands) /\ emet E k s2 l' = Ok m).
      { apply rmap_ok in M. clear - M P1. induction M as [|x y l0 l1 H M IH]; [destruct P1|]. destruct P1 as [->|P1]; [exists x; split; auto; left; auto|].
        destruct (IH P1) as (l' & A & B). exists l'. split; auto. right; auto. }
      destruct EM as (l' & F1 & F2). apply filter_In in F1 as [F1 F3]. apply HC in F1 as [F1 F4].
      destruct (sm_metric l' m F1 F3 F2) as [Q5 Q6]. destruct (Q2 l' F4) as (mo' & Q7 & Q8); [now apply sm_routed|].
      assert (mo' = mopt m) by (eapply metric_fun; eauto). subst mo'. specialize (P2 m1 E2).
      destruct m, m1; simpl in *; try congruence; try tauto. f_equal. lia.
Qed.

(** a demand with a routed LSP rides the preferred LSPs *)
Lemma sm_ride d : In d (m_dms s) -> NoDup (m_lsps s) -> (exists l, lsp_of s' d l /\ routed_lsp s' l) ->
  exists ls, ls <> [] /\ NoDup ls /\ (forall l, In l ls <-> preferred s' d l) /\
    d_path (h_dm s' d) = DPaths (map (fun l => [ILsp l]) ls) /\ own_lsps E k s3 d = Ok ls /\ d_detail (h_dm s' d) = lsp_detail k s3 d ls.
Proof.
  intros Hd NL (l0 & A0 & B0). assert (R := sm_demand _ _ _ _ _ _ _ _ Sm d HE N Hd). unfold rpath in R.
  destruct (snd (e2e_lsps E k d s2)) as [ls|e] eqn:Ee; [|discriminate R]. cbn [rbind] in R.
  destruct (sm_preferred d ls Hd Ee NL) as [ND P].
  assert (Ne : ls <> []).
  { intros ->. apply e2e_value in Ee. pose proof (proj2 (proj2 WP)) as TD. rewrite (sm_group _ _ _ _ _ _ _ _ _ Sm HE N TD Hd) in Ee.
    assert (Hl0 : In l0 (m_lsps s2)) by (destruct A0 as (X & _); destruct (sm_lsps' _ _ _ _ _ _ _ _ Sm HE N) as (Y & _); now rewrite <- Y).
    assert (I : In l0 (filter (fun l => String.eqb (lsrc s2 l) (dsrc s2 d) && String.eqb (ldst s2 l) (ddst s2 d)) (m_lsps s2))).
    { apply filter_In. split; auto. destruct A0 as (_ & X & Y). apply andb_true_iff. rewrite !String.eqb_eq.
      rewrite (sm_from _ _ _ _ _ _ _ _ Sm), (sm_lfrom _ _ _ _ _ _ _ _ Sm) in X by auto. rewrite (sm_to _ _ _ _ _ _ _ _ Sm), (sm_lto _ _ _ _ _ _ _ _ Sm) in Y by auto. auto. }
    destruct (filter _ (m_lsps s2)) as [|x xs] eqn:F; [destruct I|]. rewrite <- F in *. clear F.
    assert (I2 : In l0 (filter (lsp_routed s2) (filter (fun l => String.eqb (lsrc s2 l) (dsrc s2 d) && String.eqb (ldst s2 l) (ddst s2 d)) (m_lsps s2)))).
    { apply filter_In. split; auto. now apply sm_routed. }
    destruct Ee as [[F _]|(ms & m & M & P0 & F)]; [rewrite F in I2; destruct I2|]. apply py_min_ok in P0 as [P1 _]. symmetry in F.
    assert (EM : exists l', In l' (filter (lsp_routed s2) (filter (fun l => String.eqb (lsrc s2 l) (dsrc s2 d) && String.eqb (ldst s2 l) (ddst s2 d)) (m_lsps s2))) /\ emet E k s2 l' = Ok m).
    { apply rmap_ok in M. clear - M P1. induction M as [|x y l0 l1 H M IH]; [destruct P1|]. destruct P1 as [->|P1]; [exists x; split; auto; left; auto|].
      destruct (IH P1) as (l' & A & B). exists l'. split; auto. right; auto. }
    destruct EM as (l' & F1 & F2). assert (X : In l' []) by (rewrite <- F; apply filter_In; split; [exact F1|]; unfold has_metric; rewrite F2; now apply mval_eqb_eq). destruct X. }
  exists ls. split; [exact Ne|]. split; [exact ND|]. split; [exact P|]. destruct ls as [|l ls]; [congruence|].
  assert (Pd : d_path (h_dm s' d) = DPaths (map (fun l => [ILsp l]) (l :: ls))) by congruence. split; [exact Pd|].
  assert (D := sm_detail E k HE _ _ _ _ _ _ Sm N d Hd). rewrite Pd in D. destruct D as (A & D). unfold plan in D.
  destruct (own_lsps E k s3 d) as [ls'|e] eqn:O; [|discriminate D]. 
  assert (O2 := O). rewrite (rs_own_lsps E k s2 s3 d (df_same _ _ _ (sm_23 _ _ _ _ _ _ _ _ Sm))) in O2. rewrite (own_e2e E k s2 d _ _ O2 Ee) in *.
  split; [reflexivity|]. cbn [rbind] in D. congruence.
Qed.

Lemma sm_ride_not d : In d (m_dms s) -> no_lsp_for s' d -> forall ps, d_path (h_dm s' d) = DPaths ps -> own_lsps E k s3 d = Ok [].
Proof.
  intros Hd NL ps Pd. assert (D := sm_detail E k HE _ _ _ _ _ _ Sm N d Hd). rewrite Pd in D. destruct D as (A & D). unfold plan in D.
  destruct (own_lsps E k s3 d) as [ls'|e] eqn:O; [|discriminate D]. 
  rewrite (rs_own_lsps E k s2 s3 d (df_same _ _ _ (sm_23 _ _ _ _ _ _ _ _ Sm))) in O.
  now rewrite (own_e2e E k s2 d _ _ O (sm_no_e2e E k HE _ _ _ _ _ _ Sm N d (proj2 (proj2 WP)) Hd NL)).
Qed.
End Done.
