(** WhatIf.v - comparing simulations of models without LSPs. *)
From Verif Require Import Base Graph Objects Sim Api Frames ApiFrames ApiProofs HistProofs FailProofs RepairProofs Spec SpecCkt SpecSim SpecMetric SpecFlow SpecOrder SpecFail GraphProofs MonadProofs RoundProofs ResProofs ObjProofs CircuitProofs
  ValidateProofs GroupProofs PathProofs QuietProofs RouteProofs LeastProofs IgpProofs Ecmp TrafficProofs ShareProofs SpecSig SigUpdate MetricProofs FlowProofs UtilProofs OrderProofs SpecWhatIf.
From Coq Require Import Lqa Permutation.


(** ** Least-cost routes under changes *)
Lemma links_sym s t : same_links s t -> same_links t s.
Proof.
  intros [A B C D F]. constructor.
  - intros i. now rewrite A.
  - intros i Hi. symmetry. apply B. now apply A.
  - intros i Hi. symmetry. apply C. now apply A.
  - intros i Hi. symmetry. apply D. now apply A.
  - intros i Hi. symmetry. apply F. now apply A.
Qed.
Lemma links_route s t (ok ok' : nat -> Prop) u p v : same_links s t -> (forall i, In i p -> In i (m_ifs s) -> ok i -> ok' i) -> route s ok u p v -> route t ok' u p v.
Proof.
  intros S H. induction 1 as [|i p v Hi Ho R IH]; [constructor|]. rewrite <- (sl_loc _ _ S i Hi). constructor.
  - now apply (sl_ifs _ _ S).
  - apply H; auto. left; auto.
  - rewrite (sl_rem _ _ S i Hi). apply IH. intros j Hj. apply H. right; auto.
Qed.
Lemma links_cost s t ok u p v : same_links s t -> route s ok u p v -> route_cost t p = route_cost s p.
Proof. intros S. induction 1 as [|i p v Hi Ho R IH]; [reflexivity|]. simpl. now rewrite IH, (sl_cost _ _ S i Hi). Qed.

Lemma links_least s t u p v : same_links s t -> same_failures s t ->
  (least_cost (unreserved s) (usable (unreserved s)) u p v <-> least_cost (unreserved t) (usable (unreserved t)) u p v).
Proof.
  assert (X : forall s t p, same_links s t -> same_failures s t -> least_cost (unreserved s) (usable (unreserved s)) u p v ->
    least_cost (unreserved t) (usable (unreserved t)) u p v).
  { clear. intros s t p S F [R L].
    assert (W : forall s t, same_links s t -> same_failures s t -> forall q, route (unreserved s) (usable (unreserved s)) u q v -> route (unreserved t) (usable (unreserved t)) u q v).
    { clear. intros s t S F q. apply (links_route (unreserved s) (unreserved t)); [destruct S; constructor; auto|]. intros i _ Hi [Hf Ha]. split.
      - change (i_failed (h_if t i) = false). rewrite (F i Hi). exact Hf.
      - now apply (sl_open _ _ S i Hi). }
    split; [now apply (W s t)|]. intros q Hq.
    assert (S' : same_links (unreserved s) (unreserved t)) by (destruct S; constructor; auto).
    assert (F' : same_failures t s) by (intros i Hi; symmetry; apply F; now apply (sl_ifs _ _ S)).
    assert (Hq' := W t s (links_sym _ _ S) F' q Hq). rewrite (links_cost _ _ _ _ _ _ S' R), (links_cost _ _ _ _ _ _ S' Hq'). auto. }
  intros S F. split; apply X; auto; [now apply links_sym|]. intros i Hi. symmetry. apply F. now apply (sl_ifs _ _ S).
Qed.

Lemma un_cost s p : route_cost (unreserved s) p = route_cost s p.
Proof. induction p as [|i p IH]; [reflexivity|]. simpl. now rewrite IH. Qed.
Lemma un_links s t : same_links s t -> same_links (unreserved s) (unreserved t).
Proof. destruct 1; constructor; auto. Qed.

(** ** One run *)
Section Run.
Variables (E : env) (k : kind) (s s' : st).
Hypothesis HE : env_ok E.
Hypothesis P : plain k s.
Hypothesis U : update_simulation E k s = (s', Ok tt).
Let NL : m_lsps s = [] := proj1 P.
Let WP : well_posed s := proj1 (proj2 P).
Let EK : ends_known s := proj1 (proj2 (proj2 P)).
Let CS : cids_set k s := proj1 (proj2 (proj2 (proj2 P))).
Let EA : ends_agree k s := proj1 (proj2 (proj2 (proj2 (proj2 P)))).
Let KU : if_keys_unique s := proj2 (proj2 (proj2 (proj2 (proj2 P)))).
Let en : ended s s' := ended_run k E s s' HE NL WP CS EA U.

Lemma run_fail : same_failures s s'.
Proof. exact (en_fail _ _ en). Qed.
Lemma run_loc i : In i (m_ifs s) -> loc s' i = loc s i.
Proof. intros Hi. apply (al_loc _ _ (en_alike _ _ en)). exact Hi. Qed.

Definition routes (d : nat) (L : list (list nat)) (outs : string -> list nat) (es : list pinfo) : Prop :=
  d_path (h_dm s' d) = DPaths (map if_path L) /\ L <> [] /\ NoDup L /\
  (forall p, In p L <-> least_cost (unreserved s) (usable (unreserved s)) (dmd_from s d) p (dmd_to s d)) /\
  d_detail (h_dm s' d) = PDInfo es /\ (forall n, NoDup (outs n)) /\
  (forall n i, In i (outs n) <-> loc s i = n /\ exists p, In p L /\ In i p) /\
  shares k (d_traffic (h_dm s d)) (w (loc s) outs) L es.
Lemma run_routes d : In d (m_dms s) ->
  (d_path (h_dm s' d) = DUnrouted /\ forall p, ~ least_cost (unreserved s) (usable (unreserved s)) (dmd_from s d) p (dmd_to s d)) \/
  exists L outs es, routes d L outs es.
Proof.
  intros Hd. destruct (final_paths E k s s' d HE NL WP EK CS U Hd) as [A|(L & A & Ne & IL)]; [left; exact A|right].
  destruct (no_l k s s' d en) as [A1 A2].
  destruct (igp_shares E k HE s s' WP U (en_fail _ _ en) KU d _ Hd A1 A2 A) as (M & es & outs & EM & _ & N1 & I1 & _ & D1 & O1 & X1 & S1 & _).
  assert (Al := en_alike _ _ en). destruct (en_dm _ _ en d) as (T & Fr & To).
  assert (LM : forall p, In p M <-> least_cost (unreserved s) (usable (unreserved s)) (dmd_from s d) p (dmd_to s d)).
  { intros p. rewrite I1, Fr, To. symmetry. now apply alike_least. }
  assert (Lo : forall p j, In p M -> In j p -> loc s' j = loc s j).
  { intros p j Hp Hj. apply LM in Hp as [Rt _]. destruct (route_all _ _ _ _ _ j Rt Hj) as [Hi _]. now apply run_loc. }
  exists M, outs, es. split; [congruence|]. split; [destruct M; [destruct L; [congruence|discriminate EM]|discriminate]|]. split; [exact N1|]. split; [exact LM|].
  split; [exact D1|]. split; [exact O1|]. split.
  - intros n i. rewrite X1. split; intros [H (p & Hp & Hi)]; (split; [|eauto]).
    + rewrite <- H. symmetry. eapply Lo; eauto.
    + rewrite <- H. eapply Lo; eauto.
  - rewrite T in S1. clear - S1 Lo. unfold shares in *. 
    assert (Q : forall p, In p M -> w (loc s') outs p = w (loc s) outs p).
    { intros p Hp. apply same_w; [|auto]. intros i Hi. eapply Lo; eauto. }
    clear Lo. induction S1 as [|p e L es [H1 H2] F IH]; constructor.
    + split; [exact H1|]. rewrite <- (Q p (or_introl eq_refl)). exact H2.
    + apply IH. intros q Hq. apply Q. right; auto.
Qed.

(** what demand [d] puts on interface [i] *)
Definition amount (x : Q) : Q := match k with Flex => x | Perf => roundd 10 x end.
Definition loads (L : list (list nat)) (outs : string -> list nat) (i : nat) (T : Q) : Q :=
  sumq (fun p => inject_Z (Z.of_nat (crossings s i (if_path p))) * shown k (T * w (loc s) outs p))%Q L.
Lemma run_loads d L outs es i : routes d L outs es -> (carried s' i es == loads L outs i (d_traffic (h_dm s d)))%Q.
Proof.
  intros (_ & _ & _ & _ & _ & _ & _ & Sh). rewrite (carried_shares k s' _ _ _ _ i Sh). unfold loads. apply sumq_ext. intros p _. now rewrite (crossings_if s' s).
Qed.

Lemma run_traffic i : In i (m_ifs s) ->
  if i_failed (h_if s i) then i_traffic (h_if s' i) = TDown
  else exists q f, i_traffic (h_if s' i) = TNum q /\ (q == sumq f (m_dms s))%Q /\
    forall d, In d (m_dms s) -> match k with Flex => (f d == demand_on s' d i)%Q | Perf => demand_puts s' d i (f d) end.
Proof.
  intros Hi. destruct (simulated_ex _ _ _ _ U) as (s1 & s2 & s3 & s4 & Sm). rewrite <- (run_fail i Hi).
  assert (NDl : NoDup (m_lsps s)) by (rewrite NL; constructor). destruct (kind_dec k) as [Hk|Hk].
  - assert (X := flex_util E k HE s s1 s2 s3 s4 s' Sm WP U run_fail KU i Hk Hi NDl (fun d _ => proj2 (no_l k s s' d en))).
    destruct (i_failed (h_if s' i)); [exact X|]. destruct X as (q & X & Y). exists q, (fun d => demand_on s' d i). split; [exact X|]. split.
    + rewrite Y, (en_dms _ _ en). reflexivity.
    + intros d _. rewrite Hk. reflexivity.
  - assert (X := perf_util E k HE s s1 s2 s3 s4 s' Sm WP U run_fail KU i Hk Hi NDl).
    destruct (i_failed (h_if s' i)); [exact X|]. destruct X as (q & f & X & Y & Z). exists q, f. split; [exact X|]. rewrite (en_dms _ _ en) in *. split; [exact Z|].
    intros d Hd. rewrite Hk. auto.
Qed.
Lemma run_puts d i x : In d (m_dms s) -> match k with Flex => (x == demand_on s' d i)%Q | Perf => demand_puts s' d i x end ->
  (d_path (h_dm s' d) = DUnrouted /\ (x == 0)%Q) \/ exists L outs es, routes d L outs es /\ (x == amount (loads L outs i (d_traffic (h_dm s d))))%Q.
Proof.
  intros Hd X. destruct (run_routes d Hd) as [[A _]|(L & outs & es & R)].
  - left. split; [exact A|]. destruct (kind_dec k) as [Hk|Hk]; rewrite Hk in X.
    + unfold demand_on in X. now rewrite A in X.
    + unfold demand_puts in X. now rewrite A in X.
  - right. exists L, outs, es. split; [exact R|]. assert (Y := run_loads d L outs es i R). destruct R as (A & Ne & _ & _ & D & _). unfold amount. destruct (kind_dec k) as [Hk|Hk]; rewrite Hk in X |- *.
    + unfold demand_on in X. rewrite A, D in X. now rewrite X.
    + unfold demand_puts in X. rewrite A in X. destruct X as [(_ & fs & F1 & _ & F2)|(ls & N & F & _)].
      * assert (fs = es) by congruence. subst fs. apply rounds_unique. eapply rounds_compat; [exact Y|reflexivity|exact F2].
      * destruct L as [|p L]; [congruence|]. destruct ls as [|l ls]; [congruence|]. simpl in F. injection F as F _. destruct p as [|j p]; discriminate F.
Qed.
End Run.

(** ** Two runs *)
Section Two.
Variables (E E' : env) (k k' : kind) (s t s' t' : st).
Hypothesis HE : env_ok E.
Hypothesis HE' : env_ok E'.
Hypothesis P : plain k s.
Hypothesis P' : plain k' t.
Hypothesis S : forall i, In i (m_ifs s) -> loc t i = loc s i.
Hypothesis U : update_simulation E k s = (s', Ok tt).
Hypothesis U' : update_simulation E' k' t = (t', Ok tt).
Variable d : nat.
Hypothesis Hd : In d (m_dms s).
Hypothesis Hd' : In d (m_dms t).
Hypothesis LC : forall p, least_cost (unreserved s) (usable (unreserved s)) (dmd_from s d) p (dmd_to s d) <->
                          least_cost (unreserved t) (usable (unreserved t)) (dmd_from t d) p (dmd_to t d).
Lemma two_paths : same_paths (d_path (h_dm s' d)) (d_path (h_dm t' d)).
Proof.
  destruct (run_routes E k s s' HE P U d Hd) as [[-> A]|(L & o & es & -> & Ne & _ & A & _)], (run_routes E' k' t t' HE' P' U' d Hd') as [[-> B]|(M & o' & fs & -> & Ne' & _ & B & _)]; simpl; auto.
  - destruct M as [|q M]; [congruence|]. apply (A q), LC, B. left; auto.
  - destruct L as [|q L]; [congruence|]. apply (B q), LC, A. left; auto.
  - intros x. rewrite !in_map_iff. split; intros (p & <- & Hp); exists p; (split; [reflexivity|]).
    + now apply B, LC, A.
    + now apply A, LC, B.
Qed.
(** the same paths and the same fractions of the traffic on each *)
Lemma two_loads L o es M o' fs i T : routes k s s' d L o es -> routes k' t t' d M o' fs ->
  (loads k' t M o' i T == loads k' s L o i T)%Q.
Proof.
  intros (_ & _ & N1 & A & _ & O1 & X1 & _) (_ & _ & N2 & B & _ & O2 & X2 & _). unfold loads.
  assert (LM : forall p, In p L <-> In p M) by (intros p; now rewrite A, B, LC).
  assert (Lo : forall p j, In p L -> In j p -> loc t j = loc s j).
  { intros p j Hp Hj. apply A in Hp as [Rt _]. destruct (route_all _ _ _ _ _ j Rt Hj) as [Hi _]. now apply S. }
  assert (OO : forall n, List.length (o' n) = List.length (o n)).
  { intros n. apply same_count; auto. intros j. rewrite X1, X2. split; intros [H (p & Hp & Hj)].
    - apply LM in Hp. split; [rewrite <- H; symmetry; eapply Lo; eauto|]. exists p. auto.
    - split; [rewrite <- H; eapply Lo; eauto|]. exists p. split; [now apply LM|auto]. }
  rewrite <- (sumq_perm _ _ _ (NoDup_Permutation N1 N2 LM)). apply sumq_ext. intros p Hp. rewrite (crossings_if t s).
  rewrite (same_w (loc t) (loc s) o' o p); [reflexivity| |auto]. intros j Hj. eapply Lo; eauto.
Qed.
End Two.

Lemma amount_eq k x y : (x == y)%Q -> (amount k x == amount k y)%Q.
Proof.
  intros H. destruct k; [exact H|]. apply rounds_unique. eapply rounds_compat; [exact H|reflexivity|apply roundd_rounds].
Qed.

(** the same amounts on every interface, for the same traffic *)
Lemma two_adds E E' k s t s' t' d i x y : env_ok E -> env_ok E' -> plain k s -> plain k t -> (forall i, In i (m_ifs s) -> loc t i = loc s i) ->
  update_simulation E k s = (s', Ok tt) -> update_simulation E' k t = (t', Ok tt) -> In d (m_dms s) -> In d (m_dms t) ->
  (forall p, least_cost (unreserved s) (usable (unreserved s)) (dmd_from s d) p (dmd_to s d) <->
             least_cost (unreserved t) (usable (unreserved t)) (dmd_from t d) p (dmd_to t d)) ->
  d_traffic (h_dm t d) = d_traffic (h_dm s d) ->
  adds k s' d i x -> adds k t' d i y -> (x == y)%Q.
Proof.
  intros HE HE' P P' S U U' Hd Hd' LC T A B. assert (SP := two_paths E E' k k s t s' t' HE HE' P P' U U' d Hd Hd' LC).
  destruct (run_puts E k s s' HE P U d i x Hd A) as [[X1 X2]|(L & o & es & R & X)], (run_puts E' k t t' HE' P' U' d i y Hd' B) as [[Y1 Y2]|(M & o' & fs & R' & Y)].
  - now rewrite X2, Y2.
  - rewrite X1, (proj1 R') in SP. destruct SP.
  - rewrite Y1, (proj1 R) in SP. destruct SP.
  - rewrite X, Y. apply amount_eq. rewrite (two_loads k k s t s' t' S d LC L o es M o' fs i _ R R'), T. reflexivity.
Qed.

Lemma un_least_ex s u p v : NoDup (m_ifs s) -> (forall i, In i (m_ifs s) -> 1 <= i_cost (h_if s i)) ->
  route (unreserved s) (usable (unreserved s)) u p v -> exists q, least_cost (unreserved s) (usable (unreserved s)) u q v.
Proof.
  intros N C R. assert (X : forall i, In i (m_ifs (unreserved s)) -> (considered (unreserved s) false 0 false i = true <-> usable (unreserved s) i)) by (intros i _; apply considered_usable).
  destruct (route_least_ex Flex (unreserved s) (considered (unreserved s) false 0 false) [] N C (fun H => ltac:(discriminate H)) u p v) as [q Q].
  - revert R. clear - X. induction 1 as [|i p v Hi Ho R IH]; constructor; auto. now apply X.
  - exists q. now apply (least_cost_ext _ _ _ _ _ _ X).
Qed.

(** ** More interfaces down *)
Section Down.
Variables (s t : st).
Hypothesis D : degraded s t.
Let S := dg_links _ _ D.
Lemma down_route u p v : route (unreserved t) (usable (unreserved t)) u p v -> route (unreserved s) (usable (unreserved s)) u p v.
Proof.
  apply (links_route (unreserved t) (unreserved s)); [apply un_links, links_sym, S|]. intros i _ Hi [Hf Ha]. assert (Hs := proj1 (sl_ifs _ _ S i) Hi). split.
  - change (i_failed (h_if s i) = false). destruct (i_failed (h_if s i)) eqn:X; [|reflexivity]. assert (Z := dg_down _ _ D i Hs X). change (i_failed (h_if t i) = false) in Hf. congruence.
  - now apply (sl_open _ _ S i Hs).
Qed.
Lemma down_kept u p v : (forall i, In i p -> i_failed (h_if t i) = false) -> route (unreserved s) (usable (unreserved s)) u p v -> route (unreserved t) (usable (unreserved t)) u p v.
Proof.
  intros H. apply (links_route (unreserved s) (unreserved t)); [apply un_links, S|]. intros i Hp Hi [Hf Ha]. split; [apply (H i Hp)|]. now apply (sl_open _ _ S i Hi).
Qed.
Lemma down_least u v : (exists p, route (unreserved s) (usable (unreserved s)) u p v) -> NoDup (m_ifs s) -> (forall i, In i (m_ifs s) -> 1 <= i_cost (h_if s i)) ->
  (forall p, least_cost (unreserved s) (usable (unreserved s)) u p v -> forall i, In i p -> i_failed (h_if t i) = false) ->
  forall p, least_cost (unreserved s) (usable (unreserved s)) u p v <-> least_cost (unreserved t) (usable (unreserved t)) u p v.
Proof.
  intros [p0 R0] N C H. destruct (un_least_ex s u p0 v N C R0) as [p1 L1].
  assert (X : forall p, least_cost (unreserved s) (usable (unreserved s)) u p v -> least_cost (unreserved t) (usable (unreserved t)) u p v).
  { intros p Lp. split; [apply down_kept; [apply (H p Lp)|apply Lp]|]. intros q Q. apply down_route in Q.
    rewrite (links_cost _ _ _ _ _ _ (un_links _ _ S) (proj1 Lp)), (links_cost _ _ _ _ _ _ (un_links _ _ S) Q). apply Lp, Q. }
  intros p. split; [apply X|]. intros Lp. split; [apply down_route, Lp|]. intros q Q.
  assert (Y := proj2 Lp p1 (proj1 (X p1 L1))). rewrite (links_cost _ _ _ _ _ _ (un_links _ _ S) (down_route _ _ _ (proj1 Lp))), (links_cost _ _ _ _ _ _ (un_links _ _ S) (proj1 L1)) in Y.
  assert (Z := proj2 L1 q Q). etransitivity; [exact Y|exact Z].
Qed.

Variables (E E' : env) (k : kind) (s' t' : st).
Hypothesis HE : env_ok E.
Hypothesis HE' : env_ok E'.
Hypothesis P : plain k s.
Hypothesis P' : plain k t.
Hypothesis U : update_simulation E k s = (s', Ok tt).
Hypothesis U' : update_simulation E' k t = (t', Ok tt).
Variable d : nat.
Hypothesis Hd : In d (m_dms s).
Let Hd' : In d (m_dms t) := proj2 (dg_dms _ _ D d) Hd.
Let ND : NoDup (m_ifs s) := proj1 (proj1 (proj2 P)).
Let Cost : forall i, In i (m_ifs s) -> 1 <= i_cost (h_if s i) := proj1 (proj2 (proj1 (proj2 P))).

Lemma down_unrouted : d_path (h_dm s' d) = DUnrouted -> d_path (h_dm t' d) = DUnrouted.
Proof.
  intros X. destruct (dg_dm _ _ D d Hd) as [[Fr To] _].
  destruct (run_routes E k s s' HE P U d Hd) as [[_ A]|(L & o & es & R & _)]; [|congruence].
  destruct (run_routes E' k t t' HE' P' U' d Hd') as [[B _]|(L & o & es & _ & Ne & _ & B & _)]; [exact B|].
  destruct L as [|p L]; [congruence|]. destruct (proj1 (B p) (or_introl eq_refl)) as [Rt _]. rewrite Fr, To in Rt. apply down_route in Rt.
  destruct (un_least_ex s _ _ _ ND Cost Rt) as [q Lq]. destruct (A q Lq).
Qed.
Lemma if_path_inj p q : if_path p = if_path q -> p = q.
Proof. unfold if_path. revert q. induction p as [|i p IH]; intros [|j q] H; try discriminate; [reflexivity|]. injection H as -> H. f_equal. auto. Qed.
Lemma in_if_path p L : In (if_path p) (map if_path L) <-> In p L.
Proof. rewrite in_map_iff. split; [intros (q & H & Hq); apply if_path_inj in H; now subst|eauto]. Qed.
Lemma down_costs ps qs p q : d_path (h_dm s' d) = DPaths ps -> d_path (h_dm t' d) = DPaths qs -> In (if_path p) ps -> In (if_path q) qs -> route_cost s p <= route_cost t q.
Proof.
  intros X Y Hp Hq. destruct (dg_dm _ _ D d Hd) as [[Fr To] _].
  destruct (run_routes E k s s' HE P U d Hd) as [[A _]|(L & o & es & R & _ & _ & A & _)]; [congruence|].
  destruct (run_routes E' k t t' HE' P' U' d Hd') as [[B _]|(M & o' & fs & R' & _ & _ & B & _)]; [congruence|].
  rewrite R in X. rewrite R' in Y. injection X as <-. injection Y as <-. apply in_if_path, A in Hp. apply in_if_path, B in Hq. destruct Hq as [Rq _]. rewrite Fr, To in Rq.
  apply down_route in Rq. rewrite <- (un_cost t q), <- (un_cost s p). rewrite (links_cost _ _ _ _ _ _ (un_links _ _ S) Rq). apply Hp, Rq.
Qed.
Lemma down_least_spared : spared s' t d -> forall p, 
  least_cost (unreserved s) (usable (unreserved s)) (dmd_from s d) p (dmd_to s d) <-> least_cost (unreserved t) (usable (unreserved t)) (dmd_from t d) p (dmd_to t d).
Proof.
  intros Sp. destruct (dg_dm _ _ D d Hd) as [[-> ->] _]. destruct (run_routes E k s s' HE P U d Hd) as [[_ A]|(L & o & es & R & Ne & _ & A & _)].
  - intros p. split; intros H; [destruct (A p H)|]. destruct H as [H _]. apply down_route in H.
    destruct (un_least_ex s _ _ _ ND Cost H) as [q Lq]. destruct (A q Lq).
  - apply down_least; [|exact ND|exact Cost|].
    + destruct L as [|p L]; [congruence|]. exists p. apply A. left; auto.
    + intros p Hp i Hi. apply A in Hp. apply (Sp _ (if_path p) i R).
      * now apply in_if_path.
      * unfold if_path. now apply in_map.
Qed.
Lemma down_same : spared s' t d -> same_paths (d_path (h_dm s' d)) (d_path (h_dm t' d)) /\
  forall i x y, adds k s' d i x -> adds k t' d i y -> (x == y)%Q.
Proof.
  intros Sp. assert (LC := down_least_spared Sp). split; [exact (two_paths E E' k k s t s' t' HE HE' P P' U U' d Hd Hd' LC)|].
  intros i x y. apply (two_adds E E' k s t s' t' d i x y HE HE' P P' (sl_loc _ _ S) U U' Hd Hd' LC). apply (dg_dm _ _ D d Hd).
Qed.
End Down.

(** ** The configuration over histories of failures and repairs *)
Lemma config_preorder k : preorder (same_config k).
Proof.
  constructor.
  - intros s. constructor; auto using same_sets_refl, same_dm_data_refl, same_ls_data_refl. intros i. split; [apply same_if_data_refl|reflexivity].
  - intros a b c A B. constructor.
    + eapply same_sets_trans; [apply A|apply B].
    + intros n. destruct (cf_nd _ _ _ A n) as (?&?&?), (cf_nd _ _ _ B n) as (?&?&?). repeat split; congruence.
    + intros i. destruct (cf_if _ _ _ A i) as [A1 A2], (cf_if _ _ _ B i) as [B1 B2]. split; [eapply same_if_data_trans; eauto|]. intros Hk. now rewrite B2, A2.
    + intros d. destruct (cf_dm _ _ _ A d) as (?&?&?&?), (cf_dm _ _ _ B d) as (?&?&?&?). repeat split; congruence.
    + intros d. destruct (cf_ls _ _ _ A d) as (?&?&?&?), (cf_ls _ _ _ B d) as (?&?&?&?). repeat split; congruence.
Qed.
Lemma config_if k i f s : (forall r, same_if_data r (f r) /\ (k = Flex -> i_cid (f r) = i_cid r)) -> same_config k s (upd_if i f s).
Proof.
  intros H. constructor; try (intros; repeat split; reflexivity). intros x. simpl. apply fupd_cases; intros; subst; [apply H|]. split; [apply same_if_data_refl|reflexivity].
Qed.
Lemma config_nd k i f s : (forall r, n_name (f r) = n_name r /\ n_srlgs (f r) = n_srlgs r /\ n_shortcuts (f r) = n_shortcuts r) -> same_config k s (upd_nd i f s).
Proof.
  intros H. constructor; try (intros; repeat split; reflexivity). intros x. simpl. apply fupd_cases; intros; subst; [apply H|]. repeat split.
Qed.
Lemma config_sr k i f s : same_config k s (upd_sr i f s).
Proof. constructor; intros; repeat split. Qed.

Section Config.
Variables (E : env) (k : kind).
Let HR := config_preorder k.
Lemma config_validate : pres (same_config k) (validate_model E k).
Proof.
  apply pres_validate_model; try apply HR.
  - intros i f s Hf. apply config_if. intros r. rewrite (Hf r). destruct r; repeat split.
  - intros Hk i f s Hf. apply config_if. intros r. rewrite (Hf r). destruct r; split; [repeat split|intros; congruence].
  - intros c s. constructor; intros; repeat split.
  - intros i f s Hf. apply config_if. intros r. rewrite (Hf r). destruct r; repeat split.
Qed.
Lemma config_update : pres (same_config k) (update_simulation E k).
Proof.
  apply pres_update_simulation; try apply HR.
  - intros l f s Hf. constructor; try (intros; repeat split; reflexivity). intros x. simpl. apply fupd_cases; intros; subst; [|repeat split]. rewrite (Hf (h_ls s l)). repeat split.
  - intros l f s Hf. constructor; try (intros; repeat split; reflexivity). intros x. simpl. apply fupd_cases; intros; subst; [|repeat split]. rewrite (Hf (h_ls s l)). repeat split.
  - intros g s. constructor; intros; repeat split.
  - intros g s. constructor; intros; repeat split.
  - intros s. constructor; intros; repeat split.
  - intros i f s Hf. apply config_if. intros r. rewrite (Hf r). destruct r; repeat split.
  - intros i f s Hf. apply config_if. intros r. rewrite (Hf r). destruct r; repeat split.
  - intros Hk i f s Hf. apply config_if. intros r. rewrite (Hf r). destruct r; split; [repeat split|intros; congruence].
  - intros i f s Hf. apply config_if. intros r. rewrite (Hf r). destruct r; repeat split.
  - intros d f s Hf. constructor; try (intros; repeat split; reflexivity). intros x. simpl. apply fupd_cases; intros; subst; [|repeat split]. rewrite (Hf (h_dm s d)). repeat split.
  - intros d f s Hf. constructor; try (intros; repeat split; reflexivity). intros x. simpl. apply fupd_cases; intros; subst; [|repeat split]. rewrite (Hf (h_dm s d)). repeat split.
Qed.
Lemma config_failed i b : pres (same_config k) (iface_set_failed i b).
Proof. unfold iface_set_failed. repeat (pres_step HR); apply pres_modify; intros; apply config_if; intros []; repeat split. Qed.
Lemma config_node i b : pres (same_config k) (node_set_failed i b).
Proof. unfold node_set_failed. repeat (pres_step HR); apply pres_modify; intros; apply config_nd; intros []; repeat split. Qed.
Lemma config_res0 i : pres (same_config k) (modify (upd_if i (if_res 0%Q))).
Proof. apply pres_modify; intros; apply config_if; intros []; repeat split. Qed.
Lemma config_op o s : outage_op s o -> pres (same_config k) (run_op E k o).
Proof.
  destruct o; simpl; try tauto; intros _.
  - apply config_update.
  - apply config_validate.
  - apply (pres_fail_interface _ HR). apply config_failed.
  - apply (pres_unfail_interface E k _ HR); auto using config_failed, config_res0, config_validate.
  - apply (pres_fail_node _ HR); auto using config_failed, config_node.
  - apply (pres_unfail_node E k _ HR); auto using config_failed, config_res0, config_validate, config_node.
  - apply (pres_fail_srlg _ HR); auto using config_failed, config_node. intros; apply pres_modify; intros; apply config_sr.
  - apply (pres_unfail_srlg E k _ HR); auto using config_failed, config_res0, config_validate, config_node. intros; apply config_sr.
  - apply (pres_iface_fail _ HR). apply config_failed.
  - apply (pres_iface_unfail _ HR). apply config_failed.
Qed.
Lemma outage_sets s s' o : same_sets s s' -> outage_op s o -> outage_op s' o.
Proof. intros (S & _). destruct o; simpl; auto; now rewrite S. Qed.
Lemma outage_failure s o : outage_op s o -> failure_op s o.
Proof. destruct o; simpl; auto. Qed.
Lemma config_history l : forall s, (forall o, In o l -> outage_op s o) -> same_config k s (run_ops E k l s).
Proof.
  induction l as [|o l IH]; intros s Hl; simpl; [apply HR|]. assert (C := config_op o s (Hl o (or_introl eq_refl)) s).
  refine (po_trans _ HR _ _ _ C (IH _ _)). intros o' Ho. apply (outage_sets s); [apply C|]. apply Hl. right; auto.
Qed.
End Config.

Section Carries.
Variables (k : kind) (s t : st).
Hypothesis C : same_config k s t.
Lemma cf_ifs : m_ifs t = m_ifs s. Proof. apply C. Qed.
Lemma cf_nds : m_nds t = m_nds s. Proof. apply C. Qed.
Lemma cf_dms : m_dms t = m_dms s. Proof. apply C. Qed.
Lemma cf_lsps : m_lsps t = m_lsps s. Proof. apply C. Qed.
Lemma cf_name n : nd_name t n = nd_name s n. Proof. apply (cf_nd _ _ _ C n). Qed.
Lemma cf_loc i : loc t i = loc s i.
Proof. unfold loc. destruct (cf_if _ _ _ C i) as [(_&_&_&->&_) _]. apply cf_name. Qed.
Lemma cf_rem i : rem t i = rem s i.
Proof. unfold rem. destruct (cf_if _ _ _ C i) as [(_&_&_&_&->&_) _]. apply cf_name. Qed.
Lemma cf_from d : dmd_from t d = dmd_from s d.
Proof. unfold dmd_from. destruct (cf_dm _ _ _ C d) as (->&_). apply cf_name. Qed.
Lemma cf_to d : dmd_to t d = dmd_to s d.
Proof. unfold dmd_to. destruct (cf_dm _ _ _ C d) as (_&->&_). apply cf_name. Qed.
Lemma cf_demand d : same_demand s t d.
Proof. split; [split; [apply cf_from|apply cf_to]|]. apply (cf_dm _ _ _ C d). Qed.
Lemma cf_un_available i : available (unreserved t) i <-> available (unreserved s) i.
Proof. unfold available, reservable, reserved. simpl. destruct (cf_if _ _ _ C i) as [(_&_&->&_&_&_&->&->) _]. reflexivity. Qed.
Lemma config_links : same_links s t.
Proof.
  constructor; auto using cf_loc, cf_rem.
  - intros i. now rewrite cf_ifs.
  - intros i _. destruct (cf_if _ _ _ C i) as [(_&->&_) _]. reflexivity.
  - intros i _. apply cf_un_available.
Qed.
Lemma cf_names : map (nd_name t) (m_nds t) = map (nd_name s) (m_nds s).
Proof. rewrite cf_nds. apply map_ext. apply cf_name. Qed.
Lemma cf_posed : m_lsps s = [] -> well_posed s -> well_posed t.
Proof.
  intros NL (A & B & D). split; [now rewrite cf_ifs|]. split.
  - intros i Hi. rewrite cf_ifs in Hi. rewrite (sl_cost _ _ config_links i Hi). auto.
  - unfold texts_distinct, from_names, to_names in *. rewrite cf_lsps, NL, cf_dms in *. simpl in *. rewrite (map_ext _ _ cf_from), (map_ext _ _ cf_to). exact D.
Qed.
Lemma cf_known : ends_known s -> ends_known t.
Proof. intros H i Hi. rewrite cf_ifs in Hi. rewrite cf_loc, cf_rem, cf_names. auto. Qed.
Lemma cf_fine : demands_fine s -> demands_fine t.
Proof. intros H d Hd. rewrite cf_dms in Hd. rewrite cf_from, cf_to, cf_names. auto. Qed.
Lemma cf_reverse i j : is_reverse k t i j <-> is_reverse k s i j.
Proof.
  unfold is_reverse. rewrite !cf_loc, !cf_rem. destruct (kind_dec k) as [Hk|Hk]; [|tauto].
  rewrite (proj2 (cf_if _ _ _ C i) Hk), (proj2 (cf_if _ _ _ C j) Hk). reflexivity.
Qed.
Lemma config_fit : fit k (unreserved s) -> fit k (unreserved t).
Proof.
  intros (F1 & F2 & F3 & F4 & F5). 
  assert (O : forall (P Q : nat -> Prop), (forall x, P x <-> Q x) -> one_in (m_ifs s) P -> one_in (m_ifs s) Q).
  { intros P Q H (x & Hx & Px & U). exists x. split; [exact Hx|]. split; [now apply H|]. intros y Hy Qy. apply U; auto. now apply H. }
  assert (RV : forall i j, is_reverse k (unreserved t) i j <-> is_reverse k (unreserved s) i j) by exact cf_reverse.
  split; [|split; [|split; [|split]]].
  - intros i Hi Av. apply cf_un_available in Av. simpl in Hi. rewrite cf_ifs in Hi. destruct (F1 i Hi Av) as [(j & J1 & J2 & J3 & J4) X]. split.
    + exists j. simpl. rewrite cf_ifs. split; [exact J1|]. split; [now apply cf_un_available|]. change (loc t j = rem t i /\ rem t j = loc t i). rewrite !cf_loc, !cf_rem. split; [exact J3|exact J4].
    + intros Hk Nc. simpl m_ifs. change (i_cid (h_if (unreserved t) i)) with (i_cid (h_if t i)) in *. rewrite (proj2 (cf_if _ _ _ C i) Hk) in *.
      destruct (X Hk Nc) as [X1 X2]. rewrite cf_ifs. split; [revert X1|revert X2]; apply O; intros x; 
      change (loc (unreserved t)) with (loc t); change (rem (unreserved t)) with (rem t); change (i_cid (h_if (unreserved t) x)) with (i_cid (h_if t x));
      rewrite !cf_loc, !cf_rem, (proj2 (cf_if _ _ _ C x) Hk); reflexivity.
  - intros i Hi. simpl in Hi |- *. rewrite cf_ifs in Hi. destruct (cf_if _ _ _ C i) as [(_&_&->&_) _]. apply (F2 i Hi).
  - intros i j Hi Hj Av Rv. simpl in Hi, Hj |- *. rewrite cf_ifs in Hi, Hj. destruct (cf_if _ _ _ C i) as [(_&_&->&_) _]. destruct (cf_if _ _ _ C j) as [(_&_&->&_) _].
    apply (F3 i j Hi Hj); [now apply cf_un_available|now apply RV].
  - change (NoDup (map (nd_name t) (m_nds t))). rewrite cf_names. exact F4.
  - intros Hk. destruct (F5 Hk) as [X Y]. split.
    + change (NoDup (map (fun i => ends_text (loc t i) (rem t i)) (m_ifs t))). rewrite cf_ifs, (map_ext _ (fun i => ends_text (loc s i) (rem s i))); [exact X|]. intros i. now rewrite cf_loc, cf_rem.
    + intros n Hn. simpl in Hn |- *. rewrite cf_nds in Hn. destruct (cf_nd _ _ _ C n) as (_ & _ & ->). apply (Y n Hn).
Qed.
End Carries.

Lemma config_sym k s t : same_config k s t -> same_config k t s.
Proof.
  intros C. constructor.
  - destruct (cf_sets _ _ _ C) as (?&?&?&?&?). repeat split; congruence.
  - intros n. destruct (cf_nd _ _ _ C n) as (?&?&?). repeat split; congruence.
  - intros i. destruct (cf_if _ _ _ C i) as [(?&?&?&?&?&?&?&?) H]. split; [repeat split; congruence|]. intros Hk. now rewrite H.
  - intros d. destruct (cf_dm _ _ _ C d) as (?&?&?&?). repeat split; congruence.
  - intros d. destruct (cf_ls _ _ _ C d) as (?&?&?&?). repeat split; congruence.
Qed.

Lemma sound_plain k s : sound_net k s -> plain k s.
Proof.
  intros (NL & WP & (K & R & CS & L) & _ & (_ & EA)). split; [exact NL|]. split; [exact WP|]. split; [|split; [exact CS|split; [exact EA|apply K]]].
  intros i Hi. destruct R as (R & _). destruct (R i Hi) as [A B].
  split; apply in_map_iff; [exists (i_node (h_if s i))|exists (i_rem (h_if s i))]; (split; [reflexivity|assumption]).
Qed.
Lemma sound_history E k l s : env_ok E -> (forall o, In o l -> outage_op s o) -> sound_net k s -> sound_net k (run_ops E k l s).
Proof.
  intros HE Hl (NL & WP & I). assert (C := config_history E k l s Hl). split; [now rewrite (cf_lsps _ _ _ C)|]. split; [now apply (cf_posed _ _ _ C)|].
  apply (history_inv E k HE l s); [intros o Ho; now apply outage_failure, Hl|]. destruct I as (I1 & I2 & I3). split; auto.
Qed.
Lemma sound_update E k s s' r : env_ok E -> sound_net k s -> update_simulation E k s = (s', r) -> sound_net k s' /\ same_config k s s'.
Proof.
  intros HE S U. assert (H : forall o, In o [OpUpdate] -> outage_op s o) by (intros o [<-|[]]; exact I). 
  assert (X := sound_history E k [OpUpdate] s HE H S). assert (Y := config_history E k [OpUpdate] s H). simpl in X, Y. rewrite U in X, Y. auto.
Qed.

(** update_simulation succeeds for one failure state of a model iff for all *)
Lemma config_succeeds E E' k s t : env_ok E -> env_ok E' -> plain k s -> plain k t -> same_config k s t ->
  (exists s', update_simulation E k s = (s', Ok tt)) -> exists t', update_simulation E' k t = (t', Ok tt).
Proof.
  intros HE HE' (NL & WP & EK & CS & _) (NL' & WP' & EK' & CS' & _) C H. apply (succeeds E' k HE' t NL' WP' EK' CS').
  apply (succeeds E k HE s NL WP EK CS) in H as [H1 H2]. split; [now apply (cf_fine _ _ _ C)|now apply (config_fit _ _ _ C)].
Qed.

(** ** Interface traffic *)
Lemma ends_least s t d : same_links s t -> same_failures s t -> same_ends s t d -> forall p,
  least_cost (unreserved s) (usable (unreserved s)) (dmd_from s d) p (dmd_to s d) <-> least_cost (unreserved t) (usable (unreserved t)) (dmd_from t d) p (dmd_to t d).
Proof. intros S F [-> ->] p. now apply links_least. Qed.

Section Added.
Variables (E E' : env) (k : kind) (s t s' t' : st) (D : list nat).
Hypothesis HE : env_ok E.
Hypothesis HE' : env_ok E'.
Hypothesis P : plain k s.
Hypothesis P' : plain k t.
Hypothesis X : extended s t D.
Hypothesis U : update_simulation E k s = (s', Ok tt).
Hypothesis U' : update_simulation E' k t = (t', Ok tt).
Lemma added_old d : In d (m_dms s) -> In d (m_dms t).
Proof. intros H. rewrite (ex_dms _ _ _ X). apply in_or_app. auto. Qed.
Lemma added_paths d : In d (m_dms s) -> same_paths (d_path (h_dm s' d)) (d_path (h_dm t' d)).
Proof.
  intros Hd. apply (two_paths E E' k k s t s' t' HE HE' P P' U U' d Hd (added_old d Hd)).
  apply ends_least; [apply X|apply X|apply (ex_dm _ _ _ X d Hd)].
Qed.
Lemma added_traffic i : In i (m_ifs s) ->
  if i_failed (h_if s i) then i_traffic (h_if s' i) = TDown /\ i_traffic (h_if t' i) = TDown
  else exists q r f, i_traffic (h_if s' i) = TNum q /\ i_traffic (h_if t' i) = TNum r /\ (forall d, In d D -> adds k t' d i (f d)) /\ (r == q + Qsum (map f D))%Q.
Proof.
  intros Hi. assert (Hi' : In i (m_ifs t)) by (apply (sl_ifs _ _ (ex_links _ _ _ X)); exact Hi).
  assert (A := run_traffic E k s s' HE P U i Hi). assert (B := run_traffic E' k t t' HE' P' U' i Hi'). rewrite (ex_fail _ _ _ X i Hi) in B.
  destruct (i_failed (h_if s i)); [auto|]. destruct A as (q & f & A1 & A2 & A3), B as (r & g & B1 & B2 & B3).
  exists q, r, g. split; [exact A1|]. split; [exact B1|]. rewrite (ex_dms _ _ _ X) in B2, B3. split.
  - intros d Hd. apply B3. apply in_or_app. auto.
  - change (Qsum (map g D)) with (sumq g D). rewrite B2, sumq_app, A2. apply Qplus_comp; [|reflexivity]. apply sumq_ext. intros d Hd. symmetry.
    apply (two_adds E E' k s t s' t' d i (f d) (g d) HE HE' P P' (sl_loc _ _ (ex_links _ _ _ X)) U U' Hd (added_old d Hd)).
    + apply ends_least; [apply X|apply X|apply (ex_dm _ _ _ X d Hd)].
    + apply (ex_dm _ _ _ X d Hd).
    + apply (A3 d Hd).
    + apply B3. apply in_or_app. auto.
Qed.
End Added.

(** the same links, failures and demands give the same results *)
Lemma same_results E E' k s t s' t' : env_ok E -> env_ok E' -> plain k s -> plain k t -> same_links s t -> same_failures s t -> m_dms t = m_dms s ->
  (forall d, In d (m_dms s) -> same_demand s t d) ->
  update_simulation E k s = (s', Ok tt) -> update_simulation E' k t = (t', Ok tt) ->
  (forall d, In d (m_dms s) -> same_paths (d_path (h_dm s' d)) (d_path (h_dm t' d))) /\
  (forall i, In i (m_ifs s) -> same_traffic (i_traffic (h_if s' i)) (i_traffic (h_if t' i))).
Proof.
  intros HE HE' P P' S F Dm Sd U U'. assert (X : extended s t []) by (constructor; auto; now rewrite app_nil_r). split.
  - intros d Hd. exact (added_paths E E' k s t s' t' [] HE HE' P P' X U U' d Hd).
  - intros i Hi. assert (Y := added_traffic E E' k s t s' t' [] HE HE' P P' X U U' i Hi). destruct (i_failed (h_if s i)).
    + destruct Y as [-> ->]. exact I.
    + destruct Y as (q & r & f & -> & -> & _ & Y). simpl in *. rewrite Y. ring.
Qed.

(** scaling the traffic *)
Lemma scaled_traffic E E' c s t s' t' i : env_ok E -> env_ok E' -> plain Flex s -> plain Flex t -> scaled c s t ->
  update_simulation E Flex s = (s', Ok tt) -> update_simulation E' Flex t = (t', Ok tt) -> In i (m_ifs s) ->
  if i_failed (h_if s i) then i_traffic (h_if t' i) = TDown
  else exists q r, i_traffic (h_if s' i) = TNum q /\ i_traffic (h_if t' i) = TNum r /\ (r == c * q)%Q.
Proof.
  intros HE HE' P P' X U U' Hi. assert (Hi' : In i (m_ifs t)) by (apply (sl_ifs _ _ (sc_links _ _ _ X)); exact Hi).
  assert (A := run_traffic E Flex s s' HE P U i Hi). assert (B := run_traffic E' Flex t t' HE' P' U' i Hi'). rewrite (sc_fail _ _ _ X i Hi) in B.
  destruct (i_failed (h_if s i)); [auto|]. destruct A as (q & f & A1 & A2 & A3), B as (r & g & B1 & B2 & B3).
  exists q, r. split; [exact A1|]. split; [exact B1|]. rewrite (sc_dms _ _ _ X) in B2, B3. rewrite A2, B2, <- sumq_scale. apply sumq_ext. intros d Hd.
  destruct (sc_dm _ _ _ X d Hd) as [En Tr]. assert (Hd' : In d (m_dms t)) by now rewrite (sc_dms _ _ _ X).
  assert (LC := ends_least s t d (sc_links _ _ _ X) (sc_fail _ _ _ X) En).
  assert (SP := two_paths E E' Flex Flex s t s' t' HE HE' P P' U U' d Hd Hd' LC).
  destruct (run_puts E Flex s s' HE P U d i (f d) Hd (A3 d Hd)) as [[X1 X2]|(L & o & es & R & Y)], (run_puts E' Flex t t' HE' P' U' d i (g d) Hd' (B3 d Hd)) as [[Y1 Y2]|(M & o' & fs & R' & Z)].
  - rewrite X2, Y2. ring.
  - rewrite X1, (proj1 R') in SP. destruct SP.
  - rewrite Y1, (proj1 R) in SP. destruct SP.
  - rewrite Y, Z. unfold amount. rewrite (two_loads Flex Flex s t s' t' (sl_loc _ _ (sc_links _ _ _ X)) d LC L o es M o' fs i _ R R').
    unfold loads. rewrite <- sumq_scale. apply sumq_ext. intros p _. simpl. rewrite Tr. ring.
Qed.

(** ** FlexModel and PerformanceModel *)
Lemma crossings_one s i p : NoDup p -> (crossings s i (if_path p) <= 1)%nat.
Proof.
  unfold crossings, if_path. induction p as [|j p IH]; simpl; intros N; [lia|]. apply NoDup_cons_iff in N as [N1 N2]. specialize (IH N2).
  destruct (Nat.eqb_spec j i) as [->|]; [|exact IH].
  assert (Z : list_sum (map (item_crossings s i) (map IIf p)) = 0%nat); [|lia]. clear - N1. induction p as [|j p IH]; simpl; auto.
  destruct (Nat.eqb_spec j i) as [->|]; [destruct N1; left; auto|]. apply IH. intros H. apply N1. right; auto.
Qed.
Lemma loads_close s L o i T : (forall p, In p L -> NoDup p) ->
  (Qabs (loads Perf s L o i T - loads Flex s L o i T) <= inject_Z (Z.of_nat (List.length L)) * (1 # 20000))%Q.
Proof.
  unfold loads. induction L as [|p L IH]; intros H.
  - rewrite !sumq_nil. simpl. discriminate.
  - rewrite !sumq_cons. cbn [List.length]. rewrite Nat2Z.inj_succ. unfold Z.succ. rewrite inject_Z_plus.
    assert (X := IH (fun q Hq => H q (or_intror Hq))). clear IH. revert X. generalize (sumq (fun p => inject_Z (Z.of_nat (crossings s i (if_path p))) * shown Perf (T * w (loc s) o p)) L)%Q
      (sumq (fun p => inject_Z (Z.of_nat (crossings s i (if_path p))) * shown Flex (T * w (loc s) o p)) L)%Q. intros a b X.
    assert (C := crossings_one s i p (H p (or_introl eq_refl))).
    assert (R : (Qabs (T * w (loc s) o p - roundd 10000 (T * w (loc s) o p)) <= 1 # 20000)%Q) by (destruct (roundd_rounds 10000 (T * w (loc s) o p)) as (z & _ & R & _); exact R).
    simpl shown. revert R. generalize (T * w (loc s) o p)%Q. intros x R. revert R. generalize (roundd 10000 x). intros y R.
    assert (C' : crossings s i (if_path p) = 0%nat \/ crossings s i (if_path p) = 1%nat) by lia. revert X R. apply Qabs_case; intros ? ?; apply Qabs_case; intros ? ?; apply Qabs_case; intros ?;
    destruct C' as [-> | ->]; simpl; change (inject_Z 0) with 0%Q; change (inject_Z 1) with 1%Q; lra.
Qed.
Lemma amount_close k x : (Qabs (amount k x - x) <= 1 # 20)%Q.
Proof.
  destruct k; cbn [amount].
  - apply Qabs_bound. lra.
  - destruct (roundd_rounds 10 x) as (z & _ & R & _). rewrite Qabs_Qminus. exact R.
Qed.

Section Kinds.
Variables (E E' : env) (s s' t' : st).
Hypothesis HE : env_ok E.
Hypothesis HE' : env_ok E'.
Hypothesis P : plain Flex s.
Hypothesis P' : plain Perf s.
Hypothesis U : update_simulation E Flex s = (s', Ok tt).
Hypothesis U' : update_simulation E' Perf s = (t', Ok tt).
Lemma kinds_paths d : In d (m_dms s) -> same_paths (d_path (h_dm s' d)) (d_path (h_dm t' d)).
Proof. intros Hd. apply (two_paths E E' Flex Perf s s s' t' HE HE' P P' U U' d Hd Hd). intros p. reflexivity. Qed.
Lemma kinds_adds d i x y : In d (m_dms s) -> adds Flex s' d i x -> adds Perf t' d i y -> (Qabs (x - y) <= slack s' d)%Q.
Proof.
  intros Hd A B. assert (SP := kinds_paths d Hd). unfold slack.
  destruct (run_puts E Flex s s' HE P U d i x Hd A) as [[X1 X2]|(L & o & es & R & X)], (run_puts E' Perf s t' HE' P' U' d i y Hd B) as [[Y1 Y2]|(M & o' & fs & R' & Y)].
  - rewrite X1, X2, Y2. simpl. discriminate.
  - rewrite X1, (proj1 R') in SP. destruct SP.
  - rewrite Y1, (proj1 R) in SP. destruct SP.
  - rewrite (proj1 R), map_length, X, Y. set (T := d_traffic (h_dm s d)).
    assert (Z := two_loads Flex Perf s s s' t' (fun i _ => eq_refl) d (fun p => iff_refl _) L o es M o' fs i T R R').
    assert (C : forall p, In p L -> NoDup p).
    { destruct R as (_ & _ & _ & I & _). intros p Hp. apply I in Hp. refine (least_nodup (unreserved s) _ _ _ _ _ Hp). destruct P as (_ & (_ & C & _) & _). exact C. }
    assert (W := loads_close s L o i T C). assert (V := amount_close Perf (loads Perf s M o' i T)). revert V. rewrite (amount_eq Perf _ _ Z), Z. 
    generalize (amount Perf (loads Perf s L o i T)). intros a V. change (amount Flex (loads Flex s L o i T)) with (loads Flex s L o i T).
    revert V W. generalize (loads Perf s L o i T) (loads Flex s L o i T) (inject_Z (Z.of_nat (List.length L)) * (1 # 20000))%Q. clear. intros b c e.
    apply Qabs_case; intros ? ?; apply Qabs_case; intros ? ?; apply Qabs_case; intros ?; lra.
Qed.
Lemma kinds_traffic i : In i (m_ifs s) ->
  if i_failed (h_if s i) then i_traffic (h_if s' i) = TDown /\ i_traffic (h_if t' i) = TDown
  else exists q r, i_traffic (h_if s' i) = TNum q /\ i_traffic (h_if t' i) = TNum r /\ (Qabs (q - r) <= Qsum (map (slack s') (m_dms s)))%Q.
Proof.
  intros Hi. assert (A := run_traffic E Flex s s' HE P U i Hi). assert (B := run_traffic E' Perf s t' HE' P' U' i Hi).
  destruct (i_failed (h_if s i)); [auto|]. destruct A as (q & f & A1 & A2 & A3), B as (r & g & B1 & B2 & B3).
  exists q, r. split; [exact A1|]. split; [exact B1|]. rewrite A2, B2. change (Qsum (map (slack s') (m_dms s))) with (sumq (slack s') (m_dms s)).
  assert (X : forall l, (forall d, In d l -> In d (m_dms s)) -> (Qabs (sumq f l - sumq g l) <= sumq (slack s') l)%Q); [|apply X; auto].
  induction l as [|d l IH]; intros H.
  - rewrite !sumq_nil. simpl. discriminate.
  - rewrite !sumq_cons. assert (V := kinds_adds d i (f d) (g d) (H d (or_introl eq_refl)) (A3 d (H d (or_introl eq_refl))) (B3 d (H d (or_introl eq_refl)))).
    assert (W := IH (fun x Hx => H x (or_intror Hx))). revert V W. generalize (f d) (g d) (sumq f l) (sumq g l) (slack s' d) (sumq (slack s') l). clear. intros.
    revert V W. apply Qabs_case; intros ? ?; apply Qabs_case; intros ? ?; apply Qabs_case; intros ?; lra.
Qed.
End Kinds.
