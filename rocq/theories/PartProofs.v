(** PartProofs.v - simulations of models that agree on a part that is cut off. *)
From Verif Require Import Base Graph Objects Sim Api Frames ApiFrames ApiProofs HistProofs FailProofs RepairProofs Spec SpecCkt SpecSim SpecMetric SpecFlow SpecOrder SpecFail GraphProofs MonadProofs RoundProofs ResProofs ObjProofs CircuitProofs
  ValidateProofs GroupProofs PathProofs QuietProofs RouteProofs LeastProofs IgpProofs Ecmp TrafficProofs ShareProofs SpecSig SigUpdate MetricProofs FlowProofs UtilProofs OrderProofs SpecWhatIf WhatIf WhatIfMore WhatIfApi SpecCost.
From Coq Require Import Lqa Permutation.

Lemma part_sym N s t : same_part N s t -> same_part N t s.
Proof.
  intros P. constructor.
  - intros i. symmetry. apply (pt_ifs _ _ _ P).
  - intros i Hi HN. destruct (proj2 (pt_ifs _ _ _ P i) (conj Hi HN)) as [A B]. destruct (pt_if _ _ _ P i A B) as (C1 & C2 & C3 & C4 & C5). repeat split; auto; now apply C5.
  - intros d. symmetry. apply (pt_dms _ _ _ P).
  - intros d Hd HN. destruct (proj2 (pt_dms _ _ _ P d) (conj Hd HN)) as [A B]. destruct (pt_dm _ _ _ P d A B) as [[C1 C2] C3]. repeat split; auto.
Qed.
Lemma part_route N s t u p v : same_part N s t -> no_way_out N s -> route (unreserved s) (usable (unreserved s)) u p v -> In u N ->
  route (unreserved t) (usable (unreserved t)) u p v /\ route_cost t p = route_cost s p /\ forall i, In i p -> In i (m_ifs s) /\ In (loc s i) N.
Proof.
  intros P C. induction 1 as [|i p v Hi [U1 U2] R IH]; intros HN; [split; [constructor|split; [reflexivity|intros i []]]|].
  change (In i (m_ifs s)) in Hi. change (In (loc s i) N) in HN. destruct (pt_if _ _ _ P i Hi HN) as (C1 & C2 & C3 & C4 & C5).
  assert (HR : In (rem s i) N) by (apply (C i Hi); [split; assumption|exact HN]). destruct (IH HR) as (R' & RC & RI).
  split; [|split].
  - change (loc (unreserved s) i) with (loc s i). rewrite <- C1. change (loc t i) with (loc (unreserved t) i). constructor.
    + change (In i (m_ifs t)). exact (proj1 (proj1 (pt_ifs _ _ _ P i) (conj Hi HN))).
    + split; [change (i_failed (h_if t i) = false); rewrite C4; exact U1|now apply C5].
    + change (rem (unreserved t) i) with (rem t i). rewrite C2. exact R'.
  - simpl. now rewrite C3, RC.
  - intros j [<-|Hj]; [auto|]. now apply RI.
Qed.
Lemma cut_out N s : cut_off N s -> no_way_out N s.
Proof. intros C i Hi H X. now apply (C i Hi H). Qed.
Lemma outside_route N s u p v : cut_off N s -> route (unreserved s) (usable (unreserved s)) u p v -> ~ In u N -> forall i, In i p -> ~ In (loc s i) N.
Proof.
  intros C. induction 1 as [|i p v Hi U R IH]; intros HN j Hj; [destruct Hj|]. change (~ In (loc s i) N) in HN. destruct Hj as [<-|Hj]; [exact HN|].
  apply IH; [|exact Hj]. intros X. apply HN. now apply (C i Hi U).
Qed.
Section Part.
Variables (N : list string) (s t : st).
Hypothesis P : same_part N s t.
Hypothesis C : no_way_out N s.
Hypothesis C' : no_way_out N t.
Lemma part_least u p v : In u N ->
  (least_cost (unreserved s) (usable (unreserved s)) u p v <-> least_cost (unreserved t) (usable (unreserved t)) u p v).
Proof.
  intros Hu. split; intros [R M].
  - destruct (part_route N s t u p v P C R Hu) as (R' & RC & _). split; [exact R'|]. intros q Q. destruct (part_route N t s u q v (part_sym _ _ _ P) C' Q Hu) as (Q' & QC & _).
    specialize (M q Q'). rewrite !un_cost in *. lia.
  - destruct (part_route N t s u p v (part_sym _ _ _ P) C' R Hu) as (R' & RC & _). split; [exact R'|]. intros q Q. destruct (part_route N s t u q v P C Q Hu) as (Q' & QC & _).
    specialize (M q Q'). rewrite !un_cost in *. lia.
Qed.
Variables (E E' : env) (k : kind) (s' t' : st).
Hypothesis HE : env_ok E.
Hypothesis HE' : env_ok E'.
Hypothesis PS : plain k s.
Hypothesis PT : plain k t.
Hypothesis U : update_simulation E k s = (s', Ok tt).
Hypothesis U' : update_simulation E' k t = (t', Ok tt).
Lemma part_lc d : In d (m_dms s) -> In (dmd_from s d) N -> forall p,
  least_cost (unreserved s) (usable (unreserved s)) (dmd_from s d) p (dmd_to s d) <-> least_cost (unreserved t) (usable (unreserved t)) (dmd_from t d) p (dmd_to t d).
Proof. intros Hd HN p. destruct (pt_dm _ _ _ P d Hd HN) as [[-> ->] _]. now apply part_least. Qed.
Lemma part_paths d : In d (m_dms s) -> In (dmd_from s d) N -> same_paths (d_path (h_dm s' d)) (d_path (h_dm t' d)).
Proof. intros Hd HN. destruct (proj1 (pt_dms _ _ _ P d) (conj Hd HN)) as [Hd' _]. exact (two_paths E E' k k s t s' t' HE HE' PS PT U U' d Hd Hd' (part_lc d Hd HN)). Qed.
Lemma part_loads d L o es M o' fs i T : In d (m_dms s) -> In (dmd_from s d) N -> routes k s s' d L o es -> routes k t t' d M o' fs -> (loads k t M o' i T == loads k s L o i T)%Q.
Proof.
  intros Hd HN (_ & _ & N1 & A & _ & O1 & X1 & _) (_ & _ & N2 & B & _ & O2 & X2 & _). unfold loads.
  assert (LM : forall p, In p L <-> In p M) by (intros p; now rewrite A, B, (part_lc d Hd HN)).
  assert (Lo : forall p j, In p L -> In j p -> loc t j = loc s j).
  { intros p j Hp Hj. apply A in Hp as [Rt _]. destruct (part_route N s t _ _ _ P C Rt HN) as (_ & _ & X). destruct (X j Hj) as [Y Z]. now apply (pt_if _ _ _ P). }
  assert (OO : forall n, List.length (o' n) = List.length (o n)).
  { intros n. apply same_count; auto. intros j. rewrite X1, X2. split; intros [H (p & Hp & Hj)].
    - apply LM in Hp. split; [rewrite <- H; symmetry; eapply Lo; eauto|]. exists p. auto.
    - split; [rewrite <- H; eapply Lo; eauto|]. exists p. split; [now apply LM|auto]. }
  rewrite <- (sumq_perm _ _ _ (NoDup_Permutation N1 N2 LM)). apply sumq_ext. intros p Hp. rewrite (crossings_if t s).
  rewrite (same_w (loc t) (loc s) o' o p); [reflexivity| |auto]. intros j Hj. eapply Lo; eauto.
Qed.
Lemma part_adds d i x y : In d (m_dms s) -> In (dmd_from s d) N -> adds k s' d i x -> adds k t' d i y -> (x == y)%Q.
Proof.
  intros Hd HN A B. destruct (proj1 (pt_dms _ _ _ P d) (conj Hd HN)) as [Hd' _]. assert (SP := part_paths d Hd HN).
  destruct (run_puts E k s s' HE PS U d i x Hd A) as [[X1 X2]|(L & o & es & RL & X)], (run_puts E' k t t' HE' PT U' d i y Hd' B) as [[Y1 Y2]|(M & o' & fs & RM & Y)].
  - now rewrite X2, Y2.
  - rewrite X1, (proj1 RM) in SP. destruct SP.
  - rewrite Y1, (proj1 RL) in SP. destruct SP.
  - rewrite X, Y. apply amount_eq. rewrite (part_loads d L o es M o' fs i _ Hd HN RL RM), (proj2 (pt_dm _ _ _ P d Hd HN)). reflexivity.
Qed.
End Part.
Section Outside.
Variables (E : env) (k : kind) (s s' : st) (N : list string).
Hypothesis HE : env_ok E.
Hypothesis PS : plain k s.
Hypothesis U : update_simulation E k s = (s', Ok tt).
Hypothesis C : cut_off N s.
Lemma outside_adds d i x : In d (m_dms s) -> ~ In (dmd_from s d) N -> In (loc s i) N -> adds k s' d i x -> (x == 0)%Q.
Proof.
  intros Hd HN Hi A. destruct (run_puts E k s s' HE PS U d i x Hd A) as [[_ X]|(L & o & es & (_ & _ & _ & RL & _) & X)]; [exact X|].
  rewrite X. assert (Z : (loads k s L o i (d_traffic (h_dm s d)) == 0)%Q).
  { unfold loads. apply sumq_zero. intros p Hp. apply RL in Hp as [R _]. rewrite crossings_occ. rewrite (proj1 (count_occ_not_In Nat.eq_dec p i)); [change (inject_Z (Z.of_nat 0)) with 0%Q; ring|].
    intros Hip. exact (outside_route N s _ _ _ C R HN i Hip Hi). }
  rewrite (amount_eq k _ _ Z). unfold amount. destruct k; [reflexivity|vm_compute; reflexivity].
Qed.
Definition inN (n : string) : bool := if in_dec string_dec n N then true else false.
Lemma inN_iff n : inN n = true <-> In n N.
Proof. unfold inN. destruct (in_dec string_dec n N); split; auto; discriminate. Qed.
Lemma outside_sum i (g : nat -> Q) : In (loc s i) N -> (forall d, In d (m_dms s) -> adds k s' d i (g d)) ->
  (sumq g (m_dms s) == sumq g (filter (fun d => inN (dmd_from s d)) (m_dms s)))%Q.
Proof.
  intros Hi A. rewrite sumq_filter. apply sumq_ext. intros d Hd. destruct (inN (dmd_from s d)) eqn:X; [reflexivity|].
  apply (outside_adds d i); auto. intros H. apply inN_iff in H. congruence.
Qed.
End Outside.
Section Both.
Variables (N : list string) (s t : st).
Hypothesis P : same_part N s t.
Hypothesis C : cut_off N s.
Hypothesis C' : cut_off N t.
Variables (E E' : env) (k : kind) (s' t' : st).
Hypothesis HE : env_ok E.
Hypothesis HE' : env_ok E'.
Hypothesis PS : plain k s.
Hypothesis PT : plain k t.
Hypothesis U : update_simulation E k s = (s', Ok tt).
Hypothesis U' : update_simulation E' k t = (t', Ok tt).
Lemma part_traffic i : NoDup (m_dms s) -> NoDup (m_dms t) -> In i (m_ifs s) -> In (loc s i) N -> same_traffic (i_traffic (h_if s' i)) (i_traffic (h_if t' i)).
Proof.
  intros D1 D2 Hi HN. destruct (proj1 (pt_ifs _ _ _ P i) (conj Hi HN)) as [Hi' HN']. destruct (pt_if _ _ _ P i Hi HN) as (_ & _ & _ & F & _).
  assert (A := run_traffic E k s s' HE PS U i Hi). assert (B := run_traffic E' k t t' HE' PT U' i Hi'). rewrite F in B.
  destruct (i_failed (h_if s i)); [rewrite A, B; exact I|]. destruct A as (q & g & -> & A2 & A3), B as (r & h & -> & B2 & B3).
  simpl. rewrite A2, B2. rewrite (outside_sum E k s s' N HE PS U C i g HN A3), (outside_sum E' k t t' N HE' PT U' C' i h HN' B3).
  assert (Pm : Permutation (filter (fun d => inN N (dmd_from s d)) (m_dms s)) (filter (fun d => inN N (dmd_from t d)) (m_dms t))).
  { apply NoDup_Permutation; try (apply NoDup_filter; assumption). intros d. rewrite !filter_In, !inN_iff. apply (pt_dms _ _ _ P). }
  rewrite <- (sumq_perm h _ _ Pm). apply sumq_ext. intros d Hd. apply filter_In in Hd as [Hd X]. apply inN_iff in X.
  destruct (proj1 (pt_dms _ _ _ P d) (conj Hd X)) as [Hd' _]. exact (part_adds N s t P (cut_out _ _ C) (cut_out _ _ C') E E' k s' t' HE HE' PS PT U U' d i (g d) (h d) Hd X (A3 d Hd) (B3 d Hd')).
Qed.
End Both.
