(** WhatIfMore.v - balance, bounds and symmetry of interface traffic in models
    without LSPs. *)
From Verif Require Import Base Graph Objects Sim Api Spec SpecCkt SpecSim SpecMetric SpecFlow SpecOrder SpecFail GraphProofs MonadProofs RoundProofs ResProofs ObjProofs CircuitProofs
  ValidateProofs GroupProofs PathProofs QuietProofs RouteProofs LeastProofs IgpProofs Ecmp TrafficProofs ShareProofs SpecSig SigUpdate MetricProofs FlowProofs UtilProofs OrderProofs SpecWhatIf WhatIf ShortLsp.
From Coq Require Import Lqa Permutation.

Lemma w_nonneg lo o p : (0 <= w lo o p)%Q.
Proof.
  induction p as [|i p IH]; cbn [w]; [discriminate|]. apply Qmult_le_0_compat; [|exact IH]. apply Qinv_le_0_compat. unfold deg. 
  change 0%Q with (inject_Z 0). rewrite <- Zle_Qle. lia.
Qed.
Definition cr (i : nat) (p : list nat) : Q := inject_Z (Z.of_nat (count_occ Nat.eq_dec p i)).
Lemma crossings_occ s i p : crossings s i (if_path p) = count_occ Nat.eq_dec p i.
Proof.
  unfold crossings, if_path. induction p as [|j p IH]; simpl; auto. rewrite IH. destruct (Nat.eq_dec j i) as [->|]; [now rewrite Nat.eqb_refl|]. destruct (Nat.eqb_spec j i); [congruence|reflexivity].
Qed.
Lemma loads_flex s L o i T : (loads Flex s L o i T == sumq (fun p => cr i p * (T * w (loc s) o p)) L)%Q.
Proof. unfold loads, cr. apply sumq_ext. intros p _. now rewrite crossings_occ. Qed.

(** crossings of a path counted over the interfaces at a node *)
Definition b2 (b : bool) : Q := if b then 1%Q else 0%Q.
Lemma occ_sum (f : nat -> bool) l p : NoDup l -> (forall i, In i p -> In i l) ->
  (sumq (fun i => (if f i then 1 else 0) * cr i p) l == sumq (fun i => if f i then 1 else 0) p)%Q.
Proof.
  intros N. induction p as [|j p IH]; intros H.
  - rewrite sumq_nil. apply sumq_zero. intros i _. unfold cr. simpl. ring.
  - rewrite sumq_cons, <- IH by (intros; apply H; right; auto).
    rewrite (sumq_ext _ (fun i => (if Nat.eqb i j then (if f i then 1 else 0) else 0) + (if f i then 1 else 0) * cr i p)%Q).
    + rewrite sumq_plus. rewrite (sumq_pick l j (fun i => if f i then 1 else 0)%Q N (H j (or_introl eq_refl))). reflexivity.
    + intros i _. unfold cr. cbn [count_occ]. destruct (Nat.eq_dec j i) as [->|Ne].
      * rewrite Nat.eqb_refl, Nat2Z.inj_succ. unfold Z.succ. rewrite inject_Z_plus. change (inject_Z 1) with 1%Q. ring.
      * destruct (Nat.eqb_spec i j); [congruence|]. ring.
Qed.
Lemma telescope s ok n p : forall u v, route s ok u p v ->
  (sumq (fun i => if String.eqb (loc s i) n then 1 else 0) p + (if String.eqb v n then 1 else 0) ==
   sumq (fun i => if String.eqb (rem s i) n then 1 else 0) p + (if String.eqb u n then 1 else 0))%Q.
Proof.
  induction p as [|i p IH]; intros u v R.
  - apply route_nil_inv in R. subst. reflexivity.
  - apply route_cons_inv in R as (-> & Hi & Ho & R). apply IH in R. rewrite !sumq_cons. lra.
Qed.

Section Balance.
Variables (E : env) (s s' : st).
Hypothesis HE : env_ok E.
Hypothesis P : plain Flex s.
Hypothesis U : update_simulation E Flex s = (s', Ok tt).
Let NL : m_lsps s = [] := proj1 P.
Let WP : well_posed s := proj1 (proj2 P).
Let ND : NoDup (m_ifs s) := proj1 WP.
Let CS : cids_set Flex s := proj1 (proj2 (proj2 (proj2 P))).
Let EA : ends_agree Flex s := proj1 (proj2 (proj2 (proj2 (proj2 P)))).
Let KU : if_keys_unique s := proj2 (proj2 (proj2 (proj2 (proj2 P)))).
Let en : ended s s' := ended_run Flex E s s' HE NL WP CS EA U.

Lemma members : m_ifs s' = m_ifs s /\ m_dms s' = m_dms s.
Proof. assert (St := config_update E Flex s). rewrite U in St. apply cf_sets in St. simpl in St. unfold same_sets in St. split; apply St. Qed.
Lemma whole d L o es : In d (m_dms s) -> routes Flex s s' d L o es -> (sumq (fun p => d_traffic (h_dm s d) * w (loc s) o p) L == d_traffic (h_dm s d))%Q.
Proof.
  intros Hd (Pd & _ & _ & _ & De & _ & _ & Sh). destruct (no_l Flex s s' d en) as [A1 A2].
  destruct (igp_total E Flex HE s s' WP U (en_fail _ _ en) KU d _ Hd A1 A2 Pd) as (es' & De' & _ & T). assert (es' = es) by congruence. subst es'.
  rewrite (ShareProofs.shares_total _ _ _ _ Sh) in T. rewrite sumq_scale. destruct (en_dm _ _ en d) as (-> & _) in T. exact T.
Qed.

(** the share of every demand in the traffic of an interface *)
Definition load_of (d i : nat) (x : Q) : Prop :=
  (d_path (h_dm s' d) = DUnrouted /\ (x == 0)%Q) \/
  exists L o es, routes Flex s s' d L o es /\ (x == sumq (fun p => cr i p * (d_traffic (h_dm s d) * w (loc s) o p)) L)%Q.
Lemma loads_of i : In i (m_ifs s) -> if i_failed (h_if s i) then i_traffic (h_if s' i) = TDown
  else exists q f, i_traffic (h_if s' i) = TNum q /\ (q == sumq f (m_dms s))%Q /\ forall d, In d (m_dms s) -> load_of d i (f d).
Proof.
  intros Hi. assert (A := run_traffic E Flex s s' HE P U i Hi). destruct (i_failed (h_if s i)); [exact A|]. destruct A as (q & f & A1 & A2 & A3).
  exists q, f. split; [exact A1|]. split; [exact A2|]. intros d Hd. destruct (run_puts E Flex s s' HE P U d i (f d) Hd (A3 d Hd)) as [X|(L & o & es & R & X)]; [left; exact X|].
  right. exists L, o, es. split; [exact R|]. rewrite X. apply loads_flex.
Qed.

Lemma failed_cr d L o es p i : routes Flex s s' d L o es -> In p L -> i_failed (h_if s i) = true -> ~ In i p.
Proof.
  intros (_ & _ & _ & I & _) Hp F Hi. apply I in Hp as [R _]. destruct (route_all _ _ _ _ _ i R Hi) as [_ [X _]]. change (i_failed (h_if s i) = false) in X. congruence.
Qed.

(** one function for all interfaces *)
Definition part (d i : nat) : Q :=
  match d_path (h_dm s' d), d_detail (h_dm s' d) with DPaths _, PDInfo es => carried s' i es | _, _ => 0%Q end.
Lemma part_routes d L o es i : routes Flex s s' d L o es -> (part d i == sumq (fun p => cr i p * (d_traffic (h_dm s d) * w (loc s) o p)) L)%Q.
Proof.
  intros R. unfold part. assert (X := run_loads Flex s s' d L o es i R). destruct R as (-> & _ & _ & _ & -> & _). rewrite X. apply loads_flex.
Qed.
Lemma load_part d i x : load_of d i x -> (x == part d i)%Q.
Proof.
  intros [[A B]|(L & o & es & R & B)]; [unfold part; now rewrite A, B|]. now rewrite (part_routes d L o es i R).
Qed.
Lemma traffic_parts i : In i (m_ifs s) -> (traffic_of s' i == sumq (fun d => part d i) (m_dms s))%Q.
Proof.
  intros Hi. assert (A := loads_of i Hi). unfold traffic_of. destruct (i_failed (h_if s i)) eqn:F.
  - rewrite A. symmetry. apply sumq_zero. intros d Hd. destruct (run_routes E Flex s s' HE P U d Hd) as [[X _]|(L & o & es & R)]; [unfold part; now rewrite X|].
    rewrite (part_routes d L o es i R). apply sumq_zero. intros p Hp. assert (N := failed_cr d L o es p i R Hp F). unfold cr. rewrite (proj1 (count_occ_not_In Nat.eq_dec p i) N). simpl. ring.
  - destruct A as (q & f & -> & A & B). rewrite A. apply sumq_ext. intros d Hd. apply load_part, B, Hd.
Qed.

Lemma node_balance n : (outgoing s' n + sunk s' n == incoming s' n + sourced s' n)%Q.
Proof.
  assert (Al := en_alike _ _ en). assert (Mi : forall i, In i (m_ifs s') <-> In i (m_ifs s)) by (intros i; symmetry; apply (al_ifs _ _ Al)).
  destruct members as [M1 M3].
  assert (Sum : forall (g : st -> nat -> string), (forall i, In i (m_ifs s) -> g s' i = g s i) ->
    (Qsum (map (fun i => if String.eqb (g s' i) n then traffic_of s' i else 0) (m_ifs s')) ==
     sumq (fun d => sumq (fun i => (if String.eqb (g s i) n then 1 else 0) * part d i) (m_ifs s)) (m_dms s))%Q).
  { intros g G. change (sumq (fun i => if String.eqb (g s' i) n then traffic_of s' i else 0) (m_ifs s') ==
     sumq (fun d => sumq (fun i => (if String.eqb (g s i) n then 1 else 0) * part d i) (m_ifs s)) (m_dms s))%Q.
    rewrite M1, sumq_swap. apply sumq_ext. intros i Hi. rewrite G by auto. rewrite sumq_scale, <- (traffic_parts i Hi). destruct (String.eqb (g s i) n); ring. }
  unfold outgoing, incoming. rewrite (Sum loc) by (intros i Hi; apply (al_loc _ _ Al i Hi)). rewrite (Sum rem) by (intros i Hi; apply (al_rem _ _ Al i Hi)).
  unfold sunk, sourced. change (Qsum (map ?f (m_dms s'))) with (sumq f (m_dms s')).
  change (sumq (fun d => sumq (fun i => (if String.eqb (loc s i) n then 1 else 0) * part d i) (m_ifs s)) (m_dms s) +
          sumq (fun d => if String.eqb (dmd_to s' d) n then routed_traffic s' d else 0) (m_dms s') ==
          sumq (fun d => sumq (fun i => (if String.eqb (rem s i) n then 1 else 0) * part d i) (m_ifs s)) (m_dms s) +
          sumq (fun d => if String.eqb (dmd_from s' d) n then routed_traffic s' d else 0) (m_dms s'))%Q.
  rewrite M3, <- !sumq_plus. apply sumq_ext. intros d Hd. destruct (en_dm _ _ en d) as (T & Fr & To). rewrite Fr, To. unfold routed_traffic. rewrite T.
  destruct (run_routes E Flex s s' HE P U d Hd) as [[X _]|(L & o & es & R)].
  - rewrite X. rewrite !sumq_zero; [destruct (String.eqb _ n), (String.eqb _ n); ring| |]; intros i _; unfold part; rewrite X; ring.
  - assert (W := whole d L o es Hd R). assert (I : forall g : nat -> bool, (sumq (fun i => (if g i then 1 else 0) * part d i) (m_ifs s) ==
      sumq (fun p => (d_traffic (h_dm s d) * w (loc s) o p) * sumq (fun i => if g i then 1 else 0) p) L)%Q).
    { intros g. rewrite (sumq_ext _ (fun i => sumq (fun p => (d_traffic (h_dm s d) * w (loc s) o p) * ((if g i then 1 else 0) * cr i p)) L)%Q).
      - rewrite sumq_swap. apply sumq_ext. intros p Hp. rewrite sumq_scale. apply Qmult_comp; [reflexivity|]. apply (occ_sum g (m_ifs s) p ND).
        intros i Hi. destruct R as (_ & _ & _ & I & _). apply I in Hp as [Rt _]. apply (route_all _ _ _ _ _ i Rt Hi).
      - intros i _. rewrite (part_routes d L o es i R), <- sumq_scale. apply sumq_ext. intros p _. ring. }
    rewrite (I (fun i => String.eqb (loc s i) n)), (I (fun i => String.eqb (rem s i) n)). destruct R as (-> & _ & _ & IL & _).
    assert (Sc : forall b : bool, ((if b then d_traffic (h_dm s d) else 0) == sumq (fun p => (d_traffic (h_dm s d) * w (loc s) o p) * (if b then 1 else 0)) L)%Q).
    { intros [|]; [rewrite <- W at 1; apply sumq_ext; intros; ring|]. symmetry. apply sumq_zero. intros; ring. }
    rewrite !Sc, <- !sumq_plus. apply sumq_ext. intros p Hp. apply IL in Hp as [Rt _]. assert (Te := telescope _ _ n p _ _ Rt).
    change (loc (unreserved s)) with (loc s) in Te. change (rem (unreserved s)) with (rem s) in Te. rewrite <- !Qmult_plus_distr_r. apply Qmult_comp; [reflexivity|exact Te].
Qed.

(** bounds *)
Lemma traffic_bounds i q : (forall d, In d (m_dms s) -> (0 <= d_traffic (h_dm s d))%Q) -> In i (m_ifs s) -> i_traffic (h_if s' i) = TNum q -> (0 <= q <= routed_total s')%Q.
Proof.
  intros Pos Hi Hq. assert (X := traffic_parts i Hi). unfold traffic_of in X. rewrite Hq in X.
  destruct members as [_ M3].
  assert (B : forall d, In d (m_dms s) -> (0 <= part d i <= routed_traffic s' d)%Q).
  { intros d Hd. unfold routed_traffic. destruct (en_dm _ _ en d) as (-> & _). destruct (run_routes E Flex s s' HE P U d Hd) as [[Y _]|(L & o & es & R)].
    - unfold part. rewrite Y. split; discriminate.
    - rewrite (part_routes d L o es i R). assert (W := whole d L o es Hd R). destruct R as (-> & _ & _ & IL & _).
      assert (NN : forall p, (0 <= d_traffic (h_dm s d) * w (loc s) o p)%Q) by (intros p; apply Qmult_le_0_compat; [now apply Pos|apply w_nonneg]).
      assert (C : forall p, In p L -> (0 <= cr i p <= 1)%Q).
      { intros p Hp. apply IL in Hp. assert (NDp : NoDup p) by (refine (least_nodup (unreserved s) _ _ _ _ _ Hp); exact (proj1 (proj2 WP))).
        assert (Z := proj1 (NoDup_count_occ Nat.eq_dec p) NDp i). unfold cr. change 0%Q with (inject_Z 0). change 1%Q with (inject_Z 1). rewrite <- !Zle_Qle. lia. }
      split; [|apply Qle_trans with (sumq (fun p => d_traffic (h_dm s d) * w (loc s) o p) L)%Q; [|rewrite W; apply Qle_refl]]; [apply sumq_nonneg|apply sumq_le]; intros p Hp; destruct (C p Hp) as [C1 C2]; specialize (NN p).
      + now apply Qmult_le_0_compat.
      + apply Qle_trans with (1 * (d_traffic (h_dm s d) * w (loc s) o p))%Q; [now apply Qmult_le_compat_r|]. rewrite Qmult_1_l. apply Qle_refl. }
  rewrite X. unfold routed_total. rewrite M3. change (Qsum (map (routed_traffic s') (m_dms s))) with (sumq (routed_traffic s') (m_dms s)). split.
  - apply sumq_nonneg. intros d Hd. now apply B.
  - apply sumq_le. intros d Hd. now apply B.
Qed.

(** parallel links *)
Definition swp (i j x : nat) : nat := if Nat.eqb x i then j else if Nat.eqb x j then i else x.
Lemma swp_twice i j x : swp i j (swp i j x) = x.
Proof.
  unfold swp. destruct (Nat.eqb_spec x i) as [->|A]; [destruct (Nat.eqb_spec j i) as [->|]; auto; now rewrite Nat.eqb_refl|].
  destruct (Nat.eqb_spec x j) as [->|B]; [now rewrite Nat.eqb_refl|]. destruct (Nat.eqb_spec x i); [congruence|]. destruct (Nat.eqb_spec x j); congruence.
Qed.
Lemma swp_map_twice i j p : map (swp i j) (map (swp i j) p) = p.
Proof. rewrite map_map. rewrite (map_ext _ (fun x => x)); [apply map_id|]. apply swp_twice. Qed.
Lemma swp_occ i j p : count_occ Nat.eq_dec (map (swp i j) p) i = count_occ Nat.eq_dec p j.
Proof.
  induction p as [|x p IH]; simpl; auto. rewrite IH. unfold swp. destruct (Nat.eqb_spec x i) as [->|A].
  - destruct (Nat.eq_dec j i), (Nat.eq_dec i j); congruence.
  - destruct (Nat.eqb_spec x j) as [->|B]; [destruct (Nat.eq_dec i i), (Nat.eq_dec j j); congruence|]. destruct (Nat.eq_dec x i), (Nat.eq_dec x j); congruence.
Qed.
Lemma parallel_un i j : parallel s' i j -> In i (m_ifs s) /\ In j (m_ifs s) /\ loc s i = loc s j /\ rem s i = rem s j /\ i_cost (h_if s i) = i_cost (h_if s j) /\
  usable (unreserved s) i /\ usable (unreserved s) j.
Proof.
  assert (Al := alike_sym _ _ (en_alike _ _ en)). intros (Hi & Hj & L & R & C & Ui & Uj).
  split; [now apply (al_ifs _ _ Al)|]. split; [now apply (al_ifs _ _ Al)|].
  assert (A1 := al_loc _ _ Al i Hi). assert (A2 := al_loc _ _ Al j Hj). assert (A3 := al_rem _ _ Al i Hi). assert (A4 := al_rem _ _ Al j Hj).
  assert (A5 := proj1 (al_data _ _ Al i Hi)). assert (A6 := proj1 (al_data _ _ Al j Hj)).
  change (loc (unreserved s)) with (loc s) in *. change (rem (unreserved s)) with (rem s) in *. 
  change (i_cost (h_if (unreserved s) i)) with (i_cost (h_if s i)) in *. change (i_cost (h_if (unreserved s) j)) with (i_cost (h_if s j)) in *.
  split; [congruence|]. split; [congruence|]. split; [congruence|]. split; eapply alike_usable; eauto.
Qed.
Lemma parallel_same i j : parallel s' i j -> exists q r, i_traffic (h_if s' i) = TNum q /\ i_traffic (h_if s' j) = TNum r /\ (q == r)%Q.
Proof.
  intros Pa. apply parallel_un in Pa as (Hi & Hj & Lo & Re & Co & Ui & Uj).
  assert (A := loads_of i Hi). assert (B := loads_of j Hj). assert (X := traffic_parts i Hi). assert (Y := traffic_parts j Hj). unfold traffic_of in X, Y.
  assert (Fi : i_failed (h_if s i) = false) by apply Ui. assert (Fj : i_failed (h_if s j) = false) by apply Uj. rewrite Fi in A. rewrite Fj in B.
  destruct A as (q & _ & Aq & _), B as (r & _ & Br & _). exists q, r. split; [exact Aq|]. split; [exact Br|]. rewrite Aq in X. rewrite Br in Y. rewrite X, Y. apply sumq_ext. intros d Hd.
  destruct (run_routes E Flex s s' HE P U d Hd) as [[Z _]|(L & o & es & R)]; [unfold part; now rewrite Z|].
  rewrite (part_routes d L o es i R), (part_routes d L o es j R). destruct R as (_ & _ & NDL & IL & _).
  set (f := map (swp i j)). assert (Swl : forall x, loc s (swp i j x) = loc s x /\ rem s (swp i j x) = rem s x /\ i_cost (h_if s (swp i j x)) = i_cost (h_if s x)).
  { intros x. unfold swp. destruct (Nat.eqb_spec x i) as [->|]; [auto|]. destruct (Nat.eqb_spec x j) as [->|]; auto. }
  assert (Swr : forall p u v, route (unreserved s) (usable (unreserved s)) u p v -> route (unreserved s) (usable (unreserved s)) u (f p) v).
  { induction p as [|x p IH]; intros u v Rt; [exact Rt|]. apply route_cons_inv in Rt as (-> & Hx & Ux & Rt). destruct (Swl x) as (L1 & R1 & _). simpl.
    change (loc (unreserved s) x) with (loc s x). rewrite <- L1. change (loc s (swp i j x)) with (loc (unreserved s) (swp i j x)). constructor.
    - unfold swp. simpl. destruct (Nat.eqb_spec x i); [exact Hj|]. destruct (Nat.eqb_spec x j); [exact Hi|exact Hx].
    - unfold swp. destruct (Nat.eqb_spec x i); [exact Uj|]. destruct (Nat.eqb_spec x j); [exact Ui|exact Ux].
    - change (rem (unreserved s)) with (rem s) in *. rewrite R1. now apply IH. }
  assert (Swc : forall p, route_cost (unreserved s) (f p) = route_cost (unreserved s) p).
  { intros p. rewrite !un_cost. unfold f. induction p as [|x p IH]; [reflexivity|]. unfold route_cost in *. cbn [map fold_right]. rewrite <- IH. f_equal. apply (Swl x). }
  assert (SwL : forall p, In p L -> In (f p) L).
  { intros p Hp. apply IL in Hp as [R1 R2]. apply IL. split; [now apply Swr|]. intros x Hx. rewrite Swc. auto. }
  assert (Pm : Permutation (map f L) L).
  { apply NoDup_Permutation; [|exact NDL|].
    - apply NoDup_map_inj_in; auto. intros a b _ _ Hab. rewrite <- (swp_map_twice i j a), <- (swp_map_twice i j b). unfold f in Hab. now rewrite Hab.
    - intros p. rewrite in_map_iff. split; [intros (x & <- & Hx); auto|]. intros Hp. exists (f p). split; [apply swp_map_twice|auto]. }
  rewrite <- (sumq_perm _ _ _ Pm), sumq_map. apply sumq_ext. intros p _. unfold cr. unfold f at 1. rewrite swp_occ.
  assert (Ww : w (loc s) o (f p) = w (loc s) o p).
  { unfold f. induction p as [|x p IH]; cbn [w map]; auto. rewrite IH. destruct (Swl x) as (-> & _). reflexivity. }
  rewrite Ww. reflexivity.
Qed.
End Balance.
