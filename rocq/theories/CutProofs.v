(** CutProofs.v - traffic across the border of a region. *)
From Verif Require Import Base Graph Objects Sim Api Spec SpecCkt SpecSim SpecMetric SpecFlow SpecOrder SpecShort SpecTotal SpecWhatIf SpecSame SpecBalance SpecHist SpecFail SpecCut GraphProofs MonadProofs
  PathProofs LeastProofs OrderProofs DemandProofs MetricProofs IgpProofs Ecmp TrafficProofs ShareProofs FlowProofs UtilProofs OwnProofs SpecSig SigSeq
  PropertiesApi PropertiesRoute PropertiesTraffic PropertiesSignal OrderLsps Balance.
From Coq Require Import Permutation Lqa.

(** ** Sums over the nodes of a region *)
Lemma sum_at (D : list string) x (c : Q) : NoDup D -> (sumq (fun n => if String.eqb x n then c else 0) D == if existsb (String.eqb x) D then c else 0)%Q.
Proof.
  induction 1 as [|y D Hy N IH]; [reflexivity|]. rewrite sumq_cons. cbn [existsb]. rewrite IH. destruct (String.eqb_spec x y) as [<-|X]; cbn [orb].
  - destruct (existsb (String.eqb x) D) eqn:Z; [|ring]. apply existsb_exists in Z as (z & Hz & Z). apply String.eqb_eq in Z. subst z. contradiction.
  - destruct (existsb (String.eqb x) D); ring.
Qed.
Section Region.
Variables (s : st) (A : string -> bool).
Let names : list string := (map (loc s) (m_ifs s) ++ map (rem s) (m_ifs s) ++ map (dmd_from s) (m_dms s) ++ map (dmd_to s) (m_dms s))%list.
Let D : list string := nodup string_dec (filter A names).
Lemma in_region x : In x names -> existsb (String.eqb x) D = A x.
Proof.
  intros Hx. destruct (A x) eqn:Ax.
  - apply existsb_exists. exists x. split; [|apply String.eqb_refl]. apply nodup_In, filter_In. auto.
  - destruct (existsb (String.eqb x) D) eqn:Z; [|reflexivity]. apply existsb_exists in Z as (z & Hz & Z). apply String.eqb_eq in Z. subst z. apply nodup_In, filter_In in Hz. destruct Hz. congruence.
Qed.
Lemma in_names : (forall i, In i (m_ifs s) -> In (loc s i) names /\ In (rem s i) names) /\ (forall d, In d (m_dms s) -> In (dmd_from s d) names /\ In (dmd_to s d) names).
Proof. unfold names. split; intros x Hx; rewrite !in_app_iff; split; eauto 10 using in_map. Qed.
Lemma region_sum {X} (g : X -> string) (f : X -> Q) l : (forall x, In x l -> In (g x) names) ->
  (sumq (fun n => sumq (fun x => if String.eqb (g x) n then f x else 0) l) D == sumq (fun x => if A (g x) then f x else 0) l)%Q.
Proof. intros H. rewrite sumq_swap. apply sumq_ext. intros x Hx. rewrite (sum_at D (g x) (f x)) by apply NoDup_nodup. rewrite in_region by auto. reflexivity. Qed.

(** balance at every node gives balance at the border *)
Lemma border (f : nat -> Q) (ds : list nat) (t : nat -> Q) : incl ds (m_dms s) ->
  (forall n, sumq (fun i => if String.eqb (loc s i) n then f i else 0) (m_ifs s) + sumq (fun d => if String.eqb (dmd_to s d) n then t d else 0) ds ==
             sumq (fun i => if String.eqb (rem s i) n then f i else 0) (m_ifs s) + sumq (fun d => if String.eqb (dmd_from s d) n then t d else 0) ds)%Q ->
  (sumq f (filter (leads_out s A) (m_ifs s)) + sumq t (filter (goes_out s (rest A)) ds) == sumq f (filter (leads_out s (rest A)) (m_ifs s)) + sumq t (filter (goes_out s A) ds))%Q.
Proof.
  intros I H. destruct in_names as [I1 I2].
  assert (X : (sumq (fun i => if A (loc s i) then f i else 0) (m_ifs s) + sumq (fun d => if A (dmd_to s d) then t d else 0) ds ==
               sumq (fun i => if A (rem s i) then f i else 0) (m_ifs s) + sumq (fun d => if A (dmd_from s d) then t d else 0) ds)%Q).
  { rewrite <- (region_sum (loc s) f (m_ifs s)), <- (region_sum (rem s) f (m_ifs s)), <- (region_sum (dmd_to s) t ds), <- (region_sum (dmd_from s) t ds);
      [|intros d Hd; apply I2, I, Hd|intros d Hd; apply I2, I, Hd|intros i Hi; now apply I1|intros i Hi; now apply I1].
    rewrite <- !sumq_plus. apply sumq_ext. intros n _. apply H. }
  rewrite !sumq_filter.
  assert (Y1 : (sumq (fun i => if A (loc s i) then f i else 0) (m_ifs s) + sumq (fun i => if leads_out s (rest A) i then f i else 0) (m_ifs s) ==
                sumq (fun i => if A (rem s i) then f i else 0) (m_ifs s) + sumq (fun i => if leads_out s A i then f i else 0) (m_ifs s))%Q).
  { rewrite <- !sumq_plus. apply sumq_ext. intros i _. unfold leads_out, rest. destruct (A (loc s i)), (A (rem s i)); simpl; ring. }
  assert (Y2 : (sumq (fun d => if A (dmd_from s d) then t d else 0) ds + sumq (fun d => if goes_out s (rest A) d then t d else 0) ds ==
                sumq (fun d => if A (dmd_to s d) then t d else 0) ds + sumq (fun d => if goes_out s A d then t d else 0) ds)%Q).
  { rewrite <- !sumq_plus. apply sumq_ext. intros d _. unfold goes_out, rest. destruct (A (dmd_from s d)), (A (dmd_to s d)); simpl; ring. }
  lra.
Qed.
End Region.

Lemma sum_nonneg {X} (f : X -> Q) l : (forall x, In x l -> 0 <= f x)%Q -> (0 <= sumq f l)%Q.
Proof. induction l as [|x l IH]; intros H; [apply Qle_refl|]. rewrite sumq_cons. assert (A := H x (or_introl eq_refl)). assert (B := IH (fun y Hy => H y (or_intror Hy))). lra. Qed.
Lemma sum_mono {X} (f g : X -> Q) l : (forall x, In x l -> f x <= g x)%Q -> (sumq f l <= sumq g l)%Q.
Proof. induction l as [|x l IH]; intros H; [apply Qle_refl|]. rewrite !sumq_cons. assert (A := H x (or_introl eq_refl)). assert (B := IH (fun y Hy => H y (or_intror Hy))). lra. Qed.
Lemma divided_nonneg s outs p : forall x, (0 <= x)%Q -> (0 <= divided s outs x p)%Q.
Proof.
  induction p as [|i p IH]; intros x Hx; [exact Hx|]. simpl. apply IH. unfold Qdiv. apply Qmult_le_0_compat; [exact Hx|]. apply Qinv_le_0_compat. unfold count. change 0%Q with (inject_Z 0). rewrite <- Zle_Qle. lia.
Qed.

Section Cut.
Variables (E : env) (s s' : st).
Hypothesis HE : env_ok E.
Hypothesis WP : well_posed s.
Hypothesis KU : if_keys_unique s.
Hypothesis NL : NoDup (m_lsps s).
Hypothesis Up : update_simulation E Flex s = (s', Ok tt).
Hypothesis St : same_failures s s'.
Hypothesis LW : lsps_whole s'.
Hypothesis NS : forall d, In d (m_dms s) -> no_shortcuts_for Flex s' d.
Let Se := fin_sets E Flex s s' Up.

Lemma cut_net A : (out_of s' A + wants_out s' (rest A) == out_of s' (rest A) + wants_out s' A)%Q.
Proof. exact (border s' A (SpecWhatIf.traffic_of s') (m_dms s') (routed_traffic s') (fun d Hd => Hd) (fun n => flex_balance E s s' HE WP KU NL LW n Up St NS)). Qed.

Lemma entry_nonneg d i : In d (m_dms s) -> (0 <= d_traffic (h_dm s' d))%Q -> (0 <= demand_on s' d i)%Q.
Proof.
  intros Hd T. unfold demand_on. destruct (d_path (h_dm s' d)) as [|ps] eqn:P; [apply Qle_refl|].
  assert (X : exists es, d_detail (h_dm s' d) = PDInfo es /\ forall e, In e es -> (0 <= pi_traffic e)%Q).
  { destruct (ride_or E Flex s s' HE WP Up d) as [R|N].
    - destruct (C07_ride E Flex s s' d HE WP NL Up St Hd R) as (ls & es & Ne & _ & _ & _ & De & _ & Te & _). exists es. split; [exact De|]. intros e He. rewrite (Te e He).
      unfold Qdiv. apply Qmult_le_0_compat; [exact T|]. apply Qinv_le_0_compat. unfold count. change 0%Q with (inject_Z 0). rewrite <- Zle_Qle. lia.
    - destruct (C57_entries E Flex s s' d ps HE WP KU Up St Hd N (NS d Hd) P) as (es & De & _ & H). exists es. split; [exact De|]. intros e He.
      assert (O : exists outs, forall n, leaving s' es n (outs n)).
      { exists (fun n => nodup Nat.eq_dec (flat_map (fun e => flat_map (fun it => match it with IIf i => if String.eqb (loc s' i) n then [i] else [] | ILsp _ => [] end) (entry_path e)) es)).
        intros n. split; [apply NoDup_nodup|]. intros j. rewrite nodup_In, in_flat_map. split.
        - intros (e0 & He0 & J). apply in_flat_map in J as (it & Hit & J). destruct it as [i0|]; [|destruct J]. destruct (String.eqb_spec (loc s' i0) n) as [Ln|]; [|destruct J]. destruct J as [<-|[]]. split; [exact Ln|]. exists e0. split; [exact He0|].
          unfold crosses. apply existsb_exists. exists (IIf i0). split; [exact Hit|]. apply Nat.eqb_refl.
        - intros (Ln & e0 & He0 & C). exists e0. split; [exact He0|]. unfold crosses in C. apply existsb_exists in C as (it & Hit & C). apply in_flat_map. exists it. split; [exact Hit|].
          destruct it as [i0|]; [|discriminate]. apply Nat.eqb_eq in C. subst. rewrite String.eqb_refl. now left. }
      destruct O as (outs & O). destruct (H outs O e He) as (p & _ & _ & ->). now apply divided_nonneg. }
  destruct X as (es & -> & X). unfold carried. apply (sum_nonneg (fun e => inject_Z (Z.of_nat (crossings s' i (entry_path e))) * pi_traffic e)%Q). intros e He.
  apply Qmult_le_0_compat; [|auto]. change 0%Q with (inject_Z 0). rewrite <- Zle_Qle. lia.
Qed.
Hypothesis Pos : forall d, In d (m_dms s) -> (0 <= d_traffic (h_dm s d))%Q.
Lemma pos' d : In d (m_dms s) -> (0 <= d_traffic (h_dm s' d))%Q.
Proof. intros Hd. destruct (fin_dm E Flex s s' Up d) as (_ & _ & ->). now apply Pos. Qed.

Lemma one_out A d : In d (m_dms s) -> ((if goes_out s' A d then routed_traffic s' d else 0) <= sumq (demand_on s' d) (filter (leads_out s' A) (m_ifs s')))%Q.
Proof.
  intros Hd. destruct Se as (_ & _ & M3 & _).
  assert (B := border s' A (demand_on s' d) [d] (routed_traffic s')).
  assert (P := sum_nonneg (demand_on s' d) (filter (leads_out s' (rest A)) (m_ifs s')) (fun i _ => entry_nonneg d i Hd (pos' d Hd))).
  assert (P2 := sum_nonneg (demand_on s' d) (filter (leads_out s' A) (m_ifs s')) (fun i _ => entry_nonneg d i Hd (pos' d Hd))).
  destruct (goes_out s' A d) eqn:G; [|exact P2].
  assert (G2 : goes_out s' (rest A) d = false) by (unfold goes_out, rest in *; destruct (A (dmd_from s' d)), (A (dmd_to s' d)); simpl in *; congruence).
  cbn [filter] in B. rewrite G, G2 in B. rewrite sumq_cons in B. change (sumq (routed_traffic s') []) with 0%Q in B.
  cut (sumq (demand_on s' d) (filter (leads_out s' A) (m_ifs s')) + 0 == sumq (demand_on s' d) (filter (leads_out s' (rest A)) (m_ifs s')) + (routed_traffic s' d + 0))%Q; [lra|].
  apply B.
  - intros x [<-|[]]. rewrite M3. exact Hd.
  - intros n. assert (F := flex_demand E Flex s s' HE WP KU NL Up St LW eq_refl d n Hd (NS d Hd)). unfold leaves_node, enters_node, at_node in F. rewrite !(sumq_cons _ d []).
    change (sumq (fun d0 : nat => if String.eqb (dmd_to s' d0) n then routed_traffic s' d0 else 0%Q) []) with 0%Q. change (sumq (fun d0 : nat => if String.eqb (dmd_from s' d0) n then routed_traffic s' d0 else 0%Q) []) with 0%Q.
    rewrite !Qplus_0_r. exact F.
Qed.
Lemma cut_least A : (wants_out s' A <= out_of s' A)%Q.
Proof.
  destruct Se as (M1 & _ & M3 & _). unfold wants_out, out_of.
  change (sumq (routed_traffic s') (filter (goes_out s' A) (m_dms s')) <= sumq (SpecWhatIf.traffic_of s') (filter (leads_out s' A) (m_ifs s')))%Q.
  rewrite sumq_filter. rewrite (sumq_ext (SpecWhatIf.traffic_of s') (fun i => sumq (fun d => demand_on s' d i) (m_dms s))).
  - rewrite sumq_swap, M3. apply sum_mono. intros d Hd. now apply one_out.
  - intros i Hi. apply filter_In in Hi as [Hi _]. rewrite M1 in Hi. exact (flex_traffic E s s' HE WP KU NL LW Up St NS i Hi).
Qed.
Lemma cut_over A : (room_out s' A < wants_out s' A)%Q ->
  exists i, In i (m_ifs s') /\ leads_out s' A i = true /\ i_failed (h_if s' i) = false /\ (i_cap (h_if s' i) < SpecWhatIf.traffic_of s' i)%Q.
Proof.
  intros H. assert (L := cut_least A). assert (L2 := Qlt_le_trans _ _ _ H L). clear H L. unfold room_out, out_of in L2.
  assert (Z : forall i, In i (m_ifs s') -> i_failed (h_if s' i) = true -> (SpecWhatIf.traffic_of s' i == 0)%Q).
  { intros i Hi F. destruct Se as (M1 & _). rewrite M1 in Hi. assert (X := C06_flex E s s' i HE WP KU NL Up St NS Hi). rewrite F in X. unfold SpecWhatIf.traffic_of. rewrite X. reflexivity. }
  revert Z L2. generalize (m_ifs s') as l. induction l as [|i l IH]; intros Z L2; [discriminate|].
  assert (Z' : forall j, In j l -> i_failed (h_if s' j) = true -> (SpecWhatIf.traffic_of s' j == 0)%Q) by (intros j Hj; apply Z; now right).
  assert (W : (exists j, In j l /\ leads_out s' A j = true /\ i_failed (h_if s' j) = false /\ (i_cap (h_if s' j) < SpecWhatIf.traffic_of s' j)%Q) -> exists j, In j (i :: l) /\ leads_out s' A j = true /\ i_failed (h_if s' j) = false /\ (i_cap (h_if s' j) < SpecWhatIf.traffic_of s' j)%Q)
    by (intros (j & Hj & X); exists j; split; [now right|exact X]).
  cbn [filter] in L2. destruct (leads_out s' A i) eqn:Lo; cbn [andb] in L2; [|auto].
  destruct (i_failed (h_if s' i)) eqn:F; cbn [negb] in L2.
  - apply W, IH; [exact Z'|]. cbn [map Qsum fold_right] in L2. assert (X := Z i (or_introl eq_refl) F). unfold Qsum in *. lra.
  - destruct (Qlt_le_dec (i_cap (h_if s' i)) (SpecWhatIf.traffic_of s' i)) as [C|C]; [exists i; repeat split; auto; now left|].
    apply W, IH; [exact Z'|]. cbn [map Qsum fold_right] in L2. unfold Qsum in *. lra.
Qed.
End Cut.
