(** Balance.v - traffic balance at every node of a model with LSPs (C90). *)
From Verif Require Import Base Graph Objects Sim Api Spec SpecCkt SpecSim SpecMetric SpecFlow SpecOrder SpecShort SpecTotal SpecWhatIf SpecSame SpecBalance SpecHist SpecFail GraphProofs MonadProofs RoundProofs ResProofs ObjProofs CircuitProofs
  ValidateProofs GroupProofs PathProofs QuietProofs RouteProofs LeastProofs OrderProofs DemandProofs MetricProofs IgpProofs Ecmp TrafficProofs ShareProofs FlowProofs UtilProofs WhatIf WhatIfMore OwnProofs OwnApi SpecSig SigProofs SigSeq SigEnd LspTotal SigTotal LspSucceeds LspExact
  PropertiesApi PropertiesRoute PropertiesTraffic PropertiesSignal OrderLsps.
From Coq Require Import Permutation Lqa.

(** ** Amounts on routes *)
Definition load (W : list (list nat * Q)) (i : nat) : Q := sumq (fun e => cr i (fst e) * snd e)%Q W.
Lemma count_at (s : st) (g : nat -> bool) W : NoDup (m_ifs s) -> (forall e i, In e W -> In i (fst e) -> In i (m_ifs s)) ->
  (sumq (fun i => (if g i then 1 else 0) * load W i) (m_ifs s) == sumq (fun e => snd e * sumq (fun i => if g i then 1 else 0) (fst e)) W)%Q.
Proof.
  intros N H. unfold load. rewrite (sumq_ext _ (fun i => sumq (fun e => snd e * ((if g i then 1 else 0) * cr i (fst e))) W)%Q).
  - rewrite sumq_swap. apply sumq_ext. intros e He. rewrite sumq_scale. apply Qmult_comp; [reflexivity|]. apply (occ_sum g (m_ifs s) (fst e) N). intros i Hi. exact (H e i He Hi).
  - intros i _. rewrite <- sumq_scale. apply sumq_ext. intros e _. ring.
Qed.
Lemma routes_balance s ok W u v n : NoDup (m_ifs s) -> (forall e, In e W -> route s ok u (fst e) v) ->
  (leaves_node s (load W) n + at_node v n (sumq snd W) == enters_node s (load W) n + at_node u n (sumq snd W))%Q.
Proof.
  intros N H. assert (I : forall e i, In e W -> In i (fst e) -> In i (m_ifs s)) by (intros e i He Hi; exact (proj1 (PathProofs.route_in _ _ _ _ _ (H e He) i Hi))).
  assert (L : forall g : nat -> bool, (Qsum (map (fun i => if g i then load W i else 0) (m_ifs s)) == sumq (fun e => snd e * sumq (fun i => if g i then 1 else 0) (fst e)) W)%Q).
  { intros g. rewrite <- (count_at s g W N I). apply sumq_ext. intros i _. destruct (g i); ring. }
  unfold leaves_node, enters_node. rewrite (L (fun i => String.eqb (loc s i) n)), (L (fun i => String.eqb (rem s i) n)).
  assert (A : forall m, (at_node m n (sumq snd W) == sumq (fun e => snd e * (if String.eqb m n then 1 else 0)) W)%Q).
  { intros m. unfold at_node. destruct (String.eqb m n); [apply sumq_ext; intros; ring|]. symmetry. apply sumq_zero. intros; ring. }
  rewrite !A, <- !sumq_plus. apply sumq_ext. intros e He. rewrite <- !Qmult_plus_distr_r. apply Qmult_comp; [reflexivity|]. exact (telescope s ok n (fst e) u v (H e He)).
Qed.
Lemma load_ext s f g n : (forall i, In i (m_ifs s) -> (f i == g i)%Q) -> (leaves_node s f n == leaves_node s g n)%Q /\ (enters_node s f n == enters_node s g n)%Q.
Proof.
  intros H. split; apply sumq_ext; intros i Hi; (destruct (String.eqb _ n); [exact (H i Hi)|reflexivity]).
Qed.
Lemma load_none W i : (forall e, In e W -> ~ In i (fst e)) -> (load W i == 0)%Q.
Proof. intros H. apply sumq_zero. intros e He. unfold cr. rewrite (proj1 (count_occ_not_In Nat.eq_dec (fst e) i) (H e He)). simpl. ring. Qed.

Definition path_of (s : st) (l : nat) : list nat := match l_path (h_ls s l) with PRouted p _ _ => p | _ => [] end.
Lemma lsp_cross s i l : crossings s i [ILsp l] = count_occ Nat.eq_dec (path_of s l) i.
Proof. unfold crossings, path_of. simpl. rewrite Nat.add_0_r. destruct (l_path (h_ls s l)); reflexivity. Qed.

Section Run.
Variables (E : env) (k : kind) (s s' : st).
Hypothesis HE : env_ok E.
Hypothesis WP : well_posed s.
Hypothesis KU : if_keys_unique s.
Hypothesis NL : NoDup (m_lsps s).
Hypothesis Up : update_simulation E k s = (s', Ok tt).
Hypothesis St : same_failures s s'.
Hypothesis LW : lsps_whole s'.
Let up (i : nat) : Prop := i_failed (h_if s' i) = false.
Let Se := fin_sets E k s s' Up.
Lemma ifs_nodup : NoDup (m_ifs s'). Proof. destruct Se as (-> & _). apply WP. Qed.
Lemma ride_or d : rides_lsps s' d \/ no_lsp_for s' d.
Proof.
  destruct (Forall_Exists_dec (fun l => ~ (lsp_of s' d l /\ routed_lsp s' l))) with (l := m_lsps s') as [A|A].
  - intros l. assert (X : {routed_lsp s' l} + {~ routed_lsp s' l}).
    { unfold routed_lsp. destruct (l_path (h_ls s' l)) as [| | |p c b]; [right|right|right|left]; [intros (?&?&?&?); discriminate..|]. now exists p, c, b. }
    destruct (in_dec Nat.eq_dec l (m_lsps s')) as [I|I]; [|left; intros [[Y _] _]; contradiction].
    unfold lsp_of. destruct (string_dec (lsp_from s' l) (dmd_from s' d)) as [F|F]; [|left; tauto]. destruct (string_dec (lsp_to s' l) (dmd_to s' d)) as [T|T]; [|left; tauto].
    destruct X as [X|X]; [right|left; tauto]. intros Y. apply Y. auto.
  - right. intros l Hl. rewrite Forall_forall in A. assert (I := proj1 Hl). assert (X := A l I).
    destruct (C10_update_settled E k s s' l HE WP Up) as [[Y _]|(p & c & b & q & Y & _)]; auto. { destruct Se as (_ & _ & _ & <-). exact I. }
    exfalso. apply X. split; auto. now exists p, c, b.
  - left. apply Exists_exists in A as (l & Hl & X). exists l. 
    assert (Y : {routed_lsp s' l} + {~ routed_lsp s' l}).
    { unfold routed_lsp. destruct (l_path (h_ls s' l)) as [| | |p c b]; [right|right|right|left]; [intros (?&?&?&?); discriminate..|]. now exists p, c, b. }
    unfold lsp_of in *. destruct (string_dec (lsp_from s' l) (dmd_from s' d)) as [F|F]; [|exfalso; apply X; tauto]. destruct (string_dec (lsp_to s' l) (dmd_to s' d)) as [T|T]; [|exfalso; apply X; tauto].
    destruct Y as [Y|Y]; [auto|exfalso; apply X; tauto].
Qed.
(** the amounts a riding demand puts on the routes of its LSPs *)
Definition ride_load (d : nat) (ls : list nat) : list (list nat * Q) := map (fun l => (path_of s' l, d_traffic (h_dm s' d) / count ls)%Q) ls.
Lemma ride_routes d ls : (forall l, In l ls -> lsp_of s' d l /\ routed_lsp s' l) -> forall e, In e (ride_load d ls) -> route s' up (dmd_from s' d) (fst e) (dmd_to s' d).
Proof.
  intros H e He. apply in_map_iff in He as (l & <- & Hl). destruct (H l Hl) as [(I & F & T) (p & c & b & P)]. cbn [fst]. unfold path_of. rewrite P, <- F, <- T. exact (LW l p c b I P).
Qed.
Lemma ride_total d ls : ls <> [] -> (sumq snd (ride_load d ls) == d_traffic (h_dm s' d))%Q.
Proof.
  intros Ne. unfold ride_load. rewrite sumq_map. cbn [snd]. rewrite sumq_const. unfold count. field. change 0%Q with (inject_Z 0). intros X. apply (proj1 (inject_Z_injective _ _)) in X. destruct ls; [contradiction|]. simpl in X. lia.
Qed.

Section Flex.
Hypothesis Hk : k = Flex.
Lemma flex_spread d : In d (m_dms s) -> no_shortcuts_for k s' d ->
  exists W, (forall e, In e W -> route s' up (dmd_from s' d) (fst e) (dmd_to s' d)) /\ (sumq snd W == routed_traffic s' d)%Q /\ forall i, (demand_on s' d i == load W i)%Q.
Proof.
  intros Hd NS. unfold routed_traffic, demand_on. destruct (ride_or d) as [R|N].
  - destruct (C07_ride E k s s' d HE WP NL Up St Hd R) as (ls & es & Ne & ND & I & -> & -> & Pe & Te & _). rewrite Hk in Te. exists (ride_load d ls).
    split; [apply ride_routes; intros l Hl; apply I in Hl as (A & B & _); auto|]. split; [now apply ride_total|]. intros i. unfold load, ride_load. rewrite sumq_map.
    rewrite (carried_ridden s' d i ls es Pe Te). unfold ridden. apply sumq_ext. intros l _. cbn [fst snd]. rewrite lsp_cross. unfold cr. ring.
  - assert (A := C01_igp_paths E k s s' d HE WP Up St Hd N NS). destruct (d_path (h_dm s' d)) as [|ps] eqn:P.
    + exists []. split; [intros e []|]. split; reflexivity.
    + destruct (C04_total E k s s' d ps HE WP KU Up St Hd N NS P) as (es & -> & Pe & Te). rewrite Hk in Te. destruct A as (L & -> & _ & _ & I).
      exists (combine L (map pi_traffic es)). assert (Le : List.length L = List.length es) by (rewrite <- (map_length if_path L), <- Pe, map_length; reflexivity).
      split; [|split].
      * intros e He. destruct e as [p x]. apply in_combine_l in He. apply I in He as [R _]. cbn [fst]. eapply route_weaken; [|exact R]. intros i _ [X _]. exact X.
      * rewrite <- Te. unfold total. clear -Le. revert es Le. induction L as [|p L IH]; intros [|e es] Le; try discriminate; [reflexivity|]. simpl in Le. injection Le as Le. simpl. rewrite sumq_cons. cbn [snd]. rewrite (IH es Le). reflexivity.
      * intros i. unfold carried, load. clear -Pe Le. revert es Pe Le. induction L as [|p L IH]; intros [|e es] Pe Le; try discriminate; [reflexivity|]. simpl in Le, Pe. injection Le as Le. injection Pe as P1 Pe. cbn [map combine Qsum fold_right]. change (fold_right Qplus 0%Q) with Qsum.
        rewrite sumq_cons, (IH es Pe Le), P1, crossings_occ. cbn [fst snd]. unfold cr. reflexivity.
Qed.
Lemma flex_demand d n : In d (m_dms s) -> no_shortcuts_for k s' d ->
  (leaves_node s' (demand_on s' d) n + at_node (dmd_to s' d) n (routed_traffic s' d) == enters_node s' (demand_on s' d) n + at_node (dmd_from s' d) n (routed_traffic s' d))%Q.
Proof.
  intros Hd NS. destruct (flex_spread d Hd NS) as (W & R & T & L). destruct (load_ext s' (demand_on s' d) (load W) n (fun i _ => L i)) as [-> ->].
  assert (X := routes_balance s' up W (dmd_from s' d) (dmd_to s' d) n ifs_nodup R). unfold at_node in *. destruct (String.eqb (dmd_to s' d) n), (String.eqb (dmd_from s' d) n); rewrite ?T in X; exact X.
Qed.
End Flex.

(** ** All demands together *)
Section Sum.
Variable f : nat -> nat -> Q.
Hypothesis Tr : forall i, In i (m_ifs s) -> (SpecWhatIf.traffic_of s' i == sumq (fun d => f d i) (m_dms s))%Q.
Hypothesis Ea : forall d n, In d (m_dms s) ->
  (leaves_node s' (f d) n + at_node (dmd_to s' d) n (routed_traffic s' d) == enters_node s' (f d) n + at_node (dmd_from s' d) n (routed_traffic s' d))%Q.
Lemma sum_balance n : (outgoing s' n + sunk s' n == incoming s' n + sourced s' n)%Q.
Proof.
  destruct Se as (M1 & _ & M3 & _).
  assert (X : forall g : nat -> bool, (Qsum (map (fun i => if g i then SpecWhatIf.traffic_of s' i else 0) (m_ifs s')) == sumq (fun d => Qsum (map (fun i => if g i then f d i else 0) (m_ifs s'))) (m_dms s))%Q).
  { intros g. change (sumq (fun i => if g i then SpecWhatIf.traffic_of s' i else 0) (m_ifs s') == sumq (fun d => sumq (fun i => if g i then f d i else 0) (m_ifs s')) (m_dms s))%Q.
    rewrite sumq_swap. apply sumq_ext. intros i Hi. rewrite M1 in Hi. destruct (g i); [now apply Tr|]. symmetry. apply sumq_zero. reflexivity. }
  unfold outgoing, incoming, sunk, sourced. rewrite (X (fun i => String.eqb (loc s' i) n)), (X (fun i => String.eqb (rem s' i) n)). rewrite M3.
  change (sumq (fun d => leaves_node s' (f d) n) (m_dms s) + sumq (fun d => at_node (dmd_to s' d) n (routed_traffic s' d)) (m_dms s) ==
          sumq (fun d => enters_node s' (f d) n) (m_dms s) + sumq (fun d => at_node (dmd_from s' d) n (routed_traffic s' d)) (m_dms s))%Q.
  rewrite <- !sumq_plus. apply sumq_ext. intros d Hd. now apply Ea.
Qed.
End Sum.
End Run.

Section Total.
Variables (E : env) (s s' : st).
Hypothesis HE : env_ok E.
Hypothesis WP : well_posed s.
Hypothesis KU : if_keys_unique s.
Hypothesis NL : NoDup (m_lsps s).
Hypothesis LW : lsps_whole s'.
Lemma flex_traffic : update_simulation E Flex s = (s', Ok tt) -> same_failures s s' -> (forall d, In d (m_dms s) -> no_shortcuts_for Flex s' d) ->
  forall i, In i (m_ifs s) -> (SpecWhatIf.traffic_of s' i == sumq (fun d => demand_on s' d i) (m_dms s))%Q.
Proof.
  intros Up St NS i Hi. destruct (fin_sets E Flex s s' Up) as (M1 & _ & M3 & _). assert (A := C06_flex E s s' i HE WP KU NL Up St NS Hi). unfold SpecWhatIf.traffic_of. destruct (i_failed (h_if s' i)) eqn:F.
  - rewrite A. symmetry. apply sumq_zero. intros d Hd. destruct (flex_spread E Flex s s' HE WP KU NL Up St LW eq_refl d Hd (NS d Hd)) as (W & R & _ & L). rewrite L. apply load_none.
    intros e He Hin. destruct (PathProofs.route_in _ _ _ _ _ (R e He) i Hin) as [_ X]. congruence.
  - destruct A as (q & -> & A). rewrite A, M3. reflexivity.
Qed.
Lemma flex_balance n : update_simulation E Flex s = (s', Ok tt) -> same_failures s s' -> (forall d, In d (m_dms s) -> no_shortcuts_for Flex s' d) ->
  (outgoing s' n + sunk s' n == incoming s' n + sourced s' n)%Q.
Proof.
  intros Up St NS. apply (sum_balance E Flex s s' Up (demand_on s')); [now apply flex_traffic|]. intros d m Hd. exact (flex_demand E Flex s s' HE WP KU NL Up St LW eq_refl d m Hd (NS d Hd)).
Qed.
(** A PerformanceModel whose routed demands all ride LSPs *)
Definition perf_load (d i : nat) : Q :=
  match d_path (h_dm s' d) with
  | DPaths ps => sumq (fun x => match x with [ILsp l] => d_traffic (h_dm s' d) / inject_Z (Z.of_nat (List.length ps)) * inject_Z (Z.of_nat (crossings s' i [ILsp l])) | _ => 0 end)%Q ps
  | DUnrouted => 0%Q
  end.
Lemma perf_balance n : update_simulation E Perf s = (s', Ok tt) -> same_failures s s' ->
  (forall d, In d (m_dms s) -> d_path (h_dm s' d) <> DUnrouted -> rides_lsps s' d) ->
  (outgoing s' n + sunk s' n == incoming s' n + sourced s' n)%Q.
Proof.
  intros Up St Ri. destruct (fin_sets E Perf s s' Up) as (M1 & _ & M3 & _).
  assert (PL : forall d ls i, d_path (h_dm s' d) = DPaths (map (fun l => [ILsp l]) ls) -> (perf_load d i == sumq (fun l => d_traffic (h_dm s' d) / count ls * inject_Z (Z.of_nat (crossings s' i [ILsp l]))) ls)%Q).
  { intros d ls i P. unfold perf_load. rewrite P, map_length, sumq_map. reflexivity. }
  assert (Sp : forall d, In d (m_dms s) -> exists W, (forall e, In e W -> route s' (fun i => i_failed (h_if s' i) = false) (dmd_from s' d) (fst e) (dmd_to s' d)) /\ (sumq snd W == routed_traffic s' d)%Q /\ forall i, (perf_load d i == load W i)%Q).
  { intros d Hd. unfold routed_traffic. destruct (d_path (h_dm s' d)) as [|ps] eqn:P.
    - exists []. split; [intros e []|]. split; [reflexivity|]. intros i. unfold perf_load. rewrite P. reflexivity.
    - assert (R : rides_lsps s' d) by (apply Ri; [exact Hd|congruence]).
      destruct (C07_ride E Perf s s' d HE WP NL Up St Hd R) as (ls & es & Ne & ND & I & P' & _). exists (ride_load s' d ls).
      split; [apply (ride_routes s' LW); intros l Hl; apply I in Hl as (A & B & _); auto|]. split; [now apply ride_total|].
      intros i. rewrite (PL d ls i P'). unfold load, ride_load. rewrite sumq_map. apply sumq_ext. intros l _. cbn [fst snd]. rewrite lsp_cross. unfold cr. ring. }
  apply (sum_balance E Perf s s' Up perf_load).
  - intros i Hi. assert (A := C06_perf E s s' i HE WP KU NL Up St Hi). unfold SpecWhatIf.traffic_of. destruct (i_failed (h_if s' i)) eqn:F.
    + rewrite A. symmetry. apply sumq_zero. intros d Hd. destruct (Sp d Hd) as (W & R & _ & L). rewrite L. apply load_none.
      intros e He Hin. destruct (PathProofs.route_in _ _ _ _ _ (R e He) i Hin) as [_ X]. congruence.
    + destruct A as (q & f & -> & B & A). rewrite A, M3. apply sumq_ext. intros d Hd. rewrite M3 in B. specialize (B d Hd). unfold demand_puts in B.
      destruct (d_path (h_dm s' d)) as [|ps] eqn:P; [rewrite B; unfold perf_load; now rewrite P|]. destruct B as [(N & _)|(ls & _ & -> & B)].
      * destruct (Ri d Hd) as (l & X & (p & c & b & Y)); [congruence|]. rewrite (N l X) in Y. discriminate.
      * rewrite B. symmetry. exact (PL d ls i P).
  - intros d m Hd. destruct (Sp d Hd) as (W & R & T & L). destruct (load_ext s' (perf_load d) (load W) m (fun i _ => L i)) as [-> ->].
    assert (ND : NoDup (m_ifs s')) by (rewrite M1; apply WP).
    assert (X := routes_balance s' _ W (dmd_from s' d) (dmd_to s' d) m ND R). unfold at_node in *. destruct (String.eqb (dmd_to s' d) m), (String.eqb (dmd_from s' d) m); rewrite ?T in X; exact X.
Qed.
End Total.

(** ** When LSP paths are whole *)
Lemma signalling_up s order s' : signalling s order s' -> NoDup (map fst order) -> forall l p c b, In l (map fst order) -> l_path (h_ls s' l) = PRouted p c b -> road s l p.
Proof.
  induction 1 as [s|s m bw tl s1 s' S Q IH]; intros N l p c b Hl P; [destruct Hl|]. simpl in N. inversion N as [|? ? N1 Nt]; subst.
  assert (F := only_seq _ _ _ (signalled_only _ _ _ _ S)). destruct (in_dec Nat.eq_dec l (map fst tl)) as [I|I].
  - eapply seq_sym_road; [exact F|]. eapply IH; eauto.
  - destruct Hl as [<-|Hl]; [|contradiction]. cbn [fst] in *. rewrite (signalling_other _ _ _ _ Q N1) in P. destruct S as [(p' & S)|S].
    + destruct (so_path _ _ _ _ _ S) as (b' & P' & _). rewrite P' in P. injection P as -> _ _. destruct (so_best _ _ _ _ _ S) as [L _]. eapply route_weaken; [|apply L]. intros i _ (A & B & _). split; auto.
    + rewrite (sx_path _ _ _ _ S) in P. discriminate.
Qed.
Lemma whole_all E k s s' : env_ok E -> well_posed s -> NoDup (m_lsps s) -> (forall d, In d (m_dms s) -> (0 <= d_traffic (h_dm s d))%Q) ->
  update_simulation E k s = (s', Ok tt) -> all_or_none s' -> same_failures s s' -> lsps_whole s'.
Proof.
  intros HE WP NL Tr Up AN St l p c b Hl P. destruct (fin_sets E k s s' Up) as (M1 & _ & _ & M4). rewrite M4 in Hl.
  destruct (C09_update E k s s' HE WP NL Tr Up AN) as (s0 & order & s2 & Cl & Q & PM & _ & X & _). destruct (X l) as (X1 & _). rewrite X1 in P.
  assert (ND : NoDup (map fst order)) by (eapply Permutation_NoDup; [apply Permutation_sym; exact PM|exact NL]).
  assert (Ro : road s l p). { apply (cl_road s s0 Cl l p Hl). eapply signalling_up; eauto. eapply Permutation_in; [apply Permutation_sym; exact PM|exact Hl]. }
  destruct (fin_ls E k s s' Up l) as [-> ->]. unfold road in Ro. clear P. revert Ro. generalize (lsp_from s l) (lsp_to s l). intros u v. induction 1 as [n|i q v' Hi [A B] R IH]; [constructor|].
  destruct (fin_loc E k s s' Up i) as [L1 L2]. rewrite <- L1. constructor; [now rewrite M1|now rewrite (St i Hi)|]. rewrite L2. apply IH.
Qed.
