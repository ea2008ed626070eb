(** OrderProofs.v - update_simulation on models without LSPs: when it succeeds,
    and that the order of the objects does not matter. *)
From Verif Require Import Base Graph Objects Sim Spec SpecCkt SpecSim SpecMetric SpecOrder GraphProofs MonadProofs RoundProofs ResProofs ObjProofs CircuitProofs
  ValidateProofs GroupProofs PathProofs QuietProofs RouteProofs LeastProofs IgpProofs Ecmp TrafficProofs ShareProofs SpecSig SigUpdate MetricProofs SpecFlow FlowProofs UtilProofs DemandProofs.
From Coq Require Import Permutation Lqa.

Lemma no_groups E src dst : env_ok E -> build_groups E src dst [] = [].
Proof.
  intros HE. unfold build_groups. destruct (set_iter E (map src [])) as [|x l] eqn:S; [reflexivity|].
  exfalso. assert (I : In x (set_iter E (map src []))) by (rewrite S; left; auto). exact (proj1 (proj2 (ok_iter _ HE (map src [])) x) I).
Qed.

Lemma G_edge_any k s f b r e : In e (g_edges (make_graph k s f b r)) -> exists i, e = edge_of s i /\ In i (m_ifs s).
Proof.
  assert (X : In e (map (edge_of s) (filter (considered s f b r) (m_ifs s))) -> exists i, e = edge_of s i /\ In i (m_ifs s)).
  { intros H. apply in_map_iff in H as (i & <- & Hi). apply filter_In in Hi as [Hi _]. eauto. }
  simpl. destruct k; simpl; auto. intros H. apply di_fold_in in H as [H|[]]. auto.
Qed.

Section NoLsp.
Variable E : env.
Variable k : kind.
Hypothesis HE : env_ok E.
Variable s : st.
Hypothesis NL : m_lsps s = [].
Hypothesis N : NoDup (m_ifs s).
Hypothesis Cost : forall i, In i (m_ifs s) -> 1 <= i_cost (h_if s i).

(** the state in which demands are routed *)
Record start (t : st) : Prop := {
  so_nd : h_nd t = h_nd s; so_ifs : m_ifs t = m_ifs s; so_nds : m_nds t = m_nds s; so_dms : m_dms t = m_dms s; so_lsps : m_lsps t = [];
  so_gr : egroups E t = [];
  so_if : forall i, In i (m_ifs s) -> h_if t i = if_traffic (TNum 0) (if_res 0%Q (h_if s i));
  so_if' : forall i, exists x q, h_if t i = if_traffic x (if_res q (h_if s i));
  so_dm : forall d, exists p, h_dm t d = dm_path p (h_dm s d) }.

Lemma start_of s1 s2 r : prepared s s1 -> route_lsps E k s1 = (s2, r) -> start s2 /\ r = Ok tt.
Proof.
  intros P H. destruct (route_lsps_start E k s1) as (s3 & R & X & A1 & A2 & A3 & A4 & A5 & A6 & A7 & A8 & A9 & A10 & A11 & _ & A12 & A13).
  assert (G : egroups E s1 = []).
  { unfold egroups. rewrite (pr_groups _ _ P), (pr_lsps _ _ P), NL. now apply no_groups. }
  rewrite G in R. rewrite R in H. injection H as <- <-. split; [|reflexivity].
  destruct P. constructor; try congruence.
  - intros i Hi. specialize (A12 i). red in A12. rewrite X in A12. rewrite pr_ifs in A12. rewrite pr_if in A12.
    assert (M : mem_nat i (m_ifs s) = true) by now apply mem_nat_In. rewrite M in A12. rewrite A12. reflexivity.
  - intros i. specialize (A12 i). red in A12. rewrite pr_if in A12. destruct (mem_nat i (m_ifs s)).
    + exists (TNum 0), (i_res (h_if s3 i)). rewrite A12. reflexivity.
    + exists (i_traffic (h_if s i)), (i_res (h_if s3 i)). rewrite A12. destruct (h_if s i); reflexivity.
  - intros d. rewrite A3, pr_dm. destruct (mem_nat d (m_dms s)); [eauto|]. exists (d_path (h_dm s d)). destruct (h_dm s d); reflexivity.
Qed.
Lemma started : exists s1 s2, prepared s s1 /\ route_lsps E k s1 = (s2, Ok tt) /\ start s2 /\
  update_simulation E k s = bind (route_demands E k) (fun _ => validate_model E k) s2.
Proof.
  destruct (update_start E k s) as (s1 & P & U). destruct (route_lsps E k s1) as [s2 r] eqn:R. destruct (start_of s1 s2 r P R) as [S2 ->].
  exists s1, s2. split; [exact P|]. split; [exact R|]. split; [exact S2|]. now rewrite U, (bind_run _ _ _ _ _ R).
Qed.

Section Go.
Variable s2 : st.
Hypothesis S2 : start s2.
Hypothesis NoPar : k = Perf -> forall i j, In i (m_ifs s) -> In j (m_ifs s) -> loc s i = loc s j -> rem s i = rem s j -> i = j.
Hypothesis EK : ends_known s.
Let G := make_graph k s2 false 0 false.

Lemma so_data i : i_name (h_if s2 i) = i_name (h_if s i) /\ i_cost (h_if s2 i) = i_cost (h_if s i) /\ i_failed (h_if s2 i) = i_failed (h_if s i) /\
  loc s2 i = loc s i /\ rem s2 i = rem s i.
Proof.
  unfold loc, rem. rewrite (so_nd _ S2). destruct (so_if' _ S2 i) as (x & q & ->). simpl. auto.
Qed.
Lemma so_from d : dsrc s2 d = dmd_from s d /\ ddst s2 d = dmd_to s d.
Proof. unfold dsrc, ddst, dmd_from, dmd_to. rewrite (so_nd _ S2). destruct (so_dm _ S2 d) as (p & ->). auto. Qed.
Lemma e2e_nil d : snd (e2e_lsps E k d s2) = Ok [].
Proof. rewrite e2e_none. rewrite (so_gr _ S2). reflexivity. Qed.
Lemma own_nil d : own_lsps E k s2 d = Ok [].
Proof. unfold own_lsps. rewrite min_value, (so_gr _ S2). reflexivity. Qed.

Lemma nd2 : NoDup (m_ifs s2). Proof. rewrite (so_ifs _ S2). exact N. Qed.
Lemma cost2 i : In i (m_ifs s2) -> 1 <= i_cost (h_if s2 i).
Proof. rewrite (so_ifs _ S2). destruct (so_data i) as (_ & -> & _). apply Cost. Qed.
Lemma nopar2 : k = Perf -> forall i j, In i (m_ifs s2) -> In j (m_ifs s2) -> loc s2 i = loc s2 j -> rem s2 i = rem s2 j -> i = j.
Proof.
  intros Hk i j. rewrite (so_ifs _ S2). destruct (so_data i) as (_ & _ & _ & -> & ->). destruct (so_data j) as (_ & _ & _ & -> & ->). now apply NoPar.
Qed.
Definition asp2 u v := asp_paths E k s2 (considered s2 false 0 false) (node_names s2) HE nd2 cost2 nopar2 u v.

Lemma known2 u n : In u (map (nd_name s) (m_nds s)) -> forall ok v p, route s2 ok u p v -> In n (route_nodes s2 u p) -> exists m, In m (m_nds s2) /\ nd_name s2 m = n.
Proof.
  intros Hu ok v p R Hn. rewrite (so_nds _ S2). unfold nd_name. rewrite (so_nd _ S2). fold (nd_name s).
  assert (X : In n (map (nd_name s) (m_nds s))).
  { unfold route_nodes in Hn. destruct Hn as [<-|Hn]; auto. apply in_map_iff in Hn as (i & <- & Hi). destruct (route_in _ _ _ _ _ R i Hi) as [I _].
    destruct (so_data i) as (_ & _ & _ & _ & ->). rewrite (so_ifs _ S2) in I. apply (EK i I). }
  apply in_map_iff in X as (m & A & B). exists m. auto.
Qed.

(** interface paths that carry traffic *)
Definition carries (L : list (list nat)) : Prop :=
  forall p, In p L -> p <> [] /\ forall i, In i p -> In i (m_ifs s) /\ i_failed (h_if s i) = false.

Let okp := fun i => considered s2 false 0 false i = true.
Lemma rpath_fine d : In (dmd_from s d) (map (nd_name s) (m_nds s)) -> dmd_from s d <> dmd_to s d ->
  (rpath E k G d s2 = Ok DUnrouted /\ forall p, ~ route s2 okp (dmd_from s d) p (dmd_to s d)) \/
  exists L, rpath E k G d s2 = Ok (DPaths (map if_path L)) /\ carries L /\ L <> [] /\ forall p, In p L <-> least_cost s2 okp (dmd_from s d) p (dmd_to s d).
Proof.
  intros Hu Ne. unfold rpath. rewrite e2e_nil. cbn [rbind]. destruct (so_from d) as [-> ->]. assert (A := asp2 (dmd_from s d) (dmd_to s d)).
  change (mkG _ _) with G in A. destruct (nx_asp E G (dmd_from s d) (dmd_to s d)) as [nps| |]; [right|left; split; [reflexivity|apply A]|].
  2:{ exfalso. apply A. unfold node_names. rewrite (so_nd _ S2), (so_nds _ S2). exact Hu. }
  destruct A as (_ & A0 & A1 & A2). exists (iface_paths k s2 G nps). split.
  - assert (X : snd (find_igp_shortcuts E k (map (map IIf) (iface_paths k s2 G nps)) nps s2) = Ok (map (map IIf) (iface_paths k s2 G nps))).
    { destruct (iface_paths k s2 G nps) as [|q0 L0] eqn:IL; [congruence|]. rewrite <- IL in *.
      apply (shortcuts_none E k s2 (iface_paths k s2 G nps) (route_cost s2 q0)).
      - rewrite (so_gr _ S2), (so_lsps _ S2). symmetry. now apply no_groups.
      - intros np Hnp. destruct (A2 np Hnp) as (p & [R _] & ->). split.
        + intros a nd b m _ _ _ _ l Hl. rewrite (so_lsps _ S2) in Hl. destruct Hl.
        + intros n Hn. eapply known2; eauto.
      - intros p Hp. apply A1 in Hp as [P1 P2]. assert (Hq : In q0 (iface_paths k s2 G nps)) by (rewrite IL; left; auto).
        apply A1 in Hq as [Q1 Q2]. specialize (P2 _ Q1). specialize (Q2 _ P1). lia. }
    revert X. generalize (find_igp_shortcuts E k). destruct k; [|reflexivity]. intros f X. rewrite X. reflexivity.
  - split; [|split; [exact A0|exact A1]]. intros p Hp. apply A1 in Hp as [R _]. split; [eapply least_nonempty; eauto|]. intros i Hi. destruct (route_in _ _ _ _ _ R i Hi) as [I C].
    rewrite (so_ifs _ S2) in I. split; auto. apply considered_usable in C as [C _]. destruct (so_data i) as (_ & _ & F & _). now rewrite <- F.
Qed.

Lemma loop_fine ds : (forall d, In d ds -> In (dmd_from s d) (map (nd_name s) (m_nds s)) /\ dmd_from s d <> dmd_to s d) ->
  forall t, rsame E s2 t -> exists t', mfor ds (route_demand E k G) t = (t', Ok tt).
Proof.
  induction ds as [|d ds IH]; intros H t R; [eexists; reflexivity|]. cbn [mfor].
  destruct (route_demand_run E k G d t) as (t1 & R1 & F & _). rewrite (rpath_rsame E k G d s2 t R) in R1.
  destruct (H d (or_introl eq_refl)) as [H1 H2].
  assert (O : route_demand E k G d t = (t1, Ok tt)) by (destruct (rpath_fine d H1 H2) as [[X _]|(L & X & _)]; rewrite X in R1; exact R1).
  destruct (IH (fun x Hx => H x (or_intror Hx)) t1) as (t2 & T2); [eapply rsame_trans; [exact R|apply F]|].
  exists t2. rewrite (bind_run _ _ _ _ _ O). exact T2.
Qed.

(** ** The additions *)
Section Util.
Variable s3 : st.
Hypothesis R23 : rsame E s2 s3.
Definition good (t : st) : Prop :=
  tframe E s3 t /\ forall i, In i (m_ifs s) -> i_failed (h_if s i) = false -> i_traffic (h_if t i) <> TDown.
Definition goes (m : M unit) : Prop := forall t, good t -> exists t', m t = (t', Ok tt) /\ good t'.

Lemma goes_mfor {X} (b : X -> M unit) l : (forall x, In x l -> goes (b x)) -> goes (mfor l b).
Proof.
  induction l as [|x l IH]; intros H t Gt; [exists t; split; [reflexivity|exact Gt]|]. cbn [mfor].
  destruct (H x (or_introl eq_refl) t Gt) as (t1 & R1 & G1). destruct (IH (fun y Hy => H y (or_intror Hy)) t1 G1) as (t2 & R2 & G2).
  exists t2. rewrite (bind_run _ _ _ _ _ R1). auto.
Qed.
Lemma goes_add i x : In i (m_ifs s) -> i_failed (h_if s i) = false -> goes (add_traffic i x).
Proof.
  intros Hi Fi t [Ft Gt]. unfold add_traffic. rewrite bind_gets. assert (Ti := Gt i Hi Fi). destruct (i_traffic (h_if t i)) as [|q] eqn:T; [congruence|].
  eexists. split; [reflexivity|]. split.
  - eapply (po_trans _ (tframe_preorder E)); [exact Ft|]. apply tframe_traffic. eauto.
  - intros j Hj Fj. simpl. apply (fupd_cases _ _ _ _ (fun r => i_traffic r <> TDown)); [intros ->; simpl; discriminate|auto].
Qed.
Lemma goes_item infos i : In i (m_ifs s) -> i_failed (h_if s i) = false -> goes (add_item_traffic k infos (IIf i)).
Proof.
  intros Hi Fi. unfold add_item_traffic. destruct k.
  - apply goes_mfor. intros inf _ t Gt. rewrite bind_gets. destruct (mem_item _ _ _); [now apply goes_add|]. exists t. split; [reflexivity|auto].
  - intros t Gt. rewrite bind_gets. now apply goes_add.
Qed.
Lemma goes_demand d : (forall t, good t -> d_path (h_dm t d) = DUnrouted \/ exists L, d_path (h_dm t d) = DPaths (map if_path L) /\ carries L) ->
  goes (demand_traffic E k d).
Proof.
  intros P t Gt. unfold demand_traffic. rewrite bind_gets. destruct (P t Gt) as [-> |(L & -> & C)]; [exists t; split; [reflexivity|auto]|].
  rewrite bind_gets. assert (R := rsame_trans _ _ _ _ R23 (tf_same _ _ _ (proj1 Gt))).
  assert (O : snd (min_metric_lsps E k (pair_key (dsrc t d) (ddst t d)) t) = Ok []) by (rewrite <- (own_nil d); apply (rs_own_lsps E k s2 t d R)).
  assert (Q := proj1 (Qm_min_metric E k (pair_key (dsrc t d) (ddst t d))) t).
  destruct (min_metric_lsps E k (pair_key (dsrc t d) (ddst t d)) t) as [t1 r1] eqn:M. cbn [fst snd] in Q, O. subst r1. rewrite (bind_run _ _ _ _ _ M). cbv iota.
  assert (G1 : good t1).
  { destruct Gt as [Ft Gt]. split; [eapply (po_trans _ (tframe_preorder E)); [exact Ft|apply quiet_tframe; exact Q]|].
    intros i Hi Fi. destruct Q as (_ & Q1 & _). rewrite Q1. auto. }
  clear M Q R Gt. unfold igp_demand_traffic. rewrite !bind_gets.
  assert (X : exists infos, rmap (path_entry k t1 (item_set t1 (map if_path L)) (d_traffic (h_dm t1 d))) (map if_path L) = Ok infos).
  { revert C. generalize (item_set t1 (map if_path L)). intros its C. clear P. induction L as [|p L IH]; [exists []; reflexivity|]. cbn [map rmap].
    destruct IH as (is & IH); [intros q Hq; apply C; right; auto|]. rewrite IH. destruct (C p (or_introl eq_refl)) as [Np _].
    unfold path_entry at 1. destruct p as [|i p]; [congruence|]. cbn [if_path map splits_along snd Zmax_list]. cbn [rbind]. eauto. }
  destruct X as (infos & X). unfold reads at 1. unfold bind at 1. rewrite X. rewrite bind_modify. apply goes_mfor.
  - intros it Hit. apply dedup_In in Hit. apply in_concat in Hit as (x & Hx & Hit). apply in_map_iff in Hx as (p & <- & Hp).
    apply in_map_iff in Hit as (i & <- & Hi). destruct (C p Hp) as [_ Cp]. destruct (Cp i Hi). now apply goes_item.
  - destruct G1 as [F1 G1]. split; [eapply (po_trans _ (tframe_preorder E)); [exact F1|apply tframe_detail]|exact G1].
Qed.
End Util.

Lemma util_fine s3 : rsame E s2 s3 ->
  (forall d, In d (m_dms s) -> d_path (h_dm s3 d) = DUnrouted \/ exists L, d_path (h_dm s3 d) = DPaths (map if_path L) /\ carries L) ->
  exists s4, update_interface_utilization E k s3 = (s4, Ok tt).
Proof.
  intros R P. unfold update_interface_utilization. rewrite bind_gets.
  destruct (mfor_upd_if (fun r => if_traffic (if i_failed r then TDown else TNum 0) r) (m_ifs s3) (fun r => eq_refl) s3) as (h & R1 & X1).
  rewrite (bind_run _ _ _ _ _ R1). rewrite bind_gets. 
  assert (F : tframe E s3 (with_if s3 h)).
  { refine (pres_run _ _ _ _ _ _ R1). apply (pres_mfor _ (tframe_preorder E)). intros i _. apply pres_modify. intros x. apply tframe_traffic. eauto. }
  destruct (goes_mfor s3 (demand_traffic E k) (m_dms s)) with (t := with_if s3 h) as (s4 & G4 & _).
  - intros d Hd. apply (goes_demand s3 R). intros t [Ft _]. rewrite (tf_path _ _ _ Ft). now apply P.
  - split; [exact F|]. intros i Hi Fi. simpl. rewrite X1. rewrite (rs_ifs _ _ _ R), (so_ifs _ S2).
    assert (M : mem_nat i (m_ifs s) = true) by now apply mem_nat_In. rewrite M. simpl.
    destruct (rs_idata _ _ _ R i) as (_ & _ & _ & _ & _ & _ & -> & _). destruct (so_data i) as (_ & _ & -> & _). rewrite Fi. discriminate.
  - exists s4. rewrite <- G4. simpl. rewrite (rs_dms _ _ _ R), (so_dms _ S2). reflexivity.
Qed.

Lemma demands_fine_run : demands_fine s -> exists s4, route_demands E k s2 = (s4, Ok tt) /\ rsame E s2 s4.
Proof.
  intros D. unfold route_demands. rewrite !bind_gets. fold G. 
  destruct (loop_fine (m_dms s2)) with (t := s2) as (s3 & R3); [rewrite (so_dms _ S2); exact D|apply rsame_refl|].
  destruct (route_demand_loop E k G _ _ _ R3) as (F & P & _). rewrite (so_dms _ S2) in P.
  destruct (util_fine s3 (df_same _ _ _ F)) as (s4 & R4).
  { intros d Hd. specialize (P d Hd). destruct (D d Hd) as [D1 D2]. destruct (rpath_fine d D1 D2) as [[X _]|(L & X & C & _)]; rewrite X in P; injection P as P; eauto. }
  exists s4. split; [now rewrite (bind_run _ _ _ _ _ R3)|]. eapply rsame_trans; [apply F|]. apply (pres_run _ _ _ _ _ (tframe_util E k) R4).
Qed.
End Go.
End NoLsp.

(** ** Being fit *)
Definition same_fields (r r' : iface) : Prop :=
  i_cap r' = i_cap r /\ i_cid r' = i_cid r /\ i_res r' = i_res r /\ i_rsvp r' = i_rsvp r /\ i_pct r' = i_pct r /\ i_node r' = i_node r /\ i_rem r' = i_rem r.
Lemma fit_perm k a b : Permutation (m_ifs a) (m_ifs b) -> Permutation (m_nds a) (m_nds b) -> (forall n, h_nd b n = h_nd a n) ->
  (forall i, In i (m_ifs a) -> same_fields (h_if a i) (h_if b i)) -> fit k a -> fit k b.
Proof.
  intros P1 P2 Hn Hf (F1 & F2 & F3 & F4 & F5).
  assert (I1 : forall i, In i (m_ifs b) <-> In i (m_ifs a)) by (intros i; split; apply Permutation_in; [apply Permutation_sym|]; exact P1).
  assert (I2 : forall i, In i (m_nds b) <-> In i (m_nds a)) by (intros i; split; apply Permutation_in; [apply Permutation_sym|]; exact P2).
  assert (L : forall i, In i (m_ifs a) -> loc b i = loc a i /\ rem b i = rem a i /\ i_cid (h_if b i) = i_cid (h_if a i) /\ i_cap (h_if b i) = i_cap (h_if a i) /\ (available b i <-> available a i)).
  { intros i Hi. destruct (Hf i Hi) as (A1 & A2 & A3 & A4 & A5 & A6 & A7). unfold loc, rem. rewrite !Hn, A6, A7, A2, A1. do 4 (split; [reflexivity|]).
    unfold available, reservable, reserved. rewrite A3, A4, A5, A1. reflexivity. }
  assert (O : forall (P Q : nat -> Prop), (forall x, In x (m_ifs a) -> (P x <-> Q x)) -> one_in (m_ifs a) P -> one_in (m_ifs b) Q).
  { intros P Q H (x & Hx & Px & U). exists x. split; [now apply I1|]. split; [now apply H|]. intros y Hy Qy. apply I1 in Hy. apply U; auto. now apply H. }
  split; [|split; [|split; [|split]]].
  - intros i Hi Av. apply I1 in Hi. destruct (L i Hi) as (L1 & L2 & L3 & _ & L4). apply L4 in Av. destruct (F1 i Hi Av) as [(j & J1 & J2 & J3 & J4) X]. split.
    + exists j. destruct (L j J1) as (M1 & M2 & M3 & _ & M4). rewrite M1, M2, L1, L2. split; [now apply I1|]. split; [now apply M4|auto].
    + rewrite L3. intros Hk Nc. destruct (X Hk Nc) as [X1 X2]. rewrite L1, L2. split; [revert X1|revert X2]; apply O; intros x Hx; destruct (L x Hx) as (-> & -> & -> & _); reflexivity.
  - intros i Hi. apply I1 in Hi. destruct (L i Hi) as (_ & _ & _ & -> & _). auto.
  - intros i j Hi Hj Av Rv. apply I1 in Hi. apply I1 in Hj. destruct (L i Hi) as (L1 & L2 & L3 & -> & L4). destruct (L j Hj) as (M1 & M2 & M3 & -> & M4).
    apply F3; auto; [now apply L4|]. unfold is_reverse in *. now rewrite <- L1, <- L2, <- L3, <- M1, <- M2, <- M3.
  - unfold nd_name. rewrite (map_ext _ (fun n => n_name (h_nd a n))) by (intros n; now rewrite Hn). eapply Permutation_NoDup; [apply Permutation_map; exact P2|exact F4].
  - intros Hk. destruct (F5 Hk) as [X Y]. split.
    + eapply Permutation_NoDup; [apply Permutation_map; exact P1|]. rewrite (map_ext_in _ (fun i => ends_text (loc a i) (rem a i))); auto.
      intros i Hi. destruct (L i Hi) as (-> & -> & _). reflexivity.
    + intros n Hn'. rewrite Hn. apply Y. now apply I2.
Qed.

(** validation of a model without LSPs and reservations *)
Lemma validate_fit E k s s' r : env_ok E -> NoDup (m_ifs s) -> m_lsps s = [] -> (forall i, In i (m_ifs s) -> i_res (h_if s i) = 0%Q) -> cids_set k s ->
  validate_model E k s = (s', r) -> (r = Ok tt <-> fit k s).
Proof.
  intros HE N NL Z CS V. assert (Sn : lsps_sane s) by (intros l Hl; rewrite NL in Hl; destruct Hl).
  rewrite (validate_accepts_exactly E k s s' r round1 HE N Sn CS round1_ok V). unfold fit. rewrite NL. simpl.
  assert (R0 : (round1 0 == 0)%Q) by reflexivity.
  split; intros (A & B & C); (split; [exact A|]); (split; [|exact C]); intros i Hi; specialize (B i Hi); rewrite (Z i Hi) in *.
  - now rewrite R0 in B.
  - split; [now rewrite R0|reflexivity].
Qed.

(** ** When update_simulation succeeds on a model without LSPs *)
Section Succeeds.
Variable E : env.
Variable k : kind.
Hypothesis HE : env_ok E.
Variable s : st.
Hypothesis NL : m_lsps s = [].
Hypothesis WP : well_posed s.
Hypothesis EK : ends_known s.
Hypothesis CS : cids_set k s.

Lemma fit_mid s2 s4 : start E s s2 -> rsame E s2 s4 -> (fit k (unreserved s) <-> fit k s4) /\ NoDup (m_ifs s4) /\ m_lsps s4 = [] /\
  (forall i, In i (m_ifs s4) -> i_res (h_if s4 i) = 0%Q) /\ cids_set k s4.
Proof.
  intros S2 R. assert (D : forall i, In i (m_ifs s) -> same_fields (if_res 0%Q (h_if s i)) (h_if s4 i)).
  { intros i Hi. rewrite (rs_if _ _ _ R i), (so_if _ _ _ S2 i Hi). repeat split. }
  assert (I : m_ifs s4 = m_ifs s) by (rewrite (rs_ifs _ _ _ R); apply S2).
  split; [split|].
  - apply fit_perm; simpl.
    + now rewrite I.
    + rewrite (rs_nds _ _ _ R), (so_nds _ _ _ S2). auto.
    + intros n. rewrite (rs_nd _ _ _ R). now rewrite (so_nd _ _ _ S2).
    + exact D.
  - apply fit_perm; simpl.
    + now rewrite I.
    + rewrite (rs_nds _ _ _ R), (so_nds _ _ _ S2). auto.
    + intros n. rewrite (rs_nd _ _ _ R). now rewrite (so_nd _ _ _ S2).
    + rewrite I. intros i Hi. destruct (D i Hi) as (A1 & A2 & A3 & A4 & A5 & A6 & A7). unfold same_fields. repeat split; congruence.
  - rewrite I. split; [apply WP|]. split; [rewrite (rs_lsps _ _ _ R); apply S2|]. split.
    + intros i Hi. destruct (D i Hi) as (_ & _ & -> & _). reflexivity.
    + intros Hk i Hi. rewrite I in Hi. destruct (D i Hi) as (_ & -> & _). simpl. now apply CS.
Qed.

Lemma succeeds : (exists s', update_simulation E k s = (s', Ok tt)) <-> demands_fine s /\ fit k (unreserved s).
Proof.
  pose proof (proj1 WP) as N. pose proof (proj1 (proj2 WP)) as Cost.
  destruct (started E k HE s NL) as (s1 & s2 & P1 & R2 & S2 & U). split.
  - intros (s' & H). split.
    + intros d Hd. split; [|exact (self_demand E k HE s s' d WP H Hd)].
      rewrite U in H. apply bind_ok in H as (s4 & [] & H & _). unfold route_demands in H. rewrite !bind_gets in H.
      apply bind_ok in H as (s3 & [] & H & _). destruct (route_demand_loop E k _ _ _ _ H) as (_ & P & _).
      rewrite (so_dms _ _ _ S2) in P. specialize (P d Hd). unfold rpath in P. rewrite (e2e_nil E k s s2 S2 d) in P. cbn [rbind] in P.
      destruct (so_from E s s2 S2 d) as [F1 F2]. rewrite F1, F2 in P.
      assert (Pos : costs_positive (make_graph k s2 false 0 false)).
      { intros e He. apply G_edge_any in He as (i & -> & Hi). simpl. rewrite (so_ifs _ _ _ S2) in Hi. destruct (so_data E s s2 S2 i) as (_ & -> & _). now apply Cost. }
      assert (A := ok_asp E HE (make_graph k s2 false 0 false) (dmd_from s d) (dmd_to s d) Pos).
      assert (IG : in_graph (make_graph k s2 false 0 false) (dmd_from s d)) by (destruct (nx_asp E _ (dmd_from s d) (dmd_to s d)); [apply A|apply A|discriminate P]).
      destruct IG as [IG|(e & He & IG)].
      * simpl in IG. unfold node_names in IG. rewrite (so_nd _ _ _ S2), (so_nds _ _ _ S2) in IG. exact IG.
      * apply G_edge_any in He as (i & -> & Hi). rewrite (so_ifs _ _ _ S2) in Hi. destruct (so_data E s s2 S2 i) as (_ & _ & _ & L & R). destruct (EK i Hi) as [K1 K2].
        simpl in IG. change (ilocal s2 i) with (loc s2 i) in IG. change (iremote s2 i) with (rem s2 i) in IG. rewrite L, R in IG. destruct IG as [<- | <-]; auto.
    + destruct (simulated_ex _ _ _ _ H) as (t1 & t2 & t3 & t4 & Sm). 
      rewrite U in H. apply bind_ok in H as (s4 & [] & H4 & H). unfold route_demands in H4. rewrite !bind_gets in H4. apply bind_ok in H4 as (s3 & [] & H3 & H4).
      assert (R : rsame E s2 s4).
      { destruct (route_demand_loop E k _ _ _ _ H3) as (F & _). eapply rsame_trans; [apply F|]. apply (pres_run _ _ _ _ _ (tframe_util E k) H4). }
      destruct (fit_mid s2 s4 S2 R) as (F & A1 & A2 & A3 & A4). apply F. now apply (validate_fit E k s4 s' (Ok tt) HE A1 A2 A3 A4 H).
  - intros [D F]. assert (NP : k = Perf -> forall i j, In i (m_ifs s) -> In j (m_ifs s) -> loc s i = loc s j -> rem s i = rem s j -> i = j).
    { intros Hk i j Hi Hj L R. destruct F as (_ & _ & _ & _ & F). destruct (F Hk) as [F1 _]. 
      apply (NoDup_map_inj _ _ i j F1 Hi Hj). change (ends_text (loc s i) (rem s i) = ends_text (loc s j) (rem s j)). congruence. }
    destruct (demands_fine_run E k HE s N Cost s2 S2 NP EK D) as (s4 & R4 & R). rewrite U, (bind_run _ _ _ _ _ R4).
    destruct (fit_mid s2 s4 S2 R) as (F' & A1 & A2 & A3 & A4). apply F' in F. destruct (validate_model E k s4) as [s' r] eqn:V.
    apply (validate_fit E k s4 s' r HE A1 A2 A3 A4 V) in F. subst r. eauto.
Qed.
End Succeeds.

(** ** The same network, listed in another order *)
Record alike (a b : st) : Prop := {
  al_ifs : forall i, In i (m_ifs a) <-> In i (m_ifs b);
  al_loc : forall i, In i (m_ifs a) -> loc b i = loc a i; al_rem : forall i, In i (m_ifs a) -> rem b i = rem a i;
  al_data : forall i, In i (m_ifs a) -> i_cost (h_if b i) = i_cost (h_if a i) /\ i_failed (h_if b i) = i_failed (h_if a i) /\
     i_rsvp (h_if b i) = i_rsvp (h_if a i) /\ i_cap (h_if b i) = i_cap (h_if a i) /\ i_pct (h_if b i) = i_pct (h_if a i) /\ i_res (h_if b i) = i_res (h_if a i) }.
Lemma alike_sym a b : alike a b -> alike b a.
Proof.
  intros [A B C D]. constructor.
  - intros i. symmetry. auto.
  - intros i Hi. symmetry. apply B. now apply A.
  - intros i Hi. symmetry. apply C. now apply A.
  - intros i Hi. apply A in Hi. destruct (D i Hi) as (?&?&?&?&?&?). repeat split; congruence.
Qed.
Lemma alike_trans a b c : alike a b -> alike b c -> alike a c.
Proof.
  intros [A B C D] [A' B' C' D']. constructor.
  - intros i. now rewrite A.
  - intros i Hi. rewrite B' by now apply A. auto.
  - intros i Hi. rewrite C' by now apply A. auto.
  - intros i Hi. destruct (D i Hi) as (?&?&?&?&?&?). destruct (D' i (proj1 (A i) Hi)) as (?&?&?&?&?&?). repeat split; congruence.
Qed.
Lemma alike_usable a b i : alike a b -> In i (m_ifs a) -> usable a i -> usable b i.
Proof.
  intros A Hi. destruct (al_data _ _ A i Hi) as (_ & F & R & C & P & S). unfold usable, reservable, reserved. now rewrite F, R, C, P, S.
Qed.
Lemma alike_route a b u p v : alike a b -> route a (usable a) u p v -> route b (usable b) u p v.
Proof.
  intros A. induction 1 as [|i p v Hi U R IH]; [constructor|]. rewrite <- (al_loc _ _ A i Hi). constructor.
  - now apply (al_ifs _ _ A).
  - eapply alike_usable; eauto.
  - now rewrite (al_rem _ _ A i Hi).
Qed.
Lemma alike_cost a b ok u p v : alike a b -> route a ok u p v -> route_cost b p = route_cost a p.
Proof. intros A. induction 1 as [|i p v Hi U R IH]; [reflexivity|]. simpl. rewrite IH. now destruct (al_data _ _ A i Hi) as (-> & _). Qed.
Lemma alike_least' a b u p v : alike a b -> least_cost a (usable a) u p v -> least_cost b (usable b) u p v.
Proof.
  intros A [R L]. split; [eapply alike_route; eauto|]. intros q Q. apply (alike_route _ _ _ _ _ (alike_sym _ _ A)) in Q.
  rewrite (alike_cost _ _ _ _ _ _ A R), (alike_cost _ _ _ _ _ _ A Q). auto.
Qed.
Lemma alike_least a b u p v : alike a b -> (least_cost a (usable a) u p v <-> least_cost b (usable b) u p v).
Proof. intros A. split; apply alike_least'; auto. now apply alike_sym. Qed.

Lemma net_alike a b : same_net a b -> alike a b.
Proof. intros []. constructor; auto; [intros i; now rewrite sn_ifs|]. intros i _. repeat split; auto. Qed.
Lemma start_alike E s s2 : start E s s2 -> alike (unreserved s) s2.
Proof.
  intros S2. constructor; simpl.
  - intros i. now rewrite (so_ifs _ _ _ S2).
  - intros i _. apply (so_data E s s2 S2).
  - intros i _. apply (so_data E s s2 S2).
  - intros i Hi. rewrite (so_if _ _ _ S2 i Hi). repeat split.
Qed.
Lemma reordered_alike s t : reordered s t -> alike (unreserved s) (unreserved t).
Proof.
  intros []. constructor; unfold loc, rem; simpl; rewrite ?ro_if, ?ro_nd; auto.
  - intros i. split; apply Permutation_in; [|apply Permutation_sym]; auto.
  - intros i _. repeat split.
Qed.
Lemma reordered_sym s t : reordered s t -> reordered t s.
Proof. intros []. constructor; auto using Permutation_sym. Qed.

(** ** Hypotheses carry over *)
Section Carry.
Variables s t : st.
Hypothesis R : reordered s t.
Variable k : kind.
Let Pin {A} (l m : list A) (P : Permutation l m) x : In x m -> In x l := fun H => Permutation_in x (Permutation_sym P) H.

Lemma ro_loc i : loc t i = loc s i /\ rem t i = rem s i.
Proof. unfold loc, rem. now rewrite (ro_if _ _ R), (ro_nd _ _ R). Qed.
Lemma ro_ends d : dmd_from t d = dmd_from s d /\ dmd_to t d = dmd_to s d.
Proof. unfold dmd_from, dmd_to. now rewrite (ro_dm _ _ R), (ro_nd _ _ R). Qed.
Lemma ro_lends d : lsp_from t d = lsp_from s d /\ lsp_to t d = lsp_to s d.
Proof. unfold lsp_from, lsp_to. now rewrite (ro_ls _ _ R), (ro_nd _ _ R). Qed.
Lemma ro_names : Permutation (map (nd_name s) (m_nds s)) (map (nd_name t) (m_nds t)).
Proof.
  rewrite (map_ext (nd_name t) (nd_name s)) by (intros n; unfold nd_name; now rewrite (ro_nd _ _ R)). apply Permutation_map, R.
Qed.
Lemma ro_known : ends_known s -> ends_known t.
Proof.
  intros H i Hi. apply (Pin _ _ (ro_ifs _ _ R)) in Hi. destruct (ro_loc i) as [-> ->]. destruct (H i Hi).
  split; apply (Permutation_in _ ro_names); auto.
Qed.
Lemma ro_fine : demands_fine s -> demands_fine t.
Proof.
  intros H i Hi. apply (Pin _ _ (ro_dms _ _ R)) in Hi. destruct (ro_ends i) as [-> ->]. destruct (H i Hi).
  split; auto. apply (Permutation_in _ ro_names); auto.
Qed.
Lemma ro_cids : cids_set k s -> cids_set k t.
Proof. intros H Hk i Hi. rewrite (ro_if _ _ R). apply H; auto. now apply (Pin _ _ (ro_ifs _ _ R)). Qed.
Lemma ro_agree : ends_agree k s -> ends_agree k t.
Proof.
  intros H i j Hi Hj Rv. apply (Pin _ _ (ro_ifs _ _ R)) in Hi. apply (Pin _ _ (ro_ifs _ _ R)) in Hj. rewrite (ro_if _ _ R). apply H; auto.
  unfold is_reverse in *. destruct (ro_loc i) as [<- <-]. destruct (ro_loc j) as [<- <-]. now rewrite <- (ro_if _ _ R).
Qed.
Lemma ro_keys : if_keys_unique s -> if_keys_unique t.
Proof.
  unfold if_keys_unique. rewrite (map_ext (if_key t) (if_key s)) by (intros n; unfold if_key, loc; now rewrite (ro_nd _ _ R), (ro_if _ _ R)).
  apply Permutation_NoDup. apply Permutation_map, R.
Qed.
Lemma ro_from : Permutation (from_names s) (from_names t) /\ Permutation (to_names s) (to_names t).
Proof.
  unfold from_names, to_names.
  rewrite (map_ext (dmd_from t) (dmd_from s)) by (intros n; apply ro_ends). rewrite (map_ext (dmd_to t) (dmd_to s)) by (intros n; apply ro_ends).
  rewrite (map_ext (lsp_from t) (lsp_from s)) by (intros n; apply ro_lends). rewrite (map_ext (lsp_to t) (lsp_to s)) by (intros n; apply ro_lends).
  split; repeat apply Permutation_app; apply Permutation_map; apply R.
Qed.
Lemma ro_posed : well_posed s -> well_posed t.
Proof.
  intros (A & B & C). split; [apply (Permutation_NoDup (ro_ifs _ _ R) A)|]. split.
  - intros i Hi. rewrite (ro_if _ _ R). apply B. now apply (Pin _ _ (ro_ifs _ _ R)).
  - destruct ro_from as [F T]. intros a a' b b' Ha Ha' Hb Hb'.
    apply (Pin _ _ F) in Ha. apply (Pin _ _ F) in Ha'. apply (Pin _ _ T) in Hb. apply (Pin _ _ T) in Hb'. auto.
Qed.
Lemma ro_nolsp : m_lsps s = [] -> m_lsps t = [].
Proof. intros H. apply Permutation_nil. rewrite <- H. apply R. Qed.
Lemma ro_fit : fit k (unreserved s) -> fit k (unreserved t).
Proof. apply fit_perm; simpl; try apply R; [intros n; now rewrite (ro_nd _ _ R)|]. intros i _. rewrite (ro_if _ _ R). repeat split. Qed.
End Carry.

Section Order.
Variables (E E' : env) (k : kind) (s t : st).
Hypothesis HE : env_ok E.
Hypothesis HE' : env_ok E'.
Hypothesis R : reordered s t.
Hypothesis NL : m_lsps s = [].
Hypothesis WP : well_posed s.
Hypothesis EK : ends_known s.
Hypothesis CS : cids_set k s.

Lemma order_succeeds : (exists s', update_simulation E k s = (s', Ok tt)) <-> (exists t', update_simulation E' k t = (t', Ok tt)).
Proof.
  rewrite (succeeds E k HE s NL WP EK CS).
  rewrite (succeeds E' k HE' t (ro_nolsp _ _ R NL) (ro_posed _ _ R WP) (ro_known _ _ R EK) (ro_cids _ _ R k CS)).
  assert (R' := reordered_sym _ _ R). split; intros [A B]; (split; [eapply ro_fine; eauto|eapply ro_fit; eauto]).
Qed.
End Order.

Lemma final_paths E k s s' d : env_ok E -> m_lsps s = [] -> well_posed s -> ends_known s -> cids_set k s -> update_simulation E k s = (s', Ok tt) -> In d (m_dms s) ->
  (d_path (h_dm s' d) = DUnrouted /\ forall p, ~ least_cost (unreserved s) (usable (unreserved s)) (dmd_from s d) p (dmd_to s d)) \/
  exists L, d_path (h_dm s' d) = DPaths (map if_path L) /\ L <> [] /\
    forall p, In p L <-> least_cost (unreserved s) (usable (unreserved s)) (dmd_from s d) p (dmd_to s d).
Proof.
  intros HE NL WP EK CS U Hd. pose proof (proj1 WP) as N. pose proof (proj1 (proj2 WP)) as Cost.
  destruct (proj1 (succeeds E k HE s NL WP EK CS) (ex_intro _ s' U)) as [D F].
  assert (NP : k = Perf -> forall i j, In i (m_ifs s) -> In j (m_ifs s) -> loc s i = loc s j -> rem s i = rem s j -> i = j).
  { intros Hk i j Hi Hj L R. destruct F as (_ & _ & _ & _ & F). destruct (F Hk) as [F1 _].
    apply (NoDup_map_inj _ _ i j F1 Hi Hj). change (ends_text (loc s i) (rem s i) = ends_text (loc s j) (rem s j)). congruence. }
  destruct (simulated_ex _ _ _ _ U) as (s1 & s2 & s3 & s4 & Sm).
  destruct (start_of E k HE s NL s1 s2 _ (sm_prep _ _ _ _ _ _ _ _ Sm) (sm_lsps _ _ _ _ _ _ _ _ Sm)) as [S2 _].
  assert (P := sm_demand _ _ _ _ _ _ _ _ Sm d HE N Hd). destruct (D d Hd) as [D1 D2].
  assert (X : forall p, least_cost s2 (fun i => considered s2 false 0 false i = true) (dmd_from s d) p (dmd_to s d) <->
     least_cost (unreserved s) (usable (unreserved s)) (dmd_from s d) p (dmd_to s d)).
  { intros p. rewrite (least_cost_ext s2 _ (usable s2)) by (intros i _; apply considered_usable). symmetry. apply alike_least. now apply start_alike with E. }
  destruct (rpath_fine E k HE s N Cost s2 S2 NP EK d D1 D2) as [[Y Z]|(L & Y & _ & Ne & Z)]; rewrite Y in P; injection P as P.
  - left. split; [auto|]. intros p Hp. apply X in Hp. apply (Z p), Hp.
  - right. exists L. split; [auto|]. split; [exact Ne|]. intros p. now rewrite Z, X.
Qed.

Lemma order_paths E E' k s t s' t' d : env_ok E -> env_ok E' -> reordered s t -> m_lsps s = [] -> well_posed s -> ends_known s -> cids_set k s ->
  update_simulation E k s = (s', Ok tt) -> update_simulation E' k t = (t', Ok tt) -> In d (m_dms s) -> same_paths (d_path (h_dm s' d)) (d_path (h_dm t' d)).
Proof.
  intros HE HE' R NL WP EK CS U U' Hd. 
  assert (A := final_paths E k s s' d HE NL WP EK CS U Hd).
  assert (B := final_paths E' k t t' d HE' (ro_nolsp _ _ R NL) (ro_posed _ _ R WP) (ro_known _ _ R EK) (ro_cids _ _ R k CS) U' (Permutation_in _ (ro_dms _ _ R) Hd)).
  assert (X : forall p, least_cost (unreserved s) (usable (unreserved s)) (dmd_from s d) p (dmd_to s d) <->
                        least_cost (unreserved t) (usable (unreserved t)) (dmd_from t d) p (dmd_to t d)).
  { intros p. destruct (ro_ends _ _ R d) as [-> ->]. apply alike_least. now apply reordered_alike. }
  destruct A as [[-> A]|(L & -> & Ne & A)], B as [[-> B]|(L' & -> & Ne' & B)]; simpl; auto.
  - destruct L' as [|q L']; [congruence|]. apply (A q), X, B. left; auto.
  - destruct L as [|q L]; [congruence|]. apply (B q), X, A. left; auto.
  - intros x. rewrite !in_map_iff. split; intros (p & <- & Hp); exists p; (split; [reflexivity|]).
    + now apply B, X, A.
    + now apply A, X, B.
Qed.

(** ** Traffic *)
Definition shown (k : kind) (x : Q) : Q := match k with Flex => x | Perf => roundd 10000 x end.
Lemma carried_shares k s T W L es i : shares k T W L es ->
  (carried s i es == sumq (fun p => inject_Z (Z.of_nat (crossings s i (if_path p))) * shown k (T * W p)) L)%Q.
Proof.
  unfold carried. induction 1 as [|p e L es [H1 H2] _ IH]; [reflexivity|]. cbn [map Qsum fold_right]. rewrite sumq_cons, <- IH, H1.
  assert (X : (pi_traffic e == shown k (T * W p))%Q) by (destruct k; [exact H2|now apply rounds_unique]). rewrite X. reflexivity.
Qed.
Lemma crossings_if s t i p : crossings s i (if_path p) = crossings t i (if_path p).
Proof. unfold crossings, if_path. induction p as [|j p IH]; simpl; auto. Qed.
Lemma same_w loc1 loc2 o1 o2 p : (forall i, In i p -> loc1 i = loc2 i) -> (forall n, List.length (o1 n) = List.length (o2 n)) -> w loc1 o1 p = w loc2 o2 p.
Proof.
  intros H O. induction p as [|i p IH]; [reflexivity|]. cbn [w]. rewrite IH by (intros; apply H; right; auto). unfold deg. rewrite (H i (or_introl eq_refl)), O. reflexivity.
Qed.
Lemma same_count {A} (l m : list A) : NoDup l -> NoDup m -> (forall x, In x l <-> In x m) -> List.length l = List.length m.
Proof. intros A1 A2 H. apply Permutation_length. now apply NoDup_Permutation. Qed.

Section Traffic.
Variables (E E' : env) (k : kind) (s t s' t' : st).
Hypothesis HE : env_ok E.
Hypothesis HE' : env_ok E'.
Hypothesis R : reordered s t.
Hypothesis NL : m_lsps s = [].
Hypothesis WP : well_posed s.
Hypothesis CS : cids_set k s.
Hypothesis EA : ends_agree k s.
Hypothesis KU : if_keys_unique s.
Hypothesis U : update_simulation E k s = (s', Ok tt).
Hypothesis U' : update_simulation E' k t = (t', Ok tt).

(** the end of a run, in terms of its start *)
Record ended (a b : st) : Prop := {
  en_alike : alike (unreserved a) b; en_fail : same_failures a b; en_dms : m_dms b = m_dms a; en_lsps : m_lsps b = [];
  en_dm : forall d, d_traffic (h_dm b d) = d_traffic (h_dm a d) /\ dmd_from b d = dmd_from a d /\ dmd_to b d = dmd_to a d }.
Lemma ended_run F a b : env_ok F -> m_lsps a = [] -> well_posed a -> cids_set k a -> ends_agree k a -> update_simulation F k a = (b, Ok tt) -> ended a b.
Proof.
  intros HF La Wa Ca Aa Ua. pose proof (proj1 Wa) as N. assert (St := update_stable F k a b HF N Ca Aa Ua).
  destruct (simulated_ex _ _ _ _ Ua) as (s1 & s2 & s3 & s4 & Sm).
  destruct (start_of F k HF a La s1 s2 _ (sm_prep _ _ _ _ _ _ _ _ Sm) (sm_lsps _ _ _ _ _ _ _ _ Sm)) as [S2 _].
  destruct (sm_lsps' _ _ _ _ _ _ _ _ Sm HF N) as (A1 & A2 & _).
  constructor.
  - eapply alike_trans; [eapply start_alike; exact S2|]. apply net_alike. apply (sm_same_net F k HF _ _ _ _ _ _ Sm N St).
  - exact St.
  - rewrite A2. apply S2.
  - rewrite A1. apply S2.
  - intros d. rewrite (sm_from _ _ _ _ _ _ _ _ Sm), (sm_to _ _ _ _ _ _ _ _ Sm) by auto. destruct (so_from F a s2 S2 d) as [-> ->].
    destruct (sm_traffic F k HF _ _ _ _ _ _ Sm N d) as [T1 T3]. auto.
Qed.

Let WP' := ro_posed _ _ R WP.
Let es : ended s s' := ended_run E s s' HE NL WP CS EA U.
Let et : ended t t' := ended_run E' t t' HE' (ro_nolsp _ _ R NL) WP' (ro_cids _ _ R k CS) (ro_agree _ _ R k EA) U'.

Lemma end_alike : alike s' t'.
Proof.
  eapply alike_trans; [apply alike_sym, (en_alike _ _ es)|]. eapply alike_trans; [apply reordered_alike, R|]. apply (en_alike _ _ et).
Qed.
Lemma end_dm d : d_traffic (h_dm t' d) = d_traffic (h_dm s' d) /\ dmd_from t' d = dmd_from s' d /\ dmd_to t' d = dmd_to s' d.
Proof.
  destruct (en_dm _ _ es d) as (-> & -> & ->), (en_dm _ _ et d) as (-> & -> & ->). rewrite (ro_dm _ _ R). destruct (ro_ends _ _ R d) as [-> ->]. auto.
Qed.
Lemma no_l a b d : ended a b -> no_lsp_for b d /\ no_shortcuts_for k b d.
Proof.
  intros X. split.
  - intros l (H & _). rewrite (en_lsps _ _ X) in H. destruct H.
  - intros _ p c n e m l _ _ _ _ _ H. rewrite (en_lsps _ _ X) in H. destruct H.
Qed.

Lemma order_carried d i ps qs fs gs : In d (m_dms s) -> d_path (h_dm s' d) = DPaths ps -> d_path (h_dm t' d) = DPaths qs ->
  d_detail (h_dm s' d) = PDInfo fs -> d_detail (h_dm t' d) = PDInfo gs -> (carried s' i fs == carried t' i gs)%Q.
Proof.
  intros Hd P Q F G. destruct (no_l _ _ d es) as [A1 A2], (no_l _ _ d et) as [B1 B2].
  destruct (igp_shares E k HE s s' WP U (en_fail _ _ es) KU d ps Hd A1 A2 P) as (L & e1 & o1 & -> & _ & N1 & I1 & _ & D1 & O1 & X1 & S1 & _).
  destruct (igp_shares E' k HE' t t' WP' U' (en_fail _ _ et) (ro_keys _ _ R KU) d qs (Permutation_in _ (ro_dms _ _ R) Hd) B1 B2 Q) as (M & e2 & o2 & -> & _ & N2 & I2 & _ & D2 & O2 & X2 & S2 & _).
  assert (e1 = fs) by congruence. assert (e2 = gs) by congruence. subst e1 e2.
  assert (Al := end_alike). destruct (end_dm d) as (T & Fr & To).
  assert (LM : forall p, In p L <-> In p M). { intros p. rewrite I1, I2, Fr, To. now apply alike_least. }
  assert (Lo : forall p j, In p L -> In j p -> loc t' j = loc s' j).
  { intros p j Hp Hj. apply I1 in Hp as [Rt _]. destruct (route_all _ _ _ _ _ j Rt Hj) as [Hi _]. now apply (al_loc _ _ Al). }
  assert (OO : forall n, List.length (o1 n) = List.length (o2 n)).
  { intros n. apply same_count; auto. intros j. rewrite X1, X2. split; intros [H (p & Hp & Hj)].
    - split; [rewrite <- H; eapply Lo; eauto|]. exists p. split; [now apply LM|auto].
    - apply LM in Hp. split; [rewrite <- H; symmetry; eapply Lo; eauto|]. exists p. auto. }
  rewrite (carried_shares k s' _ _ _ _ i S1), (carried_shares k t' _ _ _ _ i S2), T.
  rewrite (sumq_perm _ _ _ (NoDup_Permutation N1 N2 LM)). apply sumq_ext. intros p Hp. apply LM in Hp. rewrite (crossings_if s' t').
  rewrite (same_w (loc s') (loc t') o1 o2 p); [reflexivity| |auto]. intros j Hj. symmetry. eapply Lo; eauto.
Qed.

Lemma order_adds (s1 s2 s3 s4 t1 t2 t3 t4 : st) d i : ends_known s -> simulated E k s s1 s2 s3 s4 s' -> simulated E' k t t1 t2 t3 t4 t' -> In d (m_dms s) -> In i (m_ifs s) ->
  (Qsum (at_if i (plan_adds E k s3 d)) == Qsum (at_if i (plan_adds E' k t3 d)))%Q.
Proof.
  intros EK Sm Tm Hd Hi. assert (SP := order_paths E E' k s t s' t' d HE HE' R NL WP EK CS U U' Hd).
  destruct (no_l _ _ d es) as [A1 A2], (no_l _ _ d et) as [B1 B2].
  destruct (d_path (h_dm s' d)) as [|ps] eqn:P, (d_path (h_dm t' d)) as [|qs] eqn:Q; try contradiction.
  - rewrite (plan_unrouted E k HE _ _ _ _ _ _ Sm WP d i P), (plan_unrouted E' k HE' _ _ _ _ _ _ Tm WP' d i Q). reflexivity.
  - destruct (igp_adds E k HE _ _ _ _ _ _ Sm WP U (en_fail _ _ es) KU d i Hd Hi A1 A2 ps P) as (fs & F & _ & X).
    destruct (igp_adds E' k HE' _ _ _ _ _ _ Tm WP' U' (en_fail _ _ et) (ro_keys _ _ R KU) d i (Permutation_in _ (ro_dms _ _ R) Hd) (Permutation_in _ (ro_ifs _ _ R) Hi) B1 B2 qs Q) as (gs & G & _ & Y).
    assert (C := order_carried d i ps qs fs gs Hd P Q F G). revert C X Y. generalize (plan_adds E k s3 d) (plan_adds E' k t3 d). clear. destruct k; intros x y C X Y.
    + now rewrite X, Y.
    + apply rounds_unique in X. apply (rounds_compat _ _ _ _ _ (Qeq_sym _ _ C) (Qeq_refl _)) in Y. apply rounds_unique in Y. now rewrite X, Y.
Qed.

Lemma order_traffic i : ends_known s -> In i (m_ifs s) -> same_traffic (i_traffic (h_if s' i)) (i_traffic (h_if t' i)).
Proof.
  intros EK Hi. destruct (simulated_ex _ _ _ _ U) as (s1 & s2 & s3 & s4 & Sm). destruct (simulated_ex _ _ _ _ U') as (t1 & t2 & t3 & t4 & Tm).
  assert (A := sm_iftraffic E k HE _ _ _ _ _ _ Sm WP (en_fail _ _ es) i Hi).
  assert (B := sm_iftraffic E' k HE' _ _ _ _ _ _ Tm WP' (en_fail _ _ et) i (Permutation_in _ (ro_ifs _ _ R) Hi)).
  rewrite (en_fail _ _ es i Hi) in A. rewrite (en_fail _ _ et i (Permutation_in _ (ro_ifs _ _ R) Hi)), (ro_if _ _ R) in B.
  destruct (i_failed (h_if s i)); [now rewrite A, B|]. destruct A as (q & -> & A), B as (r & -> & B). simpl. rewrite A, B.
  rewrite (en_dms _ _ es), (en_dms _ _ et), <- (sumq_perm _ _ _ (ro_dms _ _ R)). apply sumq_ext. intros d Hd. eapply order_adds; eauto.
Qed.
End Traffic.
