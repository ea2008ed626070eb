(** IgpProofs.v - the paths of demands that ride no LSP. *)
From Verif Require Import Base Graph Objects Sim Spec SpecCkt SpecSim GraphProofs MonadProofs ResProofs ObjProofs CircuitProofs
  ValidateProofs GroupProofs PathProofs QuietProofs RouteProofs.

Section Igp.
Variable E : env.
Variable k : kind.
Hypothesis HE : env_ok E.

(** no routed LSP has the text [key] *)
Definition none_routed (s : st) (key : string) : Prop :=
  forall l, In l (m_lsps s) -> lsp_routed s l = true -> pair_key (lsrc s l) (ldst s l) <> key.

Lemma min_none key s : egroups E s = build_groups E (lsrc s) (ldst s) (m_lsps s) -> none_routed s key ->
  snd (min_metric_lsps E k key s) = Ok [].
Proof.
  intros EG NR. unfold min_metric_lsps. destruct (groups_run E s) as (s1 & R & Q). unfold bind at 1. rewrite R.
  destruct (dict_get key (egroups E s)) as [cands|] eqn:D; [|reflexivity]. rewrite bind_gets.
  replace (filter (lsp_routed s1) cands) with (@nil nat); [reflexivity|].
  assert (X : forall l, In l cands -> lsp_routed s1 l = false).
  { intros l Hl. rewrite EG in D. destruct (build_groups_sound _ _ _ _ _ _ _ D Hl) as [L1 L2]. rewrite (rs_routed _ _ _ (proj1 Q)).
    destruct (lsp_routed s l) eqn:LR; auto. exfalso. apply (NR l L1 LR L2). }
  clear D. induction cands as [|l cands IH]; auto. simpl. rewrite X by (left; auto). apply IH. intros; apply X; right; auto.
Qed.

Lemma first_none n ds s : egroups E s = build_groups E (lsrc s) (ldst s) (m_lsps s) -> (forall m, In m ds -> none_routed s (pair_key n m)) ->
  snd (first_lsps E k n ds s) = Ok [].
Proof.
  intros EG. induction ds as [|d ds IH]; intros H; [reflexivity|]. cbn [first_lsps].
  rewrite (Qv_bind E); [|apply Qm_min_metric|intros [|]; [apply Qm_first|apply Qm_ret]].
  rewrite min_none; auto; [|apply H; left; auto]. cbn [rbind]. apply IH. intros; apply H; right; auto.
Qed.

Lemma index_of_some n l i : index_of n l = Some i -> l = (firstn i l ++ n :: skipn (S i) l)%list.
Proof.
  revert i. induction l as [|x l IH]; simpl; [discriminate|]. intros i. destruct (String.eqb_spec x n) as [->|]; [intros H; injection H as <-; reflexivity|].
  destruct (index_of n l) as [j|]; [|discriminate]. intros H. injection H as <-. simpl. f_equal. now apply IH.
Qed.

(** no shortcut applies along the node path [np] *)
Definition no_shortcut_on (s : st) (np : list string) : Prop :=
  forall a nd b m, In nd (m_nds s) -> n_shortcuts (h_nd s nd) = true -> np = (a ++ nd_name s nd :: b)%list -> In m b ->
    none_routed s (pair_key (nd_name s nd) m).

Lemma path_lsps_none s full : egroups E s = build_groups E (lsrc s) (ldst s) (m_lsps s) -> no_shortcut_on s full ->
  forall rest, (forall n, In n rest -> exists m, In m (m_nds s) /\ nd_name s m = n) -> snd (path_lsps E k full rest None [] s) = Ok [].
Proof.
  intros EG NS. induction rest as [|n rest IH]; intros H; [reflexivity|]. cbn [path_lsps]. rewrite bind_ret.
  assert (G := get_node_spec s n). unfold reads at 1. unfold bind at 1. destruct (get_node s n) as [m|e].
  2:{ exfalso. destruct (H n (or_introl eq_refl)) as (m & A & B). exact (proj2 G m A B). }
  destruct G as [G1 G2]. rewrite bind_gets. specialize (IH (fun x Hx => H x (or_intror Hx))).
  destruct (n_shortcuts (h_nd s m)) eqn:SC; [|exact IH]. rewrite bind_gets.
  rewrite (Qv_bind E); [|apply Qm_first|].
  2:{ intros [|l ls]; [apply Qm_path_lsps|]. apply Qm_bind; [apply Qm_gets; intros; now apply (rs_ldst E)|intros; apply Qm_path_lsps]. }
  rewrite first_none; auto. intros d Hd. destruct (index_of n full) as [i|] eqn:I; [|destruct Hd]. apply in_rev in Hd.
  apply index_of_some in I. fold (nd_name s m) in G2. rewrite <- G2 in I. exact (NS _ _ _ _ G1 SC I Hd).
Qed.

Lemma last_none s : egroups E s = build_groups E (lsrc s) (ldst s) (m_lsps s) ->
  forall nps, (forall np, In np nps -> no_shortcut_on s np /\ forall n, In n np -> exists m, In m (m_nds s) /\ nd_name s m = n) ->
  snd (last_path_lsps E k nps [] s) = Ok [].
Proof.
  intros EG. induction nps as [|np nps IH]; intros H; [reflexivity|]. cbn [last_path_lsps].
  rewrite (Qv_bind E); [|apply Qm_path_lsps|intros; apply Qm_last]. destruct (H np (or_introl eq_refl)) as [H1 H2].
  rewrite path_lsps_none by auto. cbn [rbind]. apply IH. intros; apply H; right; auto.
Qed.

Lemma if_path_metric s p : path_metric E k (map IIf p) s = (s, Ok (route_cost s p)).
Proof.
  induction p as [|i p IH]; [reflexivity|]. cbn [map path_metric]. rewrite bind_gets. unfold bind. rewrite IH. reflexivity.
Qed.
Lemma inspect_equal s L c : (forall p, In p L -> route_cost s p = c) -> inspect_metrics E k (map (map IIf) L) s = (s, Ok (map (map IIf) L)).
Proof.
  intros H. unfold inspect_metrics.
  assert (X : mmap (fun p => m <- path_metric E k p ;; ret (p, m)) (map (map IIf) L) s = (s, Ok (map (fun p => (p, c)) (map (map IIf) L)))).
  { revert H. induction L as [|p L IH]; intros H; [reflexivity|]. cbn [map mmap]. unfold bind at 1. unfold bind at 1. rewrite if_path_metric.
    unfold ret at 1. unfold bind at 1. rewrite IH by (intros; apply H; right; auto). rewrite (H p) by (left; auto). reflexivity. }
  unfold bind at 1. rewrite X. set (ps := map (map IIf) L). rewrite map_map. simpl.
  assert (Y : ps = [] \/ Zmin_list (map (fun _ : list item => c) ps) = Some c).
  { destruct ps as [|q ps']; [auto|right]. clear. simpl. induction ps' as [|x l IH]; simpl; auto. simpl in IH. now rewrite Z.min_id. }
  destruct Y as [Y|Y]; [rewrite Y; reflexivity|]. rewrite Y. unfold ret. do 2 f_equal. clear. induction ps as [|q l IH]; auto. simpl.
  rewrite Z.eqb_refl. simpl. now rewrite IH.
Qed.

Lemma flags_ok s ns : (forall n, In n ns -> exists m, In m (m_nds s) /\ nd_name s m = n) -> exists fs,
  mmap (fun n => nd <- reads (fun s => get_node s n) ;; gets (fun s => n_shortcuts (h_nd s nd))) ns s = (s, Ok fs).
Proof.
  induction ns as [|n ns IH]; intros H; [exists []; reflexivity|]. destruct IH as (fs & IH); [intros; apply H; right; auto|].
  cbn [mmap]. unfold bind at 1. unfold bind at 1. unfold reads at 1. assert (G := get_node_spec s n). destruct (get_node s n) as [m|e].
  2:{ exfalso. destruct (H n (or_introl eq_refl)) as (m & A & B). exact (proj2 G m A B). }
  unfold gets at 1. unfold bind at 1. rewrite IH. eexists. reflexivity.
Qed.

(** find_igp_shortcuts returns the paths it is given when no shortcut applies *)
Lemma shortcuts_none s L c nps : egroups E s = build_groups E (lsrc s) (ldst s) (m_lsps s) ->
  (forall np, In np nps -> no_shortcut_on s np /\ forall n, In n np -> exists m, In m (m_nds s) /\ nd_name s m = n) ->
  (forall p, In p L -> route_cost s p = c) -> snd (find_igp_shortcuts E k (map (map IIf) L) nps s) = Ok (map (map IIf) L).
Proof.
  intros EG H C. unfold find_igp_shortcuts. destruct (flags_ok s (List.concat nps)) as (fs & F).
  { intros n Hn. apply in_concat in Hn as (np & A & B). apply (proj2 (H np A) n B). }
  unfold bind at 1. rewrite F. destruct (existsb id fs); [|reflexivity].
  rewrite (Qv_bind E); [|apply Qm_last|].
  2:{ intros g. apply Qm_bind; [apply Qm_gets; intros; now apply (rs_substitute E)|]. intros [|q [|]]; try apply Qm_inspect. apply Qm_ret. }
  rewrite last_none by auto. cbn [rbind]. rewrite bind_gets. cbn [substitute_lsps].
  assert (I := inspect_equal s L c C). destruct (map (map IIf) L) as [|q [|q' l]]; [|reflexivity|]; rewrite I; reflexivity.
Qed.

(** when it returns at all, the nodes of the paths are in the model *)
Lemma shortcuts_known s ps nps r : snd (find_igp_shortcuts E k ps nps s) = Ok r ->
  forall np n, In np nps -> In n np -> exists m, In m (m_nds s) /\ nd_name s m = n.
Proof.
  unfold find_igp_shortcuts. set (f := fun n => nd <- reads (fun s => get_node s n) ;; gets (fun s => n_shortcuts (h_nd s nd))).
  assert (L : forall l, match mmap f l s with (_, Ok _) => forall n, In n l -> exists m, In m (m_nds s) /\ nd_name s m = n | _ => True end).
  { induction l as [|n l IH]; [intros n []|]. cbn [mmap]. unfold bind at 1. unfold f at 1. unfold bind at 1. unfold reads at 1.
    assert (G := get_node_spec s n). destruct (get_node s n) as [m|e]; [|exact I]. unfold gets at 1. unfold bind at 1.
    destruct (mmap f l s) as [s1 [fs|e]]; [|exact I]. intros x [<-|Hx]; [|auto]. exists m. exact G. }
  specialize (L (List.concat nps)). intros H np n A B. unfold bind at 1 in H. destruct (mmap f (List.concat nps) s) as [s1 [fs|e]]; [|discriminate H].
  apply L. apply in_concat. eauto.
Qed.

Section Done.
Variables s s1 s2 s3 s4 s' : st.
Hypothesis Sm : simulated E k s s1 s2 s3 s4 s'.
Hypothesis N : NoDup (m_ifs s).
Hypothesis Cost : forall i, In i (m_ifs s) -> 1 <= i_cost (h_if s i).
Hypothesis St : same_failures s s'.
Let G := make_graph k s2 false 0 false.

Lemma sm_N2 : NoDup (m_ifs s2).
Proof. destruct (sm_12 _ _ _ _ _ _ _ _ Sm) as (_ & -> & _). exact N. Qed.
Lemma sm_cost2 i : In i (m_ifs s2) -> 1 <= i_cost (h_if s2 i).
Proof.
  destruct (sm_12 _ _ _ _ _ _ _ _ Sm) as (_ & -> & _ & _ & _ & X & _). intros Hi. destruct (X i) as (t & q & ->). apply Cost, Hi.
Qed.
Lemma sm_nopar : k = Perf -> forall i j, In i (m_ifs s2) -> In j (m_ifs s2) -> loc s2 i = loc s2 j -> rem s2 i = rem s2 j -> i = j.
Proof.
  intros Hk i j Hi Hj A B. pose proof (sm_24 _ _ _ _ _ _ _ _ Sm) as R. pose proof (sm_val _ _ _ _ _ _ _ _ Sm) as V. rewrite Hk in V.
  assert (N4 := sm_nodup _ _ _ _ _ _ _ _ Sm N). apply (perf_no_parallel _ _ _ HE N4 V); rewrite ?(rs_ifs _ _ _ R); auto.
  - change (ilocal s4 i = ilocal s4 j). rewrite !(rs_local _ _ _ R). exact A.
  - change (iremote s4 i = iremote s4 j). rewrite !(rs_remote _ _ _ R). exact B.
Qed.
Lemma sm_same_net : same_net s2 s'.
Proof. apply (sm_net _ _ _ _ _ _ _ _ Sm HE N St). Qed.
Lemma sm_Gpos : costs_positive G.
Proof. apply (G_pos k s2 (considered s2 false 0 false) (node_names s2)); [apply sm_N2|apply sm_cost2|apply sm_nopar]. Qed.

Lemma sm_least u p v : least_cost s2 (fun i => considered s2 false 0 false i = true) u p v <-> least_cost s' (usable s') u p v.
Proof.
  rewrite (sn_least_usable s2 s' u p v sm_same_net). apply least_cost_ext. intros i _. apply considered_usable.
Qed.
Lemma sm_route u p v : route s2 (fun i => considered s2 false 0 false i = true) u p v <-> route s' (usable s') u p v.
Proof.
  rewrite (sn_route_usable s2 s' u p v sm_same_net). split; apply route_ext; intros i _; [|symmetry]; apply considered_usable.
Qed.

(** what networkx finds between two nodes *)
Lemma sm_asp u v : match nx_asp E G u v with
  | NxPaths nps => NoDup (iface_paths k s2 G nps) /\ (forall p, In p (iface_paths k s2 G nps) <-> least_cost s' (usable s') u p v) /\
                   (exists p, route s' (usable s') u p v) /\
                   (forall np, In np nps -> exists p, least_cost s' (usable s') u p v /\ np = route_nodes s' u p)
  | NxNoPath => forall p, ~ route s' (usable s') u p v
  | NxNodeNotFound => True
  end.
Proof.
  assert (A := ok_asp E HE G u v sm_Gpos). destruct (nx_asp E G u v) as [nps| |]; auto.
  - destruct A as (_ & Nd & Ne & X).
    destruct (iface_paths_spec k s2 (considered s2 false 0 false) (node_names s2) sm_N2 sm_nopar nps u v Nd X) as [I1 I2].
    split; [exact I1|]. assert (I3 : forall p, In p (iface_paths k s2 G nps) <-> least_cost s' (usable s') u p v).
    { intros p. rewrite <- sm_least. apply I2. }
    assert (I4 : forall np, In np nps -> exists p, least_cost s' (usable s') u p v /\ np = route_nodes s' u p).
    { intros np Hnp. apply X in Hnp as (es & W & ->). 
      apply (shortest_walk_least k s2 (considered s2 false 0 false) (node_names s2) sm_N2 sm_nopar) in W as (p & -> & L). exists p. split.
      - now apply sm_least.
      - rewrite (node_path_route s2). symmetry. apply sn_route_nodes, sm_same_net. }
    split; [exact I3|]. split; [|exact I4]. destruct nps as [|np nps]; [congruence|]. destruct (I4 np (or_introl eq_refl)) as (p & L & _). exists p. apply L.
  - destruct A as (_ & _ & A). intros p R. apply sm_route in R.
    apply (route_walk k s2 (considered s2 false 0 false) (node_names s2) sm_N2 sm_nopar) in R. eapply A. exact R.
Qed.

Lemma sm_no_e2e d : texts_distinct s -> In d (m_dms s) -> no_lsp_for s' d -> snd (e2e_lsps E k d s2) = Ok [].
Proof.
  intros TD Hd NL. rewrite e2e_none. rewrite (sm_group _ _ _ _ _ _ _ _ _ Sm HE N TD Hd).
  destruct (filter _ (m_lsps s2)) as [|l0 ls] eqn:F; [reflexivity|]. rewrite <- F.
  set (fs := filter _ (m_lsps s2)).
  assert (X : forall l, In l fs -> lsp_routed s2 l = false).
  { intros l Hl. apply filter_In in Hl as [L1 L2]. apply andb_true_iff in L2 as [L2 L3]. apply String.eqb_eq in L2. apply String.eqb_eq in L3.
    unfold lsp_routed. rewrite <- (sm_lpath _ _ _ _ _ _ _ _ Sm l HE N). rewrite NL; [reflexivity|]. unfold lsp_of.
    rewrite (sm_from _ _ _ _ _ _ _ _ Sm), (sm_to _ _ _ _ _ _ _ _ Sm), (sm_lfrom _ _ _ _ _ _ _ _ Sm), (sm_lto _ _ _ _ _ _ _ _ Sm) by auto.
    destruct (sm_lsps' _ _ _ _ _ _ _ _ Sm HE N) as (-> & _). auto. }
  replace (filter (lsp_routed s2) fs) with (@nil nat); [reflexivity|]. symmetry. clear F. clearbody fs.
  induction fs as [|x l IH]; auto. simpl. rewrite X by (left; auto). apply IH. intros y Hy. apply X. right. exact Hy.
Qed.

Lemma sm_igp d : texts_distinct s -> In d (m_dms s) -> no_lsp_for s' d -> no_shortcuts_for k s' d ->
  (d_path (h_dm s' d) = DUnrouted /\ forall p, ~ route s' (usable s') (dmd_from s' d) p (dmd_to s' d)) \/
  exists L, L <> [] /\ d_path (h_dm s' d) = DPaths (map (map IIf) L) /\ NoDup L /\
     forall p, In p L <-> least_cost s' (usable s') (dmd_from s' d) p (dmd_to s' d).
Proof.
  intros TD Hd NL NS. assert (R := sm_demand _ _ _ _ _ _ _ _ Sm d HE N Hd). unfold rpath in R.
  rewrite (sm_no_e2e d TD Hd NL) in R. cbn [rbind] in R. fold G in R. assert (A := sm_asp (dsrc s2 d) (ddst s2 d)).
  rewrite (sm_from _ _ _ _ _ _ _ _ Sm), (sm_to _ _ _ _ _ _ _ _ Sm) by auto.
  destruct (nx_asp E G (dsrc s2 d) (ddst s2 d)) as [nps| |]; [right| |discriminate R].
  - destruct A as (A1 & A2 & (p0 & A3) & A4). exists (iface_paths k s2 G nps).
    assert (NE : iface_paths k s2 G nps <> []).
    { intros X. assert (I : exists p, In p nps). 
      { assert (B := ok_asp E HE G (dsrc s2 d) (ddst s2 d) sm_Gpos).
        assert (W := proj2 (sm_route (dsrc s2 d) p0 (ddst s2 d)) A3).
        apply (route_walk k s2 (considered s2 false 0 false) (node_names s2) sm_N2 sm_nopar) in W. 
        apply (shortest_exists G _ _ _ sm_Gpos) in W as (es' & W).
        apply (shortest_walk_least k s2 (considered s2 false 0 false) (node_names s2) sm_N2 sm_nopar) in W as (p & -> & L).
        apply sm_least in L. apply A2 in L. rewrite X in L. destruct L. }
      destruct I as (np & Hnp). destruct (A4 np Hnp) as (p & L & _). apply A2 in L. rewrite X in L. destruct L. }
    split; [exact NE|]. split; [|split; auto].
    destruct (kind_dec k) as [Hk|Hk].
    + assert (NoSc : forall r, snd (find_igp_shortcuts E k (map (map IIf) (iface_paths k s2 G nps)) nps s2) = Ok r -> r = map (map IIf) (iface_paths k s2 G nps)).
      { intros r Hr. assert (Kn := shortcuts_known _ _ _ _ Hr). destruct (iface_paths k s2 G nps) as [|q0 L0] eqn:IL; [congruence|]. rewrite <- IL in *.
        rewrite (shortcuts_none s2 _ (route_cost s2 q0) nps) in Hr; [congruence|apply (sm_12 _ _ _ _ _ _ _ _ Sm)| |].
        2:{ intros p Hp. apply A2, sm_least in Hp. assert (Hq : In q0 (iface_paths k s2 G nps)) by (rewrite IL; left; auto).
            apply A2, sm_least in Hq. destruct Hp as [P1 P2], Hq as [Q1 Q2]. specialize (P2 _ Q1). specialize (Q2 _ P1). lia. }
        intros np Hnp. split; [|eauto]. destruct (A4 np Hnp) as (p & L & ->).
        destruct (sm_lsps' _ _ _ _ _ _ _ _ Sm HE N) as (M0 & _ & M1 & M2).
        intros a nd b m Hnd SC Enp Hm l Hl LR Key. unfold nd_name in Enp, Key. rewrite <- M2 in Enp, Key, SC. 
        assert (Dg : forall d, In d (m_dms s) -> dmd_from s' d = dsrc s2 d /\ dmd_to s' d = ddst s2 d).
        { intros x Hx. split; [apply (sm_from _ _ _ _ _ _ _ _ Sm); auto|apply (sm_to _ _ _ _ _ _ _ _ Sm); auto]. }
        destruct (Dg d Hd) as [D1 D2]. rewrite <- M1 in Hnd. rewrite <- M0 in Hl.
        apply (NS Hk p a nd b m l); auto.
        - rewrite D1, D2. exact L.
        - rewrite D1. exact Enp.
        - unfold lsp_routed in LR. rewrite <- (sm_lpath _ _ _ _ _ _ _ _ Sm l HE N) in LR. intros Z0. rewrite Z0 in LR. discriminate LR.
        - rewrite (sm_lfrom _ _ _ _ _ _ _ _ Sm), (sm_lto _ _ _ _ _ _ _ _ Sm) by auto. exact Key. }
      revert R NoSc. generalize (find_igp_shortcuts E k). generalize G. rewrite Hk. intros G0 f R NoSc.
      destruct (snd (f _ nps s2)) as [r|e]; cbn [rbind] in R; [|discriminate R]. rewrite <- (NoSc r eq_refl). congruence.
    + revert R. generalize (find_igp_shortcuts E k). generalize G. rewrite Hk. intros G0 f R. cbn [rbind] in R. congruence.
  - left. split; [congruence|exact A].
Qed.
End Done.

Lemma igp_path s s' d : NoDup (m_ifs s) -> (forall i, In i (m_ifs s) -> 1 <= i_cost (h_if s i)) -> texts_distinct s ->
  update_simulation E k s = (s', Ok tt) -> same_failures s s' -> In d (m_dms s) -> no_lsp_for s' d -> no_shortcuts_for k s' d ->
  (d_path (h_dm s' d) = DUnrouted /\ forall p, ~ route s' (usable s') (dmd_from s' d) p (dmd_to s' d)) \/
  exists L, L <> [] /\ d_path (h_dm s' d) = DPaths (map if_path L) /\ NoDup L /\
     forall p, In p L <-> least_cost s' (usable s') (dmd_from s' d) p (dmd_to s' d).
Proof.
  intros N C TD U St Hd NL NS. destruct (simulated_ex _ _ _ _ U) as (s1 & s2 & s3 & s4 & Sm).
  apply (sm_igp _ _ _ _ _ _ Sm N C St d TD Hd NL NS).
Qed.

Lemma igp_paths s s' d : NoDup (m_ifs s) -> (forall i, In i (m_ifs s) -> 1 <= i_cost (h_if s i)) -> texts_distinct s ->
  update_simulation E k s = (s', Ok tt) -> same_failures s s' -> In d (m_dms s) -> no_lsp_for s' d -> no_shortcuts_for k s' d ->
  match d_path (h_dm s' d) with
  | DUnrouted => forall p, ~ least_cost s' (usable s') (dmd_from s' d) p (dmd_to s' d)
  | DPaths ps => exists L, ps = map if_path L /\ L <> [] /\ NoDup L /\
                   forall p, In p L <-> least_cost s' (usable s') (dmd_from s' d) p (dmd_to s' d)
  end.
Proof.
  intros N C TD U St Hd NL NS. destruct (igp_path s s' d N C TD U St Hd NL NS) as [[-> A]|(L & A & -> & B)].
  - intros p [P _]. now apply (A p).
  - exists L. split; [reflexivity|]. tauto.
Qed.

(** Unrouted or not does not depend on the shortcut flags. *)
Lemma igp_unrouted s s' d : NoDup (m_ifs s) -> (forall i, In i (m_ifs s) -> 1 <= i_cost (h_if s i)) -> texts_distinct s ->
  update_simulation E k s = (s', Ok tt) -> same_failures s s' -> In d (m_dms s) -> no_lsp_for s' d ->
  (d_path (h_dm s' d) = DUnrouted <-> forall p, ~ route s' (usable s') (dmd_from s' d) p (dmd_to s' d)).
Proof.
  intros N C TD U St Hd NL. destruct (simulated_ex _ _ _ _ U) as (s1 & s2 & s3 & s4 & Sm).
  assert (R := sm_demand _ _ _ _ _ _ _ _ Sm d HE N Hd). unfold rpath in R.
  rewrite (sm_no_e2e _ _ _ _ _ _ Sm N d TD Hd NL) in R. cbn [rbind] in R.
  assert (A := sm_asp _ _ _ _ _ _ Sm N C St (dsrc s2 d) (ddst s2 d)).
  rewrite (sm_from _ _ _ _ _ _ _ _ Sm), (sm_to _ _ _ _ _ _ _ _ Sm) by auto.
  destruct (nx_asp E _ (dsrc s2 d) (ddst s2 d)) as [nps| |]; [| |discriminate R].
  - destruct A as (_ & _ & (p & A) & _). split; intros X.
    + rewrite X in R. destruct (match k with Flex => _ | Perf => _ end) as [?|?]; discriminate R.
    + destruct (X p A).
  - split; [auto|]. congruence.
Qed.

Lemma route_all s0 ok u p v x : route s0 ok u p v -> In x p -> In x (m_ifs s0) /\ ok x.
Proof. induction 1 as [|i p v Hi Hk R IH]; [intros []|]. intros [<-|Hx]; auto. Qed.

Lemma igp_only_usable s s' d : NoDup (m_ifs s) -> (forall i, In i (m_ifs s) -> 1 <= i_cost (h_if s i)) -> texts_distinct s ->
  update_simulation E k s = (s', Ok tt) -> same_failures s s' -> In d (m_dms s) -> no_lsp_for s' d -> no_shortcuts_for k s' d ->
  forall ps p x, d_path (h_dm s' d) = DPaths ps -> In p ps -> In x p ->
    exists i, x = IIf i /\ In i (m_ifs s') /\ i_failed (h_if s' i) = false /\ i_rsvp (h_if s' i) = true /\
              exists r, reservable s' i r /\ (0 <= r)%Q.
Proof.
  intros N C TD U St Hd NL NS ps p x D Hp Hx. assert (A := igp_paths s s' d N C TD U St Hd NL NS). rewrite D in A.
  destruct A as (L & -> & _ & _ & A). apply in_map_iff in Hp as (q & <- & Hq). apply in_map_iff in Hx as (i & <- & Hi).
  apply A in Hq as [R _]. destruct (route_all _ _ _ _ _ _ R Hi) as [I1 [F (r & X & Y)]]. exists i. split; [reflexivity|]. split; [exact I1|].
  split; [exact F|]. split; [|eauto]. red in X. destruct (i_rsvp (h_if s' i)); auto. rewrite X in Y. exfalso. apply Y. reflexivity.
Qed.

Lemma igp_usable_used s s' d i : NoDup (m_ifs s) -> (forall i, In i (m_ifs s) -> 1 <= i_cost (h_if s i)) -> texts_distinct s ->
  update_simulation E k s = (s', Ok tt) -> same_failures s s' -> In d (m_dms s) -> no_lsp_for s' d -> no_shortcuts_for k s' d ->
  In i (m_ifs s') -> usable s' i -> loc s' i = dmd_from s' d -> rem s' i = dmd_to s' d ->
  (forall p, route s' (usable s') (dmd_from s' d) p (dmd_to s' d) -> i_cost (h_if s' i) <= route_cost s' p) ->
  exists ps, d_path (h_dm s' d) = DPaths ps /\ In [IIf i] ps.
Proof.
  intros N C TD U St Hd NL NS Hi Ui Li Ri Mn. assert (A := igp_paths s s' d N C TD U St Hd NL NS).
  assert (X : least_cost s' (usable s') (dmd_from s' d) [i] (dmd_to s' d)).
  { split; [rewrite <- Li, <- Ri; constructor; auto; constructor|]. intros q Hq. simpl. rewrite Z.add_0_r. auto. }
  destruct (d_path (h_dm s' d)) as [|ps]; [destruct (A _ X)|]. destruct A as (L & -> & _ & _ & A). exists (map if_path L). split; auto.
  change [IIf i] with (if_path [i]). apply in_map, A, X.
Qed.
End Igp.
