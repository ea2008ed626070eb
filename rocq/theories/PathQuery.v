(** PathQuery.v - effective_metric, get_shortest_path and
    get_all_paths_reservable_bw in any state. *)
From Verif Require Import Base Graph Objects Sim Spec SpecCkt SpecSim SpecMetric SpecSig GraphProofs MonadProofs RoundProofs ResProofs ObjProofs CircuitProofs
  PathProofs QuietProofs RouteProofs LeastProofs IgpProofs Ecmp TrafficProofs ShareProofs MetricProofs SpecFlow SpecQuery.
From Coq Require Import Lqa.

Lemma considered_bw s bw i : considered s false bw false i = true <-> usable_bw s bw i.
Proof. unfold considered, usable_bw. simpl. rewrite andb_true_r, andb_true_iff, negb_true_iff, reservable_ge. reflexivity. Qed.
Lemma considered_allowed s f bw i : considered s f bw false i = true <-> allowed s f bw i.
Proof.
  unfold considered, allowed, wide. simpl. rewrite andb_true_r, andb_true_iff, orb_true_iff, negb_true_iff, reservable_ge. reflexivity.
Qed.
Lemma wide_ge s bw i : Qleb bw (reservable_bw s i) = true <-> wide s bw i.
Proof. unfold wide. now rewrite reservable_ge. Qed.

Lemma route_iff s (ok ok' : nat -> Prop) u p v : (forall i, ok i <-> ok' i) -> (route s ok u p v <-> route s ok' u p v).
Proof. intros H. split; induction 1; constructor; auto; now apply H. Qed.
Lemma least_iff s (ok ok' : nat -> Prop) u p v : (forall i, ok i <-> ok' i) -> (least_cost s ok u p v <-> least_cost s ok' u p v).
Proof.
  intros H. unfold least_cost. rewrite (route_iff s ok ok' u p v H). split; intros [A B]; split; auto; intros q Q; apply B; now apply (route_iff s ok ok' u q v H).
Qed.

Section Query.
Variable E : env.
Variable k : kind.
Hypothesis HE : env_ok E.
Variable s : st.
Hypothesis SR : sig_ready k s.
Let ND : NoDup (m_ifs s) := proj1 SR.
Let Cost := proj1 (proj2 SR).
Let NoPar := proj2 (proj2 SR).

(** parallel interfaces along a node path *)
Lemma follow_wide bw q : forall u v p ok, route s ok u q v ->
  (In p (flex_model_paths s bw (route_nodes s u q)) <-> route s (wide s bw) u p v /\ route_nodes s u p = route_nodes s u q).
Proof.
  unfold flex_model_paths, route_nodes. induction q as [|j q IH]; intros u v p ok R.
  - apply route_nil_inv in R as ->. cbn. split.
    + intros [<-|[]]. split; [constructor|reflexivity].
    + intros [_ H]. destruct p; [now left|discriminate H].
  - apply route_cons_inv in R as (-> & Hj & Oj & R). cbn [map]. rewrite hops_cons. cbn [map fst snd]. 
    specialize (IH (rem s j) v). rewrite in_product. split.
    + intros F. inversion F as [|i l p' ls Hi Fp]; subst. apply in_product in Fp. apply (IH p' ok R) in Fp as [R' N'].
      apply filter_In in Hi as [Hi Wi]. apply wide_ge in Wi. unfold ifaces_between in Hi. apply filter_In in Hi as [Hi Ends].
      apply andb_true_iff in Ends as [Ea Eb]. apply String.eqb_eq in Ea, Eb. change (loc s i = loc s j) in Ea. change (rem s i = rem s j) in Eb.
      split; [rewrite <- Ea; constructor; auto; now rewrite Eb|]. cbn [map]. injection N' as N'. rewrite N', Eb. reflexivity.
    + intros [R' N']. destruct p as [|i p]; [discriminate N'|]. cbn [map] in N'. injection N' as Eb N'. 
      apply route_cons_inv in R' as (Ea & Hi & Wi & R'). constructor.
      * apply filter_In. split; [|now apply wide_ge]. unfold ifaces_between. apply filter_In. split; auto.
        change (ilocal s i) with (loc s i). change (iremote s i) with (rem s i). rewrite Ea, Eb, !String.eqb_refl. reflexivity.
      * apply in_product. apply (IH p ok R). rewrite Eb in R'. split; auto. now rewrite N'.
Qed.
Lemma fmp_nodup bw np : NoDup (flex_model_paths s bw np).
Proof.
  apply NoDup_product. intros l Hl. apply in_map_iff in Hl as ([a b] & <- & _). apply NoDup_filter. unfold ifaces_between. now apply NoDup_filter.
Qed.

Lemma nd_names u : In u (node_names s) <-> exists n, In n (m_nds s) /\ nd_name s n = u.
Proof. unfold node_names. rewrite in_map_iff. split; intros (n & A & B); exists n; auto. Qed.

Lemma shortest_run u v bw : (u <> v \/ exists n, In n (m_nds s) /\ nd_name s n = u) ->
  match get_shortest_path E k s u v bw with
  | (Some c, ps) => (exists p, least_cost s (usable_bw s bw) u p v /\ c = route_cost s p) /\ NoDup ps /\
      forall p, In p ps <-> match k with
        | Perf => least_cost s (usable_bw s bw) u p v
        | Flex => exists q, least_cost s (usable_bw s bw) u q v /\ route_nodes s u p = route_nodes s u q /\ route s (wide s bw) u p v
        end
  | (None, ps) => ps = [] /\ forall p, ~ route s (usable_bw s bw) u p v
  end.
Proof.
  intros Huv. unfold get_shortest_path, make_graph. set (ok := considered s false bw false).
  assert (A := asp_paths E k s ok (node_names s) HE ND Cost NoPar u v).
  set (G := mkG (nx_edges k (map (edge_of s) (filter ok (m_ifs s)))) (node_names s)) in *.
  assert (GP := G_pos k s ok (node_names s) ND Cost NoPar). fold G in GP.
  assert (Y := ok_asp E HE G u v GP).
  assert (OK : forall i, ok i = true <-> usable_bw s bw i) by (intros; apply considered_bw).
  assert (LI : forall p, least_cost s (fun i => ok i = true) u p v <-> least_cost s (usable_bw s bw) u p v) by (intros; now apply least_iff).
  destruct (nx_asp E G u v) as [nps| |].
  - destruct A as (A1 & A2 & A3 & A4). destruct Y as (Y1 & Y2 & Y3 & Y4).
    assert (L : exists p, least_cost s (fun i => ok i = true) u p v) by (destruct nps as [|np nps]; [congruence|]; destruct (A4 np (or_introl eq_refl)) as (p & L & _); eauto).
    destruct L as (p0 & L). assert (W := least_shortest k s ok (node_names s) ND NoPar u p0 v L). fold G in W.
    rewrite (ok_len E HE G u v _ GP Y1 W), wcost_route. split; [exists p0; split; [now apply LI|reflexivity]|].
    assert (Hps : forall np, In np nps <-> exists q, least_cost s (fun i => ok i = true) u q v /\ np = route_nodes s u q).
    { intros np. split; [apply A4|]. intros (q & Lq & ->). apply Y4. exists (map (edge_of s) q).
      split; [exact (least_shortest k s ok (node_names s) ND NoPar u q v Lq)|]. symmetry. apply node_path_route. }
    destruct (kind_dec k) as [K|K].
    + rewrite K. assert (X : forall np p, In np nps -> In p (flex_model_paths s bw np) -> route_nodes s u p = np).
      { intros np p Hnp Hp. apply Hps in Hnp as (q & Lq & ->). apply (follow_wide bw q u v p _ (proj1 Lq)) in Hp as [_ ->]. reflexivity. }
      split.
      * apply NoDup_flat_map; auto; [intros; apply fmp_nodup|]. intros x y b Hx Hy Bx By. rewrite <- (X x b Hx Bx). exact (X y b Hy By).
      * intros p. rewrite in_flat_map. split.
        -- intros (np & Hnp & Hp). apply Hps in Hnp as (q & Lq & ->). apply (follow_wide bw q u v p _ (proj1 Lq)) in Hp as [R Np]. exists q. split; [now apply LI|]. auto.
        -- intros (q & Lq & Np & R). apply LI in Lq. exists (route_nodes s u q). split; [apply Hps; eauto|]. apply (follow_wide bw q u v p _ (proj1 Lq)). auto.
    + rewrite K. unfold iface_paths in A1, A3. rewrite K in A1, A3. split; [exact A1|]. intros p. rewrite A3. apply LI.
  - split; [reflexivity|]. intros p R. destruct A as [_ A]. apply (A p). now apply (route_iff s _ (usable_bw s bw) u p v).
  - split; [reflexivity|]. intros p R. destruct Huv as [Huv|Hu]; [|apply nd_names in Hu; contradiction].
    apply Y. apply (route_iff s (fun i => ok i = true) (usable_bw s bw) u p v) in R; auto.
    apply (route_walk k s ok (node_names s) ND NoPar) in R. fold G in R.
    inversion R as [n Q1 Q2 Q3|e es d0 He W Q1 Q2 Q3]; [congruence|]. unfold in_graph. right. exists e. auto.
Qed.

(** effective_metric *)
Lemma emet_metric0 l m : says_unrouted (l_path (h_ls s l)) = false -> (lsp_from s l <> lsp_to s l \/ exists n, In n (m_nds s) /\ nd_name s n = lsp_from s l) ->
  emet E k s l = Ok m -> metric s l (mopt m).
Proof.
  intros Pl Ne. unfold emet, metric, omm, mstate_of. rewrite Pl.
  assert (X : forall r, (match fst (get_shortest_path E k s (lsrc s l) (ldst s l) 0) with Some c => Ok (MInt c) | None => Ok MNone end = Ok m) ->
     match mopt m with Some c => exists p, least_cost s (usable s) (lsp_from s l) p (lsp_to s l) /\ c = route_cost s p
      | None => forall p, ~ route s (usable s) (lsp_from s l) p (lsp_to s l) end \/ r).
  { intros r H. left. assert (S := shortest_run (lsp_from s l) (lsp_to s l) 0 Ne).
    change (lsrc s l) with (lsp_from s l) in H. change (ldst s l) with (lsp_to s l) in H.
    destruct (get_shortest_path E k s (lsp_from s l) (lsp_to s l) 0) as [[z|] ps]; cbn [fst] in H; injection H as <-; cbn [mopt]; apply S. }
  destruct (l_imm (h_ls s l)) as [z|].
  - destruct (z =? 0)%Z eqn:Z; [|].
    + destruct (l_mm (h_ls s l)) as [y|]; [intros H; injection H as <-; reflexivity|]. intros H. destruct (X False H); tauto.
    + destruct (0 <? z)%Z eqn:P; intros H; [injection H as <-; reflexivity|discriminate H].
  - destruct (l_mm (h_ls s l)) as [y|]; [intros H; injection H as <-; reflexivity|]. intros H. destruct (X False H); tauto.
Qed.
Lemma emet_metric l m : routed_lsp s l -> (lsp_from s l <> lsp_to s l \/ exists n, In n (m_nds s) /\ nd_name s n = lsp_from s l) ->
  emet E k s l = Ok m -> metric s l (mopt m).
Proof. intros (p & c & b & Pl). apply emet_metric0. now rewrite Pl. Qed.

(** get_all_paths_reservable_bw *)
Lemma simple_walk_route ok cutoff u np v : let G := mkG (nx_edges k (map (edge_of s) (filter ok (m_ifs s)))) (node_names s) in
  (exists es, walk G u es v /\ np = node_path u es /\ NoDup np /\ es <> [] /\ (List.length es <= cutoff)%nat) <->
  exists q, simple_route s (fun i => ok i = true) u q v cutoff /\ np = route_nodes s u q.
Proof.
  intros G. unfold simple_route. split.
  - intros (es & W & -> & N & Ne & L). apply (walk_route k s ok (node_names s) ND NoPar) in W as (q & -> & R). exists q.
    rewrite node_path_route in *. rewrite map_length in L. split; auto. split; auto. split; auto. split; auto. intros ->. now apply Ne.
  - intros (q & (R & N & Ne & L) & ->). exists (map (edge_of s) q). split; [now apply (route_walk k s ok (node_names s) ND NoPar)|].
    rewrite node_path_route, map_length. split; auto. split; auto. split; auto. intros Z. apply Ne. now apply map_eq_nil in Z.
Qed.
Lemma path_eqb_eq p q : path_eqb p q = true <-> p = q.
Proof. unfold path_eqb. destruct (list_eq_dec string_dec p q); split; intros; auto; discriminate. Qed.

Lemma all_paths_run u v f cutoff bw : node_of s u -> node_of s v ->
  exists ps, get_all_paths E k s u v f cutoff bw = Ok ps /\ (k = Flex -> NoDup ps) /\
    forall p, In p ps <-> match k with
        | Perf => simple_route s (allowed s f bw) u p v cutoff
        | Flex => exists q, simple_route s (allowed s f bw) u q v cutoff /\ route_nodes s u p = route_nodes s u q /\ route s (wide s bw) u p v
        end.
Proof.
  intros Hu Hv. unfold get_all_paths, make_graph. set (ok := considered s f bw false).
  assert (OK : forall i, ok i = true <-> allowed s f bw i) by (intros; apply considered_allowed).
  assert (SI : forall p, simple_route s (fun i => ok i = true) u p v cutoff <-> simple_route s (allowed s f bw) u p v cutoff).
  { intros p. unfold simple_route. rewrite (route_iff s (fun i => ok i = true) (allowed s f bw) u p v OK). reflexivity. }
  assert (SW := simple_walk_route ok cutoff u). cbv zeta in SW.
  set (G := mkG (nx_edges k (map (edge_of s) (filter ok (m_ifs s)))) (node_names s)) in *.
  assert (Iv : in_graph G v) by (left; apply nd_names; exact Hv).
  assert (Y := ok_simple E HE G u v cutoff Iv). destruct (nx_simple E G u v cutoff) as [nps| |]; [|destruct Y|].
  2:{ exfalso. apply Y. left. now apply nd_names. }
  destruct Y as [_ Y]. 
  assert (Hps : forall np, In np nps <-> exists q, simple_route s (fun i => ok i = true) u q v cutoff /\ np = route_nodes s u q).
  { intros np. rewrite Y. apply SW. }
  eexists. split; [reflexivity|]. destruct (kind_dec k) as [K|K]; rewrite K.
  - destruct (dedup_spec path_eqb nps) as [D1 D2]; [intros; apply path_eqb_eq|]. split.
    + intros _. apply NoDup_flat_map; auto; [intros; apply fmp_nodup|]. 
      assert (X : forall np p, In np (dedup_by path_eqb nps) -> In p (flex_model_paths s bw np) -> route_nodes s u p = np).
      { intros np p Hnp Hp. apply D2, Hps in Hnp as (q & Lq & ->). apply (follow_wide bw q u v p _ (proj1 Lq)) in Hp as [_ ->]. reflexivity. }
      intros x y b Hx Hy Bx By. rewrite <- (X x b Hx Bx). exact (X y b Hy By).
    + intros p. rewrite in_flat_map. split.
      * intros (np & Hnp & Hp). apply D2, Hps in Hnp as (q & Lq & ->). apply (follow_wide bw q u v p _ (proj1 Lq)) in Hp as [R Np]. exists q. split; [now apply SI|]. auto.
      * intros (q & Lq & Np & R). apply SI in Lq. exists (route_nodes s u q). split; [apply D2, Hps; eauto|]. apply (follow_wide bw q u v p _ (proj1 Lq)). auto.
  - split; [discriminate|]. intros p. rewrite in_map_iff. split.
    + intros (np & <- & Hnp). apply Hps in Hnp as (q & Lq & ->). apply SI. rewrite (perf_path_route k s ok NoPar q K u v); [exact Lq|apply Lq].
    + intros Lp. apply SI in Lp. exists (route_nodes s u p). split; [|apply Hps; eauto]. apply (perf_path_route k s ok NoPar p K u v). apply Lp.
Qed.

(** effective_metric in full *)
Lemma effective_run l : (lsp_from s l <> lsp_to s l \/ node_of s (lsp_from s l)) ->
  exists s1 r, effective_metric E k l s = (s1, r) /\ quiet E s s1 /\
    match mstate_of (h_ls s l) with
    | Pending c => if (0 <? c)%Z then r = Ok (MInt c) else exists msg, r = Err (ModelException msg)
    | Current (Some c) => r = Ok (MInt c)
    | Current None =>
        match l_path (h_ls s l) with
        | PInit | PUnrouted => r = Ok MUnrouted
        | _ => exists m, metric s l m /\ r = Ok match m with Some c => MInt c | None => MNone end
        end
    end.
Proof.
  intros Ne. destruct (effective_metric_run E k l s) as (s1 & R & Qs). exists s1, (emet E k s l). split; [exact R|]. split; [exact Qs|].
  assert (M := emet_metric0 l). revert M. unfold emet, omm, mstate_of, metric, mstate_of.
  destruct (l_imm (h_ls s l)) as [z|].
  - destruct (z =? 0)%Z eqn:Z.
    + destruct (l_mm (h_ls s l)) as [y|]; [reflexivity|]. intros M. destruct (l_path (h_ls s l)) eqn:P; cbn [says_unrouted] in *; auto;
      (destruct (fst _) as [c0|]; eexists; (split; [apply (M _ eq_refl Ne eq_refl)|reflexivity])).
    + destruct (0 <? z)%Z eqn:P; intros _; eauto.
  - destruct (l_mm (h_ls s l)) as [y|]; [reflexivity|]. intros M. destruct (l_path (h_ls s l)) eqn:P; cbn [says_unrouted] in *; auto;
    (destruct (fst _) as [c0|]; eexists; (split; [apply (M _ eq_refl Ne eq_refl)|reflexivity])).
Qed.
End Query.
