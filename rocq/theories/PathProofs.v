(** PathProofs.v - the interface paths computed from a graph are exactly the
    least-cost routes over the interfaces the graph was built from. *)
From Verif Require Import Base Graph Objects Sim Spec SpecCkt GraphProofs MonadProofs ObjProofs CircuitProofs.

(** ** Routes *)
Lemma route_ext s ok ok' u p v : (forall i, In i (m_ifs s) -> (ok i <-> ok' i)) -> route s ok u p v -> route s ok' u p v.
Proof. intros H R. induction R; constructor; auto. now apply H. Qed.
Lemma least_cost_ext s ok ok' u p v : (forall i, In i (m_ifs s) -> (ok i <-> ok' i)) ->
  (least_cost s ok u p v <-> least_cost s ok' u p v).
Proof.
  intros H. assert (H' : forall i, In i (m_ifs s) -> (ok' i <-> ok i)) by (intros; symmetry; auto).
  split; intros [R M]; (split; [eapply route_ext; eauto|]); intros q Q; apply M; eapply route_ext; eauto.
Qed.
Lemma route_nil_inv s ok u v : route s ok u [] v -> u = v.
Proof. inversion 1; auto. Qed.
Lemma route_cons_inv s ok u i p v : route s ok u (i :: p) v -> u = loc s i /\ In i (m_ifs s) /\ ok i /\ route s ok (rem s i) p v.
Proof. inversion 1; subst; auto. Qed.
Lemma route_app s ok u p v q w : route s ok u p v -> route s ok v q w -> route s ok u (p ++ q) w.
Proof. induction 1; simpl; auto. intros. constructor; auto. Qed.
Lemma route_app_inv s ok p : forall u q w, route s ok u (p ++ q) w -> exists v, route s ok u p v /\ route s ok v q w.
Proof.
  induction p as [|i p IH]; simpl; intros u q w H; [exists u; split; auto; constructor|].
  apply route_cons_inv in H as (-> & Hi & Ho & H). apply IH in H as (v & H1 & H2). exists v. split; auto. constructor; auto.
Qed.
Lemma route_in s ok u p v : route s ok u p v -> forall i, In i p -> In i (m_ifs s) /\ ok i.
Proof. induction 1; simpl; [tauto|]. intros j [->|Hj]; auto. Qed.
Lemma route_end s ok u p v v' : route s ok u p v -> route s ok u p v' -> v = v'.
Proof. intros H; revert v'; induction H; intros v' H'; [now inversion H'|]. apply route_cons_inv in H' as (_ & _ & _ & H'). auto. Qed.
Lemma route_cost_app s p q : route_cost s (p ++ q) = route_cost s p + route_cost s q.
Proof. induction p; simpl; auto. rewrite IHp. lia. Qed.

(** ** Products *)
Lemma in_product {A} (ls : list (list A)) : forall p, In p (product ls) <-> Forall2 (fun x l => In x l) p ls.
Proof.
  induction ls as [|l ls IH]; intros p; simpl.
  - split; [intros [<-|[]]; constructor|]. inversion 1; auto.
  - rewrite in_flat_map. split.
    + intros (x & Hx & H). apply in_map_iff in H as (q & <- & Hq). constructor; auto. now apply IH.
    + inversion 1 as [|x l' q ls' Hx Hq]; subst. exists x. split; auto. apply in_map. now apply IH.
Qed.

Lemma NoDup_app_disj {A} (l1 l2 : list A) : NoDup l1 -> NoDup l2 -> (forall x, In x l1 -> ~ In x l2) -> NoDup (l1 ++ l2).
Proof.
  intros D1 D2 D. induction l1 as [|x l1 IH]; simpl; auto. inversion D1; subst. constructor.
  - rewrite in_app_iff. intros [C|C]; auto. apply (D x); simpl; auto.
  - apply IH; auto. intros y Hy. apply D. simpl; auto.
Qed.

Lemma NoDup_flat_map {A B} (f : A -> list B) l : NoDup l -> (forall x, In x l -> NoDup (f x)) ->
  (forall x y b, In x l -> In y l -> In b (f x) -> In b (f y) -> x = y) -> NoDup (flat_map f l).
Proof.
  intros N. induction N as [|x l Nx N IH]; simpl; intros D I; [constructor|]. apply NoDup_app_disj.
  - apply D. auto.
  - apply IH; auto. intros y z b Hy Hz. apply I; auto.
  - intros b Hb C. apply in_flat_map in C as (y & Hy & C). assert (x = y) by (apply (I x y b); auto). subst. auto.
Qed.

Lemma NoDup_map_cons {A} (x : A) l : NoDup l -> NoDup (map (cons x) l).
Proof.
  induction 1 as [|y l Hy N IH]; simpl; constructor; auto. intros C. apply in_map_iff in C as (z & E & Hz). injection E as ->. auto.
Qed.

Lemma NoDup_product {A} (ls : list (list A)) : (forall l, In l ls -> NoDup l) -> NoDup (product ls).
Proof.
  induction ls as [|l ls IH]; simpl; intros D; [repeat constructor; auto|].
  apply NoDup_flat_map; [apply D; auto| |].
  - intros x _. apply NoDup_map_cons. apply IH. auto.
  - intros x y b _ _ Hx Hy. apply in_map_iff in Hx as (p & <- & _). apply in_map_iff in Hy as (q & E & _). congruence.
Qed.

Lemma NoDup_map_inj_in {A B} (f : A -> B) l : NoDup l -> (forall x y, In x l -> In y l -> f x = f y -> x = y) -> NoDup (map f l).
Proof.
  induction 1 as [|x l Hx N IH]; simpl; intros I; constructor.
  - intros C. apply in_map_iff in C as (y & E & Hy). assert (y = x) by (apply I; auto). subst. auto.
  - apply IH. intros; apply I; auto.
Qed.

Lemma NoDup_filter {A} (f : A -> bool) l : NoDup l -> NoDup (filter f l).
Proof. apply NoDup_filter'. Qed.

Lemma kind_dec (k : kind) : {k = Flex} + {k = Perf}.
Proof. destruct k; auto. Qed.

(** ** The graph of a set of interfaces *)
Section Paths.
Variables (k : kind) (s : st) (ok : nat -> bool) (names : list string).
Hypothesis ND : NoDup (m_ifs s).
Hypothesis Cost : forall i, In i (m_ifs s) -> 1 <= i_cost (h_if s i).
Hypothesis NoPar : k = Perf -> forall i j, In i (m_ifs s) -> In j (m_ifs s) -> loc s i = loc s j -> rem s i = rem s j -> i = j.

Let ifs := filter ok (m_ifs s).
Let G := mkG (nx_edges k (map (edge_of s) ifs)) names.
Let okp := fun i => ok i = true.

Lemma G_edges : g_edges G = map (edge_of s) ifs.
Proof.
  subst G. simpl. destruct k; [reflexivity|]. unfold nx_edges. rewrite di_fold_id; [reflexivity|]. simpl.
  rewrite map_map. apply NoDup_map_inj_in; [now apply NoDup_filter|].
  intros i j Hi Hj E. injection E as E1 E2. apply filter_In in Hi as [Hi _]. apply filter_In in Hj as [Hj _]. now apply NoPar.
Qed.

Lemma in_ifs i : In i ifs <-> In i (m_ifs s) /\ ok i = true.
Proof. apply filter_In. Qed.

Lemma G_edge e : In e (g_edges G) <-> exists i, e = edge_of s i /\ In i ifs.
Proof. rewrite G_edges, in_map_iff. split; intros (i & H1 & H2); exists i; auto. Qed.

Lemma G_pos : costs_positive G.
Proof. intros e He. apply G_edge in He as (i & -> & Hi). apply in_ifs in Hi as [Hi _]. simpl. auto. Qed.

Lemma route_walk u p v : route s okp u p v -> walk G u (map (edge_of s) p) v.
Proof.
  induction 1; simpl; [constructor|]. change (loc s i) with (e_u (edge_of s i)). constructor; auto.
  apply G_edge. exists i. split; auto. apply in_ifs. auto.
Qed.
Lemma walk_route u w v : walk G u w v -> exists p, w = map (edge_of s) p /\ route s okp u p v.
Proof.
  induction 1 as [u|e es v He W IH]; [exists []; split; auto; constructor|].
  destruct IH as (p & -> & R). apply G_edge in He as (i & -> & Hi). apply in_ifs in Hi as [Hi Ho]. exists (i :: p). split; auto.
  simpl. change (ilocal s i) with (loc s i). constructor; auto.
Qed.
Lemma wcost_route p : wcost (map (edge_of s) p) = route_cost s p.
Proof. induction p; simpl; auto. rewrite wcost_cons, IHp. reflexivity. Qed.
Lemma shortest_least u p v : shortest_walk G u (map (edge_of s) p) v -> route s okp u p v -> least_cost s okp u p v.
Proof. intros [_ M] R. split; auto. intros q Q. rewrite <- !wcost_route. apply M. now apply route_walk. Qed.
Lemma least_shortest u p v : least_cost s okp u p v -> shortest_walk G u (map (edge_of s) p) v.
Proof.
  intros [R M]. split; [now apply route_walk|]. intros w W. apply walk_route in W as (q & -> & Q). rewrite !wcost_route. auto.
Qed.
Lemma node_path_route u p : node_path u (map (edge_of s) p) = route_nodes s u p.
Proof. unfold node_path, route_nodes. rewrite map_map. reflexivity. Qed.

Lemma shortest_walk_least u w v : shortest_walk G u w v <-> exists p, w = map (edge_of s) p /\ least_cost s okp u p v.
Proof.
  split.
  - intros H. destruct (walk_route _ _ _ (proj1 H)) as (p & -> & R). exists p. split; auto. now apply shortest_least.
  - intros (p & -> & L). now apply least_shortest.
Qed.

(** Parallel interfaces of least cost *)
Definition cheapest (a b : string) (i : nat) : Prop :=
  In i ifs /\ loc s i = a /\ rem s i = b /\ forall j, In j ifs -> loc s j = a -> rem s j = b -> i_cost (h_if s i) <= i_cost (h_if s j).

Lemma in_hop_edges a b e : In e (hop_edges G a b) <-> exists i, e = edge_of s i /\ In i ifs /\ loc s i = a /\ rem s i = b.
Proof.
  unfold hop_edges. rewrite filter_In, andb_true_iff, !String.eqb_eq, G_edge. split.
  - intros ((i & -> & Hi) & H1 & H2). exists i. auto.
  - intros (i & -> & Hi & H1 & H2). split; eauto.
Qed.

Lemma in_ecmp a b i : In i (ecmp_links G a b) <-> cheapest a b i.
Proof.
  unfold ecmp_links, cheapest. destruct (Zmin_list _) as [c|] eqn:Z.
  - apply Zmin_list_some in Z as [Zin Zle]. rewrite in_map_iff. split.
    + intros (e & <- & He). apply filter_In in He as [He Hc]. apply Z.eqb_eq in Hc. apply in_hop_edges in He as (j & -> & Hj & H1 & H2). simpl in *.
      repeat split; auto. intros j' Hj' L R. rewrite Hc. apply Zle. apply in_map_iff. exists (edge_of s j'). split; auto. apply in_hop_edges. eauto.
    + intros (Hi & H1 & H2 & M). exists (edge_of s i). split; auto. apply filter_In. split; [apply in_hop_edges; eauto|].
      apply Z.eqb_eq. apply in_map_iff in Zin as (e & <- & He). apply in_hop_edges in He as (j & -> & Hj & L & R). simpl.
      assert (X : e_c (edge_of s j) <= e_c (edge_of s i)) by (apply Zle; apply in_map; apply in_hop_edges; eauto).
      simpl in X. specialize (M j Hj L R). lia.
  - apply Zmin_list_none in Z. split; [intros []|]. intros (Hi & H1 & H2 & _).
    assert (X : In (edge_of s i) (hop_edges G a b)) by (apply in_hop_edges; eauto). apply map_eq_nil in Z. rewrite Z in X. destruct X.
Qed.

Lemma ecmp_nodup a b : NoDup (ecmp_links G a b).
Proof.
  assert (X : forall l, (forall e, In e l -> exists i, e = edge_of s i) -> NoDup l -> NoDup (map e_i l)).
  { intros l H N. apply NoDup_map_inj_in; auto. intros x y Hx Hy E. apply H in Hx as (i & ->). apply H in Hy as (j & ->). simpl in E. now subst. }
  unfold ecmp_links. destruct (Zmin_list _) as [c|]; [|constructor]. apply X.
  - intros e He. apply filter_In in He as [He _]. apply in_hop_edges in He as (i & -> & _). eauto.
  - apply NoDup_filter. unfold hop_edges. apply NoDup_filter. rewrite G_edges.
    apply NoDup_map_inj_in; [apply NoDup_filter; exact ND|]. intros i j _ _ E. injection E as _ _ _ E. exact E.
Qed.

(** [p] follows the nodes of [q] over cheapest links *)
Lemma hops_cons (a b : string) l : hops (a :: b :: l) = (a, b) :: hops (b :: l).
Proof. reflexivity. Qed.

Lemma follow q : forall u v p, route s okp u q v ->
  Forall2 (fun x l => In x l) p (map (fun uv => ecmp_links G (fst uv) (snd uv)) (hops (route_nodes s u q))) ->
  route s okp u p v /\ route_cost s p <= route_cost s q /\ route_nodes s u p = route_nodes s u q.
Proof.
  unfold route_nodes. induction q as [|j q IH]; intros u v p R F; cbn [map] in F.
  - simpl in F. inversion F; subst. split; auto. simpl. split; [lia|auto].
  - rewrite hops_cons in F. simpl in F. inversion F as [|i l p' ls Hi Fp]; subst.
    apply route_cons_inv in R as (-> & Hj & Oj & R). apply in_ecmp in Hi as (Hi & L & Rm & M).
    destruct (IH (rem s j) v p' R) as (R' & C' & N').
    { exact Fp. }
    assert (Hj' : In j ifs) by (apply in_ifs; auto). specialize (M j Hj' eq_refl eq_refl). apply in_ifs in Hi as [Hi Oi].
    split; [|split].
    + rewrite <- L. constructor; auto. now rewrite Rm.
    + simpl. lia.
    + simpl. rewrite Rm. injection N' as N'. now rewrite N'.
Qed.

Lemma least_follow q : forall u v, least_cost s okp u q v ->
  Forall2 (fun x l => In x l) q (map (fun uv => ecmp_links G (fst uv) (snd uv)) (hops (route_nodes s u q))).
Proof.
  unfold route_nodes. induction q as [|j q IH]; intros u v [R M]; cbn [map]; [constructor|].
  apply route_cons_inv in R as (-> & Hj & Oj & R). rewrite hops_cons. cbn [map fst snd]. constructor.
  - apply in_ecmp. split; [apply in_ifs; auto|]. split; auto. split; auto. intros i Hi L Rm. apply in_ifs in Hi as [Hi Oi].
    assert (Q : route s okp (loc s j) (i :: q) v) by (rewrite <- L; constructor; auto; now rewrite Rm).
    specialize (M _ Q). simpl in M. lia.
  - apply (IH (rem s j) v). split; auto. intros q' Q'. assert (Q : route s okp (loc s j) (j :: q') v) by (constructor; auto).
    specialize (M _ Q). simpl in M. lia.
Qed.

(** PerformanceModel: the path of first matches *)
Lemma perf_path_route q : k = Perf -> forall u v, route s okp u q v -> perf_path s (route_nodes s u q) = q.
Proof.
  intros Hk. unfold perf_path, route_nodes. induction q as [|j q IH]; intros u v R; [reflexivity|].
  apply route_cons_inv in R as (-> & Hj & Oj & R). cbn [map]. rewrite hops_cons. cbn [flat_map].
  rewrite (IH _ _ R). destruct (first_between_some s (loc s j) (rem s j)) as [i Hi]; [eauto|]. cbn [fst snd]. rewrite Hi.
  apply first_between_in in Hi as (Hi & L & Rm). rewrite (NoPar Hk i j); auto.
Qed.

Lemma iface_paths_spec ps u v : NoDup ps ->
  (forall p, In p ps <-> exists es, shortest_walk G u es v /\ p = node_path u es) ->
  NoDup (iface_paths k s G ps) /\ forall p, In p (iface_paths k s G ps) <-> least_cost s okp u p v.
Proof.
  intros Nps Hps.
  assert (Hps' : forall np, In np ps <-> exists q, least_cost s okp u q v /\ np = route_nodes s u q).
  { intros np. rewrite Hps. split.
    - intros (es & H & ->). apply shortest_walk_least in H as (q & -> & L). exists q. split; auto. apply node_path_route.
    - intros (q & L & ->). exists (map (edge_of s) q). split; [now apply least_shortest|]. symmetry. apply node_path_route. }
  assert (Hk : (k = Flex /\ iface_paths k s G ps = flat_map (flex_paths G) ps) \/ (k = Perf /\ iface_paths k s G ps = map (perf_path s) ps)).
  { generalize G. intros G0. destruct (kind_dec k) as [H|H]; rewrite H; [left|right]; split; auto. }
  destruct Hk as [[Hk IF]|[Hk IF]].
  - rewrite IF. assert (X : forall np p, In np ps -> In p (flex_paths G np) -> least_cost s okp u p v /\ route_nodes s u p = np).
    { intros np p Hnp Hp. apply Hps' in Hnp as (q & L & ->). unfold flex_paths in Hp. apply in_product in Hp.
      destruct (follow q u v p (proj1 L) Hp) as (R & C & N). split; auto. split; auto. intros q' Q'. apply (proj2 L) in Q'. lia. }
    split.
    + apply NoDup_flat_map; auto.
      * intros np Hnp. unfold flex_paths. apply NoDup_product. intros l Hl. apply in_map_iff in Hl as ([a b] & <- & _). apply ecmp_nodup.
      * intros x y b Hx Hy Bx By. apply X in Bx as [_ <-]; auto. apply X in By as [_ <-]; auto.
    + intros p. rewrite in_flat_map. split.
      * intros (np & Hnp & Hp). now apply (X np p).
      * intros L. exists (route_nodes s u p). split; [apply Hps'; eauto|]. unfold flex_paths. apply in_product. now apply (least_follow p u v).
  - rewrite IF. assert (X : forall np, In np ps -> least_cost s okp u (perf_path s np) v /\ route_nodes s u (perf_path s np) = np).
    { intros np Hnp. apply Hps' in Hnp as (q & L & ->). rewrite (perf_path_route q) with (v := v); auto. apply (proj1 L). }
    split.
    + apply NoDup_map_inj_in; auto. intros x y Hx Hy E. destruct (X x Hx) as [_ <-]. destruct (X y Hy) as [_ <-]. congruence.
    + intros p. rewrite in_map_iff. split.
      * intros (np & <- & Hnp). now apply X.
      * intros L. exists (route_nodes s u p). split; [|apply Hps'; eauto]. apply (perf_path_route p) with (v := v); auto. apply (proj1 L).
Qed.
End Paths.
