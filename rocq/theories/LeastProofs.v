(** LeastProofs.v - least-cost routes are simple and can be recombined; what
    networkx finds in a graph built from interfaces. *)
From Verif Require Import Base Graph Objects Sim Spec GraphProofs MonadProofs PathProofs.

Section Least.
Variables (s : st) (ok : nat -> Prop).
Hypothesis Cost : forall i, In i (m_ifs s) -> 1 <= i_cost (h_if s i).

Lemma route_cost_nonneg u p v : route s ok u p v -> 0 <= route_cost s p.
Proof. induction 1 as [|i p v Hi Ho R IH]; simpl; [lia|]. specialize (Cost i Hi). lia. Qed.
Lemma route_cost_pos u p v : route s ok u p v -> p <> [] -> 1 <= route_cost s p.
Proof. intros R. destruct R as [|i p v Hi Ho R]; [congruence|]. intros _. simpl. apply route_cost_nonneg in R. specialize (Cost i Hi). lia. Qed.

Lemma route_cut u p v n : route s ok u p v -> In n (route_nodes s u p) -> exists x y, p = x ++ y /\ route s ok u x n /\ route s ok n y v.
Proof.
  unfold route_nodes. induction 1 as [n'|i p v Hi Ho R IH]; intros Hn.
  - destruct Hn as [<-|[]]. exists [], []. repeat split; constructor.
  - simpl in Hn. destruct Hn as [<-|Hn]; [exists [], (i :: p); repeat split; constructor; auto|].
    destruct (IH Hn) as (x & y & -> & A & B). exists (i :: x), y. repeat split; auto. constructor; auto.
Qed.

Lemma least_tail i p v u : least_cost s ok u (i :: p) v -> least_cost s ok (rem s i) p v.
Proof.
  intros [R M]. apply route_cons_inv in R as (-> & Hi & Ho & R). split; auto. intros q Q.
  assert (X : route s ok (loc s i) (i :: q) v) by (constructor; auto). apply M in X. simpl in X. lia.
Qed.

Lemma least_simple p : forall u v, least_cost s ok u p v -> NoDup (route_nodes s u p).
Proof.
  induction p as [|i p IH]; intros u v L; unfold route_nodes; simpl; [repeat constructor; intros []|].
  constructor.
  - intros Hu. assert (L' := L). destruct L as [R M]. apply route_cons_inv in R as (-> & Hi & Ho & R).
    destruct (route_cut _ _ _ (loc s i) R Hu) as (x & y & -> & A & B). apply M in B. simpl in B. rewrite route_cost_app in B.
    apply route_cost_nonneg in A. specialize (Cost i Hi). lia.
  - apply (IH (rem s i) v). eapply least_tail; eauto.
Qed.
Lemma NoDup_of_map {A B} (f : A -> B) l : NoDup (map f l) -> NoDup l.
Proof. induction l as [|x l IH]; simpl; intros H; inversion H; subst; constructor; auto. intros X. apply H2. now apply in_map. Qed.
Lemma least_nodup u p v : least_cost s ok u p v -> NoDup p.
Proof. intros L. apply least_simple in L. unfold route_nodes in L. inversion L; subst. eapply NoDup_of_map; eauto. Qed.

Lemma least_exchange u v n x1 y1 x2 y2 : least_cost s ok u (x1 ++ y1) v -> least_cost s ok u (x2 ++ y2) v ->
  route s ok u x1 n -> route s ok u x2 n -> least_cost s ok u (x1 ++ y2) v.
Proof.
  intros [R1 M1] [R2 M2] A1 A2.
  assert (B1 : route s ok n y1 v) by (apply route_app_inv in R1 as (m & C & D); now rewrite (route_end _ _ _ _ _ _ A1 C)).
  assert (B2 : route s ok n y2 v) by (apply route_app_inv in R2 as (m & C & D); now rewrite (route_end _ _ _ _ _ _ A2 C)).
  assert (X : route s ok u (x1 ++ y2) v) by (eapply route_app; eauto). split; auto.
  intros q Q. apply M1 in Q. assert (Y : route s ok u (x2 ++ y1) v) by (eapply route_app; eauto). apply M2 in Y.
  rewrite !route_cost_app in *. lia.
Qed.

Lemma least_self u p : least_cost s ok u p u -> p = [].
Proof.
  intros [R M]. destruct p; auto. assert (X := M [] (route_nil _ _ _)). apply route_cost_pos in R; [|discriminate]. simpl in *. lia.
Qed.
Lemma least_nonempty u p v : route s ok u p v -> u <> v -> p <> [].
Proof. intros R N ->. apply route_nil_inv in R. congruence. Qed.
End Least.

Section Asp.
Variables (E : env) (k : kind) (s : st) (ok : nat -> bool) (names : list string).
Hypothesis HE : env_ok E.
Hypothesis ND : NoDup (m_ifs s).
Hypothesis Cost : forall i, In i (m_ifs s) -> 1 <= i_cost (h_if s i).
Hypothesis NoPar : k = Perf -> forall i j, In i (m_ifs s) -> In j (m_ifs s) -> loc s i = loc s j -> rem s i = rem s j -> i = j.
Let G := mkG (nx_edges k (map (edge_of s) (filter ok (m_ifs s)))) names.
Let okp := fun i => ok i = true.

Lemma route_least_ex u p v : route s okp u p v -> exists q, least_cost s okp u q v.
Proof.
  intros R. apply (route_walk k s ok names ND NoPar) in R. 
  apply (shortest_exists G _ _ _ (G_pos k s ok names ND Cost NoPar)) in R as (es & W).
  apply (shortest_walk_least k s ok names ND NoPar) in W as (q & _ & L). eauto.
Qed.

Lemma asp_paths u v : match nx_asp E G u v with
  | NxPaths nps => NoDup (iface_paths k s G nps) /\ iface_paths k s G nps <> [] /\
                   (forall p, In p (iface_paths k s G nps) <-> least_cost s okp u p v) /\
                   (forall np, In np nps -> exists p, least_cost s okp u p v /\ np = route_nodes s u p)
  | NxNoPath => u <> v /\ forall p, ~ route s okp u p v
  | NxNodeNotFound => ~ In u names
  end.
Proof.
  assert (A := ok_asp E HE G u v (G_pos k s ok names ND Cost NoPar)). destruct (nx_asp E G u v) as [nps| |].
  - destruct A as (_ & Nd & Ne & X). destruct (iface_paths_spec k s ok names ND NoPar nps u v Nd X) as [I1 I2].
    assert (I4 : forall np, In np nps -> exists p, least_cost s okp u p v /\ np = route_nodes s u p).
    { intros np Hnp. apply X in Hnp as (es & W & ->). apply (shortest_walk_least k s ok names ND NoPar) in W as (p & -> & L). exists p. split; auto. apply node_path_route. }
    split; [exact I1|]. split; [|split; [exact I2|exact I4]]. intros Z. destruct nps as [|np nps]; [congruence|].
    destruct (I4 np (or_introl eq_refl)) as (p & L & _). apply I2 in L. fold G in L. rewrite Z in L. destruct L.
  - destruct A as (_ & Nv & A). split; auto. intros p R. apply (route_walk k s ok names ND NoPar) in R. eapply A. exact R.
  - intros Hu. apply A. red. left. exact Hu.
Qed.
End Asp.
