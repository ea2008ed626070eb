(** WiderProofs.v - simulations of models with added links. *)
From Verif Require Import Base Graph Objects Sim Api Spec SpecHist SpecCkt SpecSim SpecMetric SpecFlow SpecOrder SpecFail GraphProofs MonadProofs RoundProofs
  ValidateProofs PathProofs RouteProofs LeastProofs IgpProofs Ecmp TrafficProofs ShareProofs AddProofs OrderProofs SpecTotal SpecMore SpecWhatIf WhatIf WhatIfMore ShortLsp WhatIfApi SpecCost WhatCost SpecExn SpecWider.
From Coq Require Import Lqa Permutation.

Section Wider.
Variables (s t : st).
Hypothesis W : wider s t.
Notation LS := (least_cost (unreserved s) (usable (unreserved s))).
Notation LT := (least_cost (unreserved t) (usable (unreserved t))).
Lemma least_best m u p v : least_cost (unreserved m) (usable (unreserved m)) u p v <-> best_way m u p v.
Proof. unfold best_way, way. split; intros [A B]; (split; [exact A|]); intros q Q; specialize (B q Q); rewrite !un_cost in *; exact B. Qed.

Lemma wide_to u p v : way s u p v -> way t u p v.
Proof.
  unfold way. induction 1 as [|i p v Hi [Hf Ha] Rt IH]; [constructor|]. simpl in Hi.
  change (loc (unreserved s) i) with (loc s i). rewrite <- (wd_loc _ _ W i Hi). change (loc t i) with (loc (unreserved t) i). constructor.
  - simpl. now apply (wd_ifs _ _ W).
  - split; [change (i_failed (h_if t i) = false); rewrite (wd_fail _ _ W i Hi); exact Hf|]. now apply (wd_open _ _ W i Hi).
  - change (rem (unreserved t) i) with (rem t i). rewrite (wd_rem _ _ W i Hi). exact IH.
Qed.
Lemma wide_back u p v : (forall i, In i p -> In i (m_ifs s)) -> way t u p v -> way s u p v.
Proof.
  unfold way. intros O R. revert O. induction R as [|i p v Hi [Hf Ha] Rt IH]; intros O; [constructor|]. assert (Hs := O i (or_introl eq_refl)).
  change (loc (unreserved t) i) with (loc t i). rewrite (wd_loc _ _ W i Hs). change (loc s i) with (loc (unreserved s) i). constructor.
  - exact Hs.
  - split; [change (i_failed (h_if s i) = false); rewrite <- (wd_fail _ _ W i Hs); exact Hf|]. now apply (wd_open _ _ W i Hs).
  - change (rem (unreserved s) i) with (rem s i). rewrite <- (wd_rem _ _ W i Hs). apply IH. intros j Hj. apply O. now right.
Qed.
Lemma wide_in u p v i : way s u p v -> In i p -> In i (m_ifs s).
Proof. intros Rt H. exact (proj1 (route_all _ _ _ _ _ i Rt H)). Qed.
Lemma wide_cost p : (forall i, In i p -> In i (m_ifs s)) -> route_cost t p = route_cost s p.
Proof. induction p as [|i p IH]; intros H; simpl; [reflexivity|]. rewrite IH by (intros; apply H; now right). now rewrite (wd_cost _ _ W i (H i (or_introl eq_refl))). Qed.
Lemma wide_cost_way u p v : way s u p v -> route_cost t p = route_cost s p.
Proof. intros R. apply wide_cost. intros i. exact (wide_in _ _ _ i R). Qed.

Hypothesis ND : NoDup (m_ifs s).
Hypothesis ND' : NoDup (m_ifs t).
Hypothesis Cost : forall i, In i (m_ifs s) -> 1 <= i_cost (h_if s i).
Hypothesis Cost' : forall i, In i (m_ifs t) -> 1 <= i_cost (h_if t i).
Lemma wide_ex u p v : way t u p v -> exists q, best_way t u q v.
Proof. intros R. destruct (un_least_ex t u p v ND' Cost' R) as [q Q]. exists q. now apply least_best. Qed.
(** if the cheapest ways of the larger model use nothing new, they are those of the smaller one *)
Lemma wide_unused u v : (forall p i, best_way t u p v -> In i p -> In i (m_ifs s)) -> forall p, best_way s u p v <-> best_way t u p v.
Proof.
  intros H.
  assert (X : forall p, best_way t u p v -> best_way s u p v).
  { intros p B. assert (Rp := wide_back _ _ _ (fun i Hi => H p i B Hi) (proj1 B)). split; [exact Rp|]. intros q Q. assert (Z := proj2 B q (wide_to _ _ _ Q)). rewrite (wide_cost_way _ _ _ Rp), (wide_cost_way _ _ _ Q) in Z. exact Z. }
  intros p. split; [|apply X]. intros B. destruct (wide_ex _ _ _ (wide_to _ _ _ (proj1 B))) as [q Q]. assert (Y := X q Q). split; [apply wide_to, B|]. intros r R.
  assert (A1 := proj2 Q r R). assert (A2 := proj2 B q (proj1 Y)). rewrite (wide_cost_way _ _ _ (proj1 B)). rewrite (wide_cost_way _ _ _ (proj1 Y)) in A1. lia.
Qed.
(** costs of ways are not negative, and positive if something is on them *)
Lemma way_pos u p v : way t u p v -> 0 <= route_cost t p.
Proof. unfold way. induction 1 as [|i p v Hi Ho R IH]; simpl; [lia|]. assert (A := Cost' i Hi). simpl in *. lia. Qed.

(** how a cheapest way uses a new link *)
Section Link.
Variables (i j : nat) (a b : string).
Hypothesis OL : one_link s t i j a b.
Lemma link_parts u x y v : way t u (x ++ i :: y) v -> way t u x a /\ way t b y v /\ In i (m_ifs t) /\ usable (unreserved t) i.
Proof.
  unfold way. intros R. apply route_app_inv in R as (n & R1 & R2). apply route_cons_inv in R2 as (-> & Hi & Ho & R2). destruct (ol_i _ _ _ _ _ _ OL) as [La Ra].
  change (loc (unreserved t) i) with (loc t i) in R1. change (rem (unreserved t) i) with (rem t i) in R2. rewrite La in R1. rewrite Ra in R2. auto.
Qed.
Lemma link_join u x y v : way t u x a -> way t b y v -> In i (m_ifs t) -> usable (unreserved t) i -> way t u (x ++ i :: y) v.
Proof.
  unfold way. intros R1 R2 Hi Ho. destruct (ol_i _ _ _ _ _ _ OL) as [La Ra]. eapply route_app; [exact R1|]. rewrite <- La. change (loc t i) with (loc (unreserved t) i). constructor; auto.
  change (rem (unreserved t) i) with (rem t i). rewrite Ra. exact R2.
Qed.
Lemma way_join m u x n y v : way m u x n -> way m n y v -> way m u (x ++ y) v.
Proof. unfold way. apply route_app. Qed.
Lemma app_cost m x y : route_cost m (x ++ y) = route_cost m x + route_cost m y.
Proof. apply route_cost_app. Qed.
Lemma mid_cost m x k0 y : route_cost m (x ++ k0 :: y) = route_cost m x + (i_cost (h_if m k0) + route_cost m y).
Proof. apply route_cost_app. Qed.
End Link.
Lemma one_swap i j a b : one_link s t i j a b -> one_link s t j i b a.
Proof. intros [N Ne I J]. constructor; auto; try (intros x; rewrite N; tauto). Qed.

Lemma link_once i j a b u x y v : one_link s t i j a b -> best_way t u (x ++ i :: y) v -> (forall z, In z x -> In z (m_ifs s)) /\ (forall z, In z y -> In z (m_ifs s)).
Proof.
  intros OL [R B]. destruct (link_parts i j a b OL _ _ _ _ R) as (Rx & Ry & Hi & Ho). assert (Ci := Cost' i Hi).
  assert (Old : forall z, In z (m_ifs t) -> z <> i -> z <> j -> In z (m_ifs s)).
  { intros z Hz N1 N2. destruct (in_dec Nat.eq_dec z (m_ifs s)) as [|N]; [assumption|]. destruct (proj1 (ol_new _ _ _ _ _ _ OL z) (conj Hz N)); contradiction. }
  rewrite mid_cost in B. assert (OL' := one_swap _ _ _ _ OL).
  assert (Nx : ~ In i x).
  { intros H. apply in_split in H as (x1 & x2 & ->). destruct (link_parts i j a b OL _ _ _ _ Rx) as (R1 & R2 & _). assert (Z := B _ (link_join i j a b OL _ _ _ _ R1 Ry Hi Ho)). rewrite !mid_cost in Z. assert (P := way_pos _ _ _ R2). lia. }
  assert (Ny : ~ In i y).
  { intros H. apply in_split in H as (y1 & y2 & ->). destruct (link_parts i j a b OL _ _ _ _ Ry) as (R1 & R2 & _). assert (Z := B _ (link_join i j a b OL _ _ _ _ Rx R2 Hi Ho)). rewrite !mid_cost in Z. assert (P := way_pos _ _ _ R1). lia. }
  assert (Mx : ~ In j x).
  { intros H. apply in_split in H as (x1 & x2 & ->). destruct (link_parts j i b a OL' _ _ _ _ Rx) as (R1 & R2 & Hj & _). assert (Z := B _ (way_join t _ _ _ _ _ R1 Ry)). rewrite !mid_cost, app_cost in Z. assert (P := way_pos _ _ _ R2). assert (Cj := Cost' j Hj). lia. }
  assert (My : ~ In j y).
  { intros H. apply in_split in H as (y1 & y2 & ->). destruct (link_parts j i b a OL' _ _ _ _ Ry) as (R1 & R2 & Hj & _). assert (Z := B _ (way_join t _ _ _ _ _ Rx R2)). rewrite !mid_cost, app_cost in Z. assert (P := way_pos _ _ _ R1). assert (Cj := Cost' j Hj). lia. }
  split; intros z Hz; (apply Old; [|intros ->; contradiction|intros ->; contradiction]).
  - exact (proj1 (route_all _ _ _ _ _ z Rx Hz)).
  - exact (proj1 (route_all _ _ _ _ _ z Ry Hz)).
Qed.
Lemma link_through i j a b u x y v : one_link s t i j a b -> best_way t u (x ++ i :: y) v -> best_way s u x a /\ best_way s b y v.
Proof.
  intros OL Bq. destruct (link_once i j a b u x y v OL Bq) as [Ox Oy]. destruct Bq as [R B]. destruct (link_parts i j a b OL _ _ _ _ R) as (Rx & Ry & Hi & Ho).
  assert (Sx := wide_back _ _ _ Ox Rx). assert (Sy := wide_back _ _ _ Oy Ry). rewrite mid_cost in B.
  split; (split; [assumption|]); intros q Q; assert (Q' := wide_to _ _ _ Q).
  - assert (Z := B _ (link_join i j a b OL _ _ _ _ Q' Ry Hi Ho)). rewrite mid_cost in Z. rewrite <- (wide_cost_way _ _ _ Sx), <- (wide_cost_way _ _ _ Q). lia.
  - assert (Z := B _ (link_join i j a b OL _ _ _ _ Rx Q' Hi Ho)). rewrite mid_cost in Z. rewrite <- (wide_cost_way _ _ _ Sy), <- (wide_cost_way _ _ _ Q). lia.
Qed.
(** a link dearer than a way around it is not used *)
Lemma link_dear i j a b u p v : one_link s t i j a b -> (exists r, way s a r b /\ route_cost s r < i_cost (h_if t i)) -> best_way t u p v -> ~ In i p.
Proof.
  intros OL (r & Rr & C) [R B] H. apply in_split in H as (x & y & ->). destruct (link_parts i j a b OL _ _ _ _ R) as (Rx & Ry & _).
  assert (Z := B _ (way_join t _ _ _ _ _ Rx (way_join t _ _ _ _ _ (wide_to _ _ _ Rr) Ry))). rewrite mid_cost, !app_cost, (wide_cost_way _ _ _ Rr) in Z. lia.
Qed.

(** ** Simulations *)
Variables (E E' : env) (k : kind) (s' t' : st).
Hypothesis HE : env_ok E.
Hypothesis HE' : env_ok E'.
Hypothesis P : plain k s.
Hypothesis P' : plain k t.
Hypothesis U : update_simulation E k s = (s', Ok tt).
Hypothesis U' : update_simulation E' k t = (t', Ok tt).
Lemma dm' d : In d (m_dms s) -> In d (m_dms t). Proof. rewrite (wd_dms _ _ W). auto. Qed.
Lemma ends' d : In d (m_dms s) -> dmd_from t d = dmd_from s d /\ dmd_to t d = dmd_to s d /\ d_traffic (h_dm t d) = d_traffic (h_dm s d).
Proof. intros Hd. destruct (wd_dm _ _ W d Hd) as [[A B] C]. auto. Qed.
Lemma takes_s d p : In d (m_dms s) -> (takes s' d p <-> best_way s (dmd_from s d) p (dmd_to s d)).
Proof.
  intros Hd. rewrite <- least_best. destruct (run_routes E k s s' HE P U d Hd) as [[A1 A]|(L & o & es & A1 & _ & _ & A & _)].
  - split; [intros (ps & X & _); congruence|intros X; destruct (A p X)].
  - rewrite <- A. unfold takes. rewrite A1. split; [intros (ps & X & Y); injection X as <-; now apply in_if_path|intros X; exists (map if_path L); split; [reflexivity|now apply in_if_path]].
Qed.
Lemma takes_t d p : In d (m_dms s) -> (takes t' d p <-> best_way t (dmd_from s d) p (dmd_to s d)).
Proof.
  intros Hd. rewrite <- least_best. destruct (ends' d Hd) as (<- & <- & _). destruct (run_routes E' k t t' HE' P' U' d (dm' d Hd)) as [[A1 A]|(L & o & es & A1 & _ & _ & A & _)].
  - split; [intros (ps & X & _); congruence|intros X; destruct (A p X)].
  - rewrite <- A. unfold takes. rewrite A1. split; [intros (ps & X & Y); injection X as <-; now apply in_if_path|intros X; exists (map if_path L); split; [reflexivity|now apply in_if_path]].
Qed.
Lemma routed_s d : In d (m_dms s) -> d_path (h_dm s' d) = DUnrouted \/ exists p, takes s' d p.
Proof.
  intros Hd. destruct (run_routes E k s s' HE P U d Hd) as [[A1 _]|(L & o & es & A1 & Ne & _)]; [now left|right]. destruct L as [|p L]; [congruence|]. exists p, (map if_path (p :: L)). split; [exact A1|now left].
Qed.
Lemma wide_routed d : In d (m_dms s) -> d_path (h_dm s' d) <> DUnrouted -> d_path (h_dm t' d) <> DUnrouted.
Proof.
  intros Hd X. destruct (routed_s d Hd) as [|[p T]]; [contradiction|]. apply (takes_s d p Hd) in T. destruct (wide_ex _ _ _ (wide_to _ _ _ (proj1 T))) as [q Q].
  apply (takes_t d q Hd) in Q as (ps & Y & _). congruence.
Qed.
Lemma wide_costs d p q : In d (m_dms s) -> takes s' d p -> takes t' d q -> route_cost t q <= route_cost s p.
Proof. intros Hd A B. apply (takes_s d p Hd) in A. apply (takes_t d q Hd) in B. rewrite <- (wide_cost_way _ _ _ (proj1 A)). apply B. apply wide_to, A. Qed.
Lemma wide_same d : In d (m_dms s) -> (forall i, on_a_path t' d i -> In i (m_ifs s)) ->
  same_paths (d_path (h_dm s' d)) (d_path (h_dm t' d)) /\ forall i x y, adds k s' d i x -> adds k t' d i y -> (x == y)%Q.
Proof.
  intros Hd H. destruct (ends' d Hd) as (Fr & To & T).
  assert (LC : forall p, LS (dmd_from s d) p (dmd_to s d) <-> LT (dmd_from t d) p (dmd_to t d)).
  { intros p. rewrite Fr, To, !least_best. apply wide_unused. intros q i B Hi. apply H. apply (takes_t d q Hd) in B as (ps & X & Y). exists ps, (if_path q). split; [exact X|]. split; [exact Y|]. unfold if_path. now apply in_map. }
  split; [exact (two_paths E E' k k s t s' t' HE HE' P P' U U' d Hd (dm' d Hd) LC)|].
  intros i x y. exact (two_adds E E' k s t s' t' d i x y HE HE' P P' (wd_loc _ _ W) U U' Hd (dm' d Hd) LC T).
Qed.
Lemma wide_delivered : (forall d, In d (m_dms s) -> (0 <= d_traffic (h_dm s d))%Q) -> (routed_total s' <= routed_total t')%Q.
Proof.
  intros Pos. unfold routed_total.
  assert (Ms : m_dms s' = m_dms s) by (assert (C := config_update E k s); rewrite U in C; apply (SpecWhatIf.cf_sets _ _ _ C)).
  assert (Mt : m_dms t' = m_dms t) by (assert (C := config_update E' k t); rewrite U' in C; apply (SpecWhatIf.cf_sets _ _ _ C)).
  assert (Ts : forall d, d_traffic (h_dm s' d) = d_traffic (h_dm s d)) by (intros d; assert (C := config_update E k s); rewrite U in C; apply (SpecWhatIf.cf_dm _ _ _ C)).
  assert (Tt : forall d, d_traffic (h_dm t' d) = d_traffic (h_dm t d)) by (intros d; assert (C := config_update E' k t); rewrite U' in C; apply (SpecWhatIf.cf_dm _ _ _ C)).
  rewrite Mt, (wd_dms _ _ W), Ms. apply (sumq_le _ _ (m_dms s)). intros d Hd. unfold routed_traffic. rewrite Ts, Tt, (proj2 (wd_dm _ _ W d Hd)).
  assert (X := wide_routed d Hd). destruct (d_path (h_dm s' d)).
  - destruct (d_path (h_dm t' d)); [apply Qle_refl|apply Pos, Hd].
  - destruct (d_path (h_dm t' d)); [exfalso; now apply X|apply Qle_refl].
Qed.
(** nothing is put on an interface that no path uses *)
Lemma amount_zero : (amount k 0 == 0)%Q.
Proof. unfold amount. destruct k; [reflexivity|vm_compute; reflexivity]. Qed.
Lemma adds_none d i x : In d (m_dms s) -> ~ on_a_path t' d i -> adds k t' d i x -> (x == 0)%Q.
Proof.
  intros Hd N A. destruct (run_puts E' k t t' HE' P' U' d i x (dm' d Hd) A) as [[_ X]|(L & o & es & R & X)]; [exact X|]. rewrite X. rewrite (amount_eq k _ 0%Q); [apply amount_zero|].
  unfold loads. apply sumq_zero. intros p Hp. destruct R as (Dp & _).
  assert (Z : ~ In i p). { intros H. apply N. exists (map if_path L), (if_path p). split; [exact Dp|]. split; [now apply in_map|]. unfold if_path. now apply in_map. }
  replace (crossings t i (if_path p)) with 0%nat; [ring|]. symmetry. clear - Z. unfold crossings, if_path. induction p as [|j p IH]; [reflexivity|]. simpl.
  destruct (Nat.eqb_spec j i) as [->|]; [destruct Z; now left|]. simpl. apply IH. intros H. apply Z. now right.
Qed.
Lemma wide_traffic : (forall d i, In d (m_dms s) -> on_a_path t' d i -> In i (m_ifs s)) ->
  (forall i, In i (m_ifs s) -> same_traffic (i_traffic (h_if s' i)) (i_traffic (h_if t' i))) /\
  (forall i, is_new s t i -> if i_failed (h_if t i) then i_traffic (h_if t' i) = TDown else exists q, i_traffic (h_if t' i) = TNum q /\ (q == 0)%Q).
Proof.
  intros H. split.
  - intros i Hi. assert (A := run_traffic E k s s' HE P U i Hi). assert (B := run_traffic E' k t t' HE' P' U' i (wd_ifs _ _ W i Hi)). rewrite (wd_fail _ _ W i Hi) in B.
    destruct (i_failed (h_if s i)); [rewrite A, B; exact I|]. destruct A as (q & f & -> & A2 & A3), B as (r & g & -> & B2 & B3).
    simpl. rewrite A2, B2, (wd_dms _ _ W). rewrite (wd_dms _ _ W) in B3. apply sumq_ext. intros d Hd. exact (proj2 (wide_same d Hd (fun j => H d j Hd)) i (f d) (g d) (A3 d Hd) (B3 d Hd)).
  - intros i [Hi Ni]. assert (B := run_traffic E' k t t' HE' P' U' i Hi). destruct (i_failed (h_if t i)); [exact B|]. destruct B as (r & g & B1 & B2 & B3). exists r. split; [exact B1|].
    rewrite B2. rewrite (wd_dms _ _ W) in *. apply sumq_zero. intros d Hd. apply (adds_none d i (g d) Hd); [|exact (B3 d Hd)]. intros C. exact (Ni (H d i Hd C)).
Qed.
Lemma link_unused i j a b : one_link s t i j a b ->
  (exists r, way s a r b /\ route_cost s r < i_cost (h_if t i)) -> (exists r, way s b r a /\ route_cost s r < i_cost (h_if t j)) ->
  forall d x, In d (m_dms s) -> on_a_path t' d x -> In x (m_ifs s).
Proof.
  intros OL C1 C2 d x Hd (ps & p & A & B & C).
  destruct (run_routes E' k t t' HE' P' U' d (dm' d Hd)) as [[A1 _]|(L & o & es & A1 & _)]; [congruence|]. rewrite A1 in A. injection A as <-. apply in_map_iff in B as (q & <- & Hq).
  assert (T : takes t' d q) by (exists (map if_path L); split; [exact A1|now apply in_map]). apply (takes_t d q Hd) in T. unfold if_path in C. apply in_map_iff in C as (y & Y & Hy). injection Y as ->.
  destruct (in_dec Nat.eq_dec x (m_ifs s)) as [|N]; [assumption|exfalso]. assert (Hx : In x (m_ifs t)) by exact (proj1 (route_all _ _ _ _ _ x (proj1 T) Hy)).
  destruct (proj1 (ol_new _ _ _ _ _ _ OL x) (conj Hx N)) as [-> | ->].
  - exact (link_dear i j a b _ _ _ OL C1 T Hy).
  - exact (link_dear j i b a _ _ _ (one_swap _ _ _ _ OL) C2 T Hy).
Qed.
End Wider.

