(** WhatCost.v - simulations of models that differ in costs. *)
From Verif Require Import Base Graph Objects Sim Api Frames ApiFrames ApiProofs HistProofs FailProofs RepairProofs Spec SpecCkt SpecSim SpecMetric SpecFlow SpecOrder SpecFail GraphProofs MonadProofs RoundProofs ResProofs ObjProofs CircuitProofs
  ValidateProofs GroupProofs PathProofs QuietProofs RouteProofs LeastProofs IgpProofs Ecmp TrafficProofs ShareProofs SpecSig SigUpdate MetricProofs FlowProofs UtilProofs OrderProofs SpecWhatIf WhatIf WhatIfMore WhatIfApi SpecCost.
From Coq Require Import Lqa Permutation.

Section Cost.
Variables (s t : st).
Hypothesis R : repriced s t.
Notation RS := (route (unreserved s) (usable (unreserved s))).
Notation RT := (route (unreserved t) (usable (unreserved t))).
Notation LS := (least_cost (unreserved s) (usable (unreserved s))).
Notation LT := (least_cost (unreserved t) (usable (unreserved t))).

Lemma price_to u p v : RS u p v -> RT u p v.
Proof.
  induction 1 as [|i p v Hi [Hf Ha] Rt IH]; [constructor|]. simpl in Hi.
  change (loc (unreserved s) i) with (loc s i). rewrite <- (rp_loc _ _ R i Hi). change (loc t i) with (loc (unreserved t) i). constructor.
  - simpl. now apply (rp_ifs _ _ R).
  - split; [change (i_failed (h_if t i) = false); rewrite (rp_fail _ _ R i Hi); exact Hf|]. now apply (rp_open _ _ R i Hi).
  - change (rem (unreserved t) i) with (rem t i). rewrite (rp_rem _ _ R i Hi). exact IH.
Qed.
Lemma price_back u p v : RT u p v -> RS u p v.
Proof.
  induction 1 as [|i p v Hi [Hf Ha] Rt IH]; [constructor|]. simpl in Hi. apply (rp_ifs _ _ R) in Hi. change (loc (unreserved t) i) with (loc t i). rewrite (rp_loc _ _ R i Hi).
  change (loc s i) with (loc (unreserved s) i). constructor.
  - exact Hi.
  - split; [change (i_failed (h_if s i) = false); rewrite <- (rp_fail _ _ R i Hi); exact Hf|]. now apply (rp_open _ _ R i Hi).
  - change (rem (unreserved s) i) with (rem s i). rewrite <- (rp_rem _ _ R i Hi). exact IH.
Qed.
Lemma price_in u p v i : RS u p v -> In i p -> In i (m_ifs s).
Proof. intros Rt H. exact (proj1 (route_all _ _ _ _ _ i Rt H)). Qed.
(** higher costs *)
Lemma price_up u p v : no_cheaper s t -> RS u p v -> route_cost s p <= route_cost t p.
Proof.
  intros N Rt. assert (X : forall i, In i p -> In i (m_ifs s)) by (intros i; exact (price_in _ _ _ i Rt)). clear Rt.
  induction p as [|i p IH]; simpl; [lia|]. assert (A := N i (X i (or_introl eq_refl))). assert (B := IH (fun j Hj => X j (or_intror Hj))). lia.
Qed.
Lemma price_up_lt p : (forall i, In i p -> i_cost (h_if s i) <= i_cost (h_if t i)) -> (exists i, In i p /\ i_cost (h_if t i) <> i_cost (h_if s i)) -> route_cost s p < route_cost t p.
Proof.
  intros X (i & Hi & Ne). induction p as [|j p IH]; [destruct Hi|]. simpl. assert (A := X j (or_introl eq_refl)).
  assert (C : route_cost s p <= route_cost t p).
  { clear - X. induction p as [|i p IH]; simpl; [lia|]. assert (A := X i (or_intror (or_introl eq_refl))). assert (B := IH (fun x H => X x ltac:(destruct H as [H|H]; [left; exact H|right; right; exact H]))). lia. }
  destruct Hi as [<-|Hi]; [lia|]. assert (B := IH (fun x H => X x (or_intror H)) Hi). lia.
Qed.
Lemma price_eq p : (forall i, In i p -> i_cost (h_if t i) = i_cost (h_if s i)) -> route_cost t p = route_cost s p.
Proof. intros X. induction p as [|i p IH]; simpl; [reflexivity|]. rewrite IH by (intros; apply X; right; auto). now rewrite (X i (or_introl eq_refl)). Qed.

Hypothesis ND : NoDup (m_ifs s).
Hypothesis ND' : NoDup (m_ifs t).
Hypothesis Cost : forall i, In i (m_ifs s) -> 1 <= i_cost (h_if s i).
Hypothesis Cost' : forall i, In i (m_ifs t) -> 1 <= i_cost (h_if t i).
Lemma price_least u v : no_cheaper s t -> (forall p i, LS u p v -> In i p -> i_cost (h_if t i) = i_cost (h_if s i)) ->
  forall p, LS u p v <-> LT u p v.
Proof.
  intros N H.
  assert (X : forall p, LS u p v -> LT u p v).
  { intros p Lp. split; [apply price_to, Lp|]. intros q Q. apply price_back in Q. rewrite !un_cost, (price_eq p) by (intros i Hi; exact (H p i Lp Hi)).
    assert (A := proj2 Lp q Q). rewrite !un_cost in A. assert (B := price_up _ _ _ N Q). lia. }
  intros p. split; [apply X|]. intros Lp. assert (Rp := price_back _ _ _ (proj1 Lp)). destruct (un_least_ex s u p v ND Cost Rp) as [q Lq].
  split; [exact Rp|]. intros r Rr. assert (A := proj2 Lp q (price_to _ _ _ (proj1 Lq))). assert (B := proj2 Lq r Rr). rewrite !un_cost in *.
  rewrite (price_eq q) in A by (intros i Hi; exact (H q i Lq Hi)). assert (C := price_up _ _ _ N Rp). lia.
Qed.

(** one interface cheaper *)
Fixpoint times (i : nat) (p : list nat) : Z := match p with [] => 0 | j :: p => (if Nat.eqb j i then 1 else 0) + times i p end.
Lemma times_not i p : ~ In i p -> times i p = 0.
Proof. induction p as [|j p IH]; intros H; simpl; [reflexivity|]. destruct (Nat.eqb_spec j i) as [->|]; [destruct H; left; reflexivity|]. rewrite IH; [lia|]. intros X. apply H. right; auto. Qed.
Lemma times_once i p : NoDup p -> In i p -> times i p = 1.
Proof.
  induction 1 as [|j p Hj N IH]; intros H; [destruct H|]. simpl. destruct (Nat.eqb_spec j i) as [->|Ne].
  - rewrite (times_not i p Hj). lia.
  - destruct H as [H|H]; [congruence|]. rewrite (IH H). lia.
Qed.
Lemma times_le i p : NoDup p -> times i p <= 1.
Proof. intros N. destruct (in_dec Nat.eq_dec i p) as [H|H]; [rewrite (times_once i p N H); lia|rewrite (times_not i p H); lia]. Qed.
Lemma price_one i p : only_cost_of i s t -> (forall j, In j p -> In j (m_ifs s)) ->
  route_cost t p = route_cost s p - (i_cost (h_if s i) - i_cost (h_if t i)) * times i p.
Proof.
  intros O. induction p as [|j p IH]; intros H; simpl; [lia|]. rewrite IH by (intros; apply H; right; auto).
  destruct (Nat.eqb_spec j i) as [->|Ne]; [lia|]. rewrite (O j (H j (or_introl eq_refl)) Ne). lia.
Qed.
Lemma cheaper_least u v i : only_cost_of i s t -> i_cost (h_if t i) <= i_cost (h_if s i) -> (exists p, RS u p v) ->
  (forall p, LS u p v -> In i p) -> forall p, LS u p v <-> LT u p v.
Proof.
  intros O C [p0 R0] H. destruct (un_least_ex s u p0 v ND Cost R0) as [p1 L1].
  assert (NDt : forall q, LT u q v -> NoDup q) by (intros q Q; refine (least_nodup (unreserved t) (usable (unreserved t)) _ u q v Q); exact Cost').
  assert (NDs : forall q, LS u q v -> NoDup q) by (intros q Q; refine (least_nodup (unreserved s) (usable (unreserved s)) _ u q v Q); exact Cost).
  assert (Pr : forall q, RS u q v -> route_cost t q = route_cost s q - (i_cost (h_if s i) - i_cost (h_if t i)) * times i q).
  { intros q Q. apply price_one; [exact O|]. intros j Hj. exact (price_in _ _ _ j Q Hj). }
  assert (One : forall q, LS u q v -> times i q = 1) by (intros q Q; apply times_once; [exact (NDs q Q)|exact (H q Q)]).
  assert (Y : forall q, LT u q v -> LS u q v).
  { intros q Q. assert (Rq := price_back _ _ _ (proj1 Q)). split; [exact Rq|]. intros r Rr. assert (A := proj2 Q p1 (price_to _ _ _ (proj1 L1))). assert (B := proj2 L1 r Rr).
    rewrite !un_cost in *. rewrite (Pr q Rq), (Pr p1 (proj1 L1)), (One p1 L1) in A. assert (D := times_le i q (NDt q Q)). nia. }
  intros p. split; [|apply Y]. intros Lp.
  destruct (un_least_ex t u p v ND' Cost' (price_to _ _ _ (proj1 Lp))) as [q Q]. assert (Lq := Y q Q). split; [apply price_to, Lp|]. intros r Rr. assert (A := proj2 Q r Rr). rewrite !un_cost in *.
  assert (B := proj2 Lp q (proj1 Lq)). rewrite !un_cost in B. rewrite (Pr p (proj1 Lp)), (One p Lp). rewrite (Pr q (proj1 Lq)), (One q Lq) in A. lia.
Qed.

Variables (E E' : env) (k : kind) (s' t' : st).
Hypothesis HE : env_ok E.
Hypothesis HE' : env_ok E'.
Hypothesis P : plain k s.
Hypothesis P' : plain k t.
Hypothesis U : update_simulation E k s = (s', Ok tt).
Hypothesis U' : update_simulation E' k t = (t', Ok tt).
Lemma price_both d : In d (m_dms s) -> (forall p, LS (dmd_from s d) p (dmd_to s d) <-> LT (dmd_from s d) p (dmd_to s d)) ->
  same_paths (d_path (h_dm s' d)) (d_path (h_dm t' d)) /\ forall i x y, adds k s' d i x -> adds k t' d i y -> (x == y)%Q.
Proof.
  intros Hd LC. destruct (rp_dm _ _ R d Hd) as [[Fr To] T]. 
  assert (LC' : forall p, LS (dmd_from s d) p (dmd_to s d) <-> LT (dmd_from t d) p (dmd_to t d)) by (intros p; rewrite Fr, To; apply LC). clear LC. rename LC' into LC.
  assert (Hd' : In d (m_dms t)) by (rewrite (rp_dms _ _ R); exact Hd).
  split; [exact (two_paths E E' k k s t s' t' HE HE' P P' U U' d Hd Hd' LC)|].
  intros i x y. exact (two_adds E E' k s t s' t' d i x y HE HE' P P' (rp_loc _ _ R) U U' Hd Hd' LC T).
Qed.
Lemma least_taken d p i : In d (m_dms s) -> LS (dmd_from s d) p (dmd_to s d) -> In i p -> on_a_path s' d i.
Proof.
  intros Hd Lp Hi. destruct (run_routes E k s s' HE P U d Hd) as [[_ A]|(L & o & es & A & _ & _ & B & _)]; [destruct (A p Lp)|].
  exists (map if_path L), (if_path p). split; [exact A|]. split; [apply in_map; now apply B|]. unfold if_path. now apply in_map.
Qed.
Lemma dearer_same d : In d (m_dms s) -> no_cheaper s t -> (forall i, on_a_path s' d i -> i_cost (h_if t i) = i_cost (h_if s i)) ->
  same_paths (d_path (h_dm s' d)) (d_path (h_dm t' d)) /\ forall i x y, adds k s' d i x -> adds k t' d i y -> (x == y)%Q.
Proof.
  intros Hd N H. apply (price_both d Hd). apply price_least; [exact N|]. intros p i Lp Hi. apply H. exact (least_taken d p i Hd Lp Hi).
Qed.
Lemma cheaper_same d i : In d (m_dms s) -> only_cost_of i s t -> i_cost (h_if t i) <= i_cost (h_if s i) -> on_every_path s' d i ->
  same_paths (d_path (h_dm s' d)) (d_path (h_dm t' d)) /\ forall j x y, adds k s' d j x -> adds k t' d j y -> (x == y)%Q.
Proof.
  intros Hd O C (ps & Hps & H). apply (price_both d Hd).
  destruct (run_routes E k s s' HE P U d Hd) as [[A _]|(L & o & es & A & Ne & _ & B & _)]; [congruence|]. assert (ps = map if_path L) by congruence. subst ps.
  apply (cheaper_least _ _ i O C).
  - destruct L as [|p L]; [congruence|]. exists p. apply B. left; reflexivity.
  - intros p Lp. apply B in Lp. apply (in_map if_path) in Lp. apply H in Lp. unfold if_path in Lp. apply in_map_iff in Lp as (x & X & Hx). injection X as ->. exact Hx.
Qed.
Lemma price_unrouted d : In d (m_dms s) -> (d_path (h_dm s' d) = DUnrouted <-> d_path (h_dm t' d) = DUnrouted).
Proof.
  intros Hd. destruct (rp_dm _ _ R d Hd) as [[Fr To] T]. assert (Hd' : In d (m_dms t)) by (rewrite (rp_dms _ _ R); exact Hd).
  destruct (run_routes E k s s' HE P U d Hd) as [[A1 A]|(L & o & es & A1 & Ne & _ & A & _)], (run_routes E' k t t' HE' P' U' d Hd') as [[B1 B]|(M & o' & fs & B1 & Ne' & _ & B & _)];
    rewrite A1, B1; split; intros X; try reflexivity; try discriminate X.
  - destruct M as [|q M]; [congruence|]. destruct (proj1 (B q) (or_introl eq_refl)) as [Rq _]. rewrite Fr, To in Rq. apply price_back in Rq.
    destruct (un_least_ex s _ _ _ ND Cost Rq) as [r Lr]. destruct (A r Lr).
  - destruct L as [|q L]; [congruence|]. destruct (proj1 (A q) (or_introl eq_refl)) as [Rq _]. apply price_to in Rq. rewrite <- Fr, <- To in Rq.
    destruct (un_least_ex t _ _ _ ND' Cost' Rq) as [r Lr]. destruct (B r Lr).
Qed.
Lemma price_costs d p q : In d (m_dms s) -> no_cheaper s t -> takes s' d p -> takes t' d q -> route_cost s p <= route_cost t q.
Proof.
  intros Hd N (ps & X & Hp) (qs & Y & Hq). destruct (rp_dm _ _ R d Hd) as [[Fr To] T]. assert (Hd' : In d (m_dms t)) by (rewrite (rp_dms _ _ R); exact Hd).
  destruct (run_routes E k s s' HE P U d Hd) as [[A _]|(L & o & es & A1 & _ & _ & A & _)]; [congruence|].
  destruct (run_routes E' k t t' HE' P' U' d Hd') as [[B _]|(M & o' & fs & B1 & _ & _ & B & _)]; [congruence|].
  rewrite A1 in X. rewrite B1 in Y. injection X as <-. injection Y as <-. apply in_if_path, A in Hp. apply in_if_path, B in Hq. destruct Hq as [Rq _]. rewrite Fr, To in Rq.
  apply price_back in Rq. assert (Z := proj2 Hp q Rq). rewrite !un_cost in Z. assert (W := price_up _ _ _ N Rq). lia.
Qed.
End Cost.

(** ** The cost setter *)
Section Setter.
Variables (i : nat) (c : Z) (s : st).
Let t := upd_if i (if_cost c) s.
Lemma sc_field {A} (f : iface -> A) j : (forall r, f (if_cost c r) = f r) -> f (h_if t j) = f (h_if s j).
Proof. intros H. unfold t. simpl. apply fupd_cases; [intros ->; apply H|reflexivity]. Qed.
Lemma sc_loc j : loc t j = loc s j.
Proof. unfold loc. rewrite (sc_field i_node j) by reflexivity. reflexivity. Qed.
Lemma sc_rem j : rem t j = rem s j.
Proof. unfold rem. rewrite (sc_field i_rem j) by reflexivity. reflexivity. Qed.
Lemma sc_reservable j r : reservable (unreserved t) j r <-> reservable (unreserved s) j r.
Proof.
  unfold reservable, reserved. cbn [unreserved h_if]. assert (A := sc_field i_rsvp j (fun _ => eq_refl)). assert (B := sc_field i_cap j (fun _ => eq_refl)). assert (C := sc_field i_pct j (fun _ => eq_refl)).
  cbn [i_rsvp i_cap i_pct i_res if_res]. rewrite A, B, C. reflexivity.
Qed.
Lemma sc_available j : available (unreserved t) j <-> available (unreserved s) j.
Proof. unfold available. split; intros (r & X & Y); exists r; (split; [now apply sc_reservable|exact Y]). Qed.
Lemma sc_reverse k a b : is_reverse k t a b <-> is_reverse k s a b.
Proof. unfold is_reverse. rewrite !sc_loc, !sc_rem, !(sc_field i_cid) by reflexivity. reflexivity. Qed.
Lemma sc_cost j : i_cost (h_if t j) = if Nat.eqb j i then c else i_cost (h_if s j).
Proof. unfold t. simpl. unfold fupd. destruct (Nat.eqb_spec j i) as [->|]; [now rewrite Nat.eqb_refl|]. destruct (Nat.eqb_spec i j); [congruence|reflexivity]. Qed.
Lemma sc_key j : if_key t j = if_key s j.
Proof. unfold if_key. rewrite sc_loc, (sc_field i_name) by reflexivity. reflexivity. Qed.
Lemma sc_plain k : 1 <= c -> plain k s -> plain k t.
Proof.
  intros Hc (NL & (N & C & T) & EK & CS & EA & KU). split; [exact NL|]. split; [split; [exact N|split; [|exact T]]|].
  - intros j Hj. rewrite sc_cost. destruct (Nat.eqb j i); [exact Hc|apply C, Hj].
  - split; [intros j Hj; rewrite sc_loc, sc_rem; exact (EK j Hj)|]. split; [intros Hk j Hj; rewrite (sc_field i_cid) by reflexivity; exact (CS Hk j Hj)|].
    split; [|unfold if_keys_unique; rewrite (map_ext _ _ sc_key); exact KU].
    intros a b Ha Hb X. rewrite !(sc_field i_failed) by reflexivity. apply sc_reverse in X. exact (EA a b Ha Hb X).
Qed.
Lemma sc_fit k : fit k (unreserved s) -> fit k (unreserved t).
Proof.
  intros (A & B & C & D & F). unfold fit, pairs_up, one_in in *. change (m_ifs (unreserved t)) with (m_ifs s). change (m_ifs (unreserved s)) with (m_ifs s) in *.
  assert (L : forall j, loc (unreserved t) j = loc (unreserved s) j) by exact sc_loc. assert (R : forall j, rem (unreserved t) j = rem (unreserved s) j) by exact sc_rem.
  assert (I1 : forall j, i_cid (h_if (unreserved t) j) = i_cid (h_if (unreserved s) j)) by (intros j; exact (sc_field i_cid j (fun _ => eq_refl))).
  assert (I2 : forall j, i_cap (h_if (unreserved t) j) = i_cap (h_if (unreserved s) j)) by (intros j; exact (sc_field i_cap j (fun _ => eq_refl))).
  split; [|split; [|split; [|split]]].
  - intros x Hx Ax. apply sc_available in Ax. destruct (A x Hx Ax) as [(y & Hy & Ay & Y) Z]. split.
    + exists y. split; [exact Hy|]. split; [now apply sc_available|]. now rewrite !L, !R.
    + intros Hk. rewrite I1. intros Hn. destruct (Z Hk Hn) as [(u & Hu & (u1 & u2 & u3) & u4) (v & Hv & (v1 & v2 & v3) & v4)]. split; [exists u|exists v].
      * split; [exact Hu|]. split; [rewrite !L, !R, !I1; auto|]. intros w Hw. rewrite !L, !R, !I1. apply u4, Hw.
      * split; [exact Hv|]. split; [rewrite !L, !R, !I1; auto|]. intros w Hw. rewrite !L, !R, !I1. apply v4, Hw.
  - intros x Hx. rewrite I2. now apply B.
  - intros x y Hx Hy Ax X. rewrite !I2. apply C; auto; [now apply sc_available|]. unfold is_reverse in *. now rewrite !L, !R, !I1 in X.
  - exact D.
  - intros Hk. destruct (F Hk) as [F1 F2]. split; [|exact F2]. erewrite map_ext; [exact F1|]. intros x. cbv beta. now rewrite L, R.
Qed.
End Setter.

Lemma setter_repriced i c s : repriced s (upd_if i (if_cost c) s).
Proof.
  constructor.
  - reflexivity.
  - intros j _. apply sc_loc.
  - intros j _. apply sc_rem.
  - intros j _. apply sc_available.
  - intros j _. apply (sc_field i c s i_failed j). reflexivity.
  - reflexivity.
  - intros d _. split; [split|]; reflexivity.
Qed.
Lemma setter_only i c s : only_cost_of i s (upd_if i (if_cost c) s).
Proof. intros j _ Ne. rewrite sc_cost. destruct (Nat.eqb_spec j i); [congruence|reflexivity]. Qed.

Lemma set_cost_run E k s s' i c : env_ok E -> sound_net k s -> update_simulation E k s = (s', Ok tt) -> 1 <= c ->
  exists s1 t1, iface_set_cost i c s' = (s1, Ok tt) /\ update_simulation E k s1 = (t1, Ok tt) /\ plain k s1 /\ repriced s s1 /\
    i_cost (h_if s1 i) = c /\ only_cost_of i s s1.
Proof.
  intros HE S U Hc. assert (Ho : forall o, In o [OpUpdate] -> outage_op s o) by (intros o [<-|[]]; exact I). assert (Hn : forall o, In o (@nil op) -> outage_op s o) by (intros o []).
  assert (Es : run_ops E k [OpUpdate] s = s') by (simpl; now rewrite U).
  assert (P := sound_plain _ _ S). assert (S' := sound_history E k _ s HE Ho S). assert (C := config_history E k _ s Ho). rewrite Es in S', C. assert (P' := sound_plain _ _ S').
  destruct (config_succeeds E E k s s' HE HE P P' C (ex_intro _ s' U)) as [s2 U2].
  exists (upd_if i (if_cost c) s'). assert (P1 := sc_plain i c s' k Hc P').
  assert (X : exists t1, update_simulation E k (upd_if i (if_cost c) s') = (t1, Ok tt)).
  { destruct P1 as (NL1 & WP1 & EK1 & CS1 & _). apply (succeeds E k HE _ NL1 WP1 EK1 CS1). destruct P' as (NL' & WP' & EK' & CS' & _).
    destruct (proj1 (succeeds E k HE s' NL' WP' EK' CS') (ex_intro _ s2 U2)) as [F1 F2]. split; [exact F1|exact (sc_fit i c s' k F2)]. }
  destruct X as [t1 U1]. exists t1. split; [unfold iface_set_cost; destruct (Z.ltb_spec c 1); [lia|reflexivity]|]. split; [exact U1|]. split; [exact P1|].
  assert (Ls := config_links k s s' C). assert (Fa := run_fail E k s s' HE P U). split; [|split].
  - constructor.
    + intros j. exact (sl_ifs _ _ Ls j).
    + intros j Hj. rewrite sc_loc. exact (sl_loc _ _ Ls j Hj).
    + intros j Hj. rewrite sc_rem. exact (sl_rem _ _ Ls j Hj).
    + intros j Hj. rewrite (sc_available i c s' j). exact (sl_open _ _ Ls j Hj).
    + intros j Hj. rewrite (sc_field i c s' i_failed j) by reflexivity. exact (Fa j Hj).
    + exact (cf_dms _ _ _ C).
    + intros d _. exact (cf_demand k s s' C d).
  - rewrite sc_cost, Nat.eqb_refl. reflexivity.
  - intros j Hj Ne. rewrite sc_cost. destruct (Nat.eqb_spec j i); [congruence|]. exact (sl_cost _ _ Ls j Hj).
Qed.

Lemma all_same E E' k s t s' t' : env_ok E -> env_ok E' -> repriced s t -> plain k s -> plain k t ->
  update_simulation E k s = (s', Ok tt) -> update_simulation E' k t = (t', Ok tt) ->
  (forall d i x y, In d (m_dms s) -> adds k s' d i x -> adds k t' d i y -> (x == y)%Q) ->
  forall i, In i (m_ifs s) -> same_traffic (i_traffic (h_if s' i)) (i_traffic (h_if t' i)).
Proof.
  intros HE HE' R P P' U U' H i Hi. assert (Hi' : In i (m_ifs t)) by (apply (rp_ifs _ _ R); exact Hi).
  assert (A := run_traffic E k s s' HE P U i Hi). assert (B := run_traffic E' k t t' HE' P' U' i Hi'). rewrite (rp_fail _ _ R i Hi) in B.
  destruct (i_failed (h_if s i)); [rewrite A, B; exact I|]. destruct A as (q & f & -> & A2 & A3), B as (r & g & -> & B2 & B3).
  simpl. rewrite A2, B2, (rp_dms _ _ R). rewrite (rp_dms _ _ R) in B3. apply sumq_ext. intros d Hd. exact (H d i (f d) (g d) Hd (A3 d Hd) (B3 d Hd)).
Qed.

(** ** The traffic of the interface whose cost changes *)
Lemma cr_simple i p : NoDup p -> (In i p -> cr i p == 1)%Q /\ (~ In i p -> cr i p == 0)%Q.
Proof.
  intros N. unfold cr. split; intros H.
  - assert (A := proj1 (NoDup_count_occ Nat.eq_dec p) N i). assert (B := proj1 (count_occ_In Nat.eq_dec p i) H). replace (count_occ Nat.eq_dec p i) with 1%nat by lia. reflexivity.
  - assert (B := proj1 (count_occ_not_In Nat.eq_dec p i) H). rewrite B. reflexivity.
Qed.
Lemma load_bounds E s s' d L o es i : env_ok E -> plain Flex s -> update_simulation E Flex s = (s', Ok tt) -> In d (m_dms s) -> (0 <= d_traffic (h_dm s d))%Q ->
  routes Flex s s' d L o es ->
  (0 <= loads Flex s L o i (d_traffic (h_dm s d)) <= d_traffic (h_dm s d))%Q /\
  ((forall p, In p L -> In i p) -> loads Flex s L o i (d_traffic (h_dm s d)) == d_traffic (h_dm s d))%Q /\
  ((forall p, In p L -> ~ In i p) -> loads Flex s L o i (d_traffic (h_dm s d)) == 0)%Q.
Proof.
  intros HE P U Hd Pos R. assert (W := whole E s s' HE P U d L o es Hd R). destruct R as (_ & _ & _ & A & _).
  assert (ND : forall p, In p L -> NoDup p).
  { intros p Hp. apply A in Hp. refine (least_nodup (unreserved s) (usable (unreserved s)) _ _ p _ Hp). exact (proj1 (proj2 (proj1 (proj2 P)))). }
  set (T := d_traffic (h_dm s d)) in *. rewrite !loads_flex.
  assert (Wp : forall p, (0 <= T * w (loc s) o p)%Q) by (intros p; apply Qmult_le_0_compat; [exact Pos|apply w_nonneg]).
  split; [|split].
  - enough (Z : (0 <= sumq (fun p => cr i p * (T * w (loc s) o p)) L <= sumq (fun p => T * w (loc s) o p) L)%Q) by (rewrite W in Z; exact Z). clear W A. induction L as [|p L IH]; [rewrite !sumq_nil; lra|]. rewrite !sumq_cons. specialize (IH (fun q Hq => ND q (or_intror Hq))).
    destruct (cr_simple i p (ND p (or_introl eq_refl))) as [C1 C2]. assert (X := Wp p). destruct (in_dec Nat.eq_dec i p) as [Hi|Hi]; [rewrite (C1 Hi)|rewrite (C2 Hi)]; lra.
  - intros H. transitivity (sumq (fun p => T * w (loc s) o p) L)%Q; [|exact W]. apply sumq_ext. intros p Hp. rewrite (proj1 (cr_simple i p (ND p Hp)) (H p Hp)). ring.
  - intros H. apply sumq_zero. intros p Hp. rewrite (proj2 (cr_simple i p (ND p Hp)) (H p Hp)). ring.
Qed.
Lemma own_adds E E' s t s' t' i d x y : env_ok E -> env_ok E' -> repriced s t -> plain Flex s -> plain Flex t ->
  update_simulation E Flex s = (s', Ok tt) -> update_simulation E' Flex t = (t', Ok tt) -> only_cost_of i s t -> i_cost (h_if s i) < i_cost (h_if t i) ->
  In d (m_dms s) -> (0 <= d_traffic (h_dm s d))%Q -> adds Flex s' d i x -> adds Flex t' d i y -> (y <= x)%Q.
Proof.
  intros HE HE' R P P' U U' O C Hd Pos X Y. assert (Hd' : In d (m_dms t)) by (rewrite (rp_dms _ _ R); exact Hd). destruct (rp_dm _ _ R d Hd) as [[Fr To] T].
  assert (ND : NoDup (m_ifs s)) by apply (proj1 (proj2 P)). assert (ND' : NoDup (m_ifs t)) by apply (proj1 (proj2 P')).
  assert (Co : forall i, In i (m_ifs s) -> 1 <= i_cost (h_if s i)) by apply (proj1 (proj2 P)). assert (Co' : forall i, In i (m_ifs t) -> 1 <= i_cost (h_if t i)) by apply (proj1 (proj2 P')).
  assert (Un := price_unrouted s t R ND ND' Co Co' E E' Flex s' t' HE HE' P P' U U' d Hd).
  destruct (run_puts E Flex s s' HE P U d i x Hd X) as [[X1 X2]|(L & o & es & RL & X2)], (run_puts E' Flex t t' HE' P' U' d i y Hd' Y) as [[Y1 Y2]|(M & o' & fs & RM & Y2)].
  - rewrite X2, Y2. apply Qle_refl.
  - apply Un in X1. rewrite (proj1 RM) in X1. discriminate X1.
  - apply Un in Y1. rewrite (proj1 RL) in Y1. discriminate Y1.
  - cbn [amount] in X2, Y2. destruct (load_bounds E s s' d L o es i HE P U Hd Pos RL) as ([B1 _] & B2 & _).
    assert (Pos' : (0 <= d_traffic (h_dm t d))%Q) by (rewrite T; exact Pos).
    destruct (load_bounds E' t t' d M o' fs i HE' P' U' Hd' Pos' RM) as ([_ D1] & _ & D2). rewrite X2, Y2.
    destruct (existsb (fun p => if in_dec Nat.eq_dec i p then true else false) M) eqn:Ex.
    + apply existsb_exists in Ex as (p & Hp & Hi). destruct (in_dec Nat.eq_dec i p) as [Ip|]; [|discriminate Hi]. rewrite B2; [rewrite <- T; exact D1|].
      intros q Hq. destruct (in_dec Nat.eq_dec i q) as [|Nq]; [assumption|exfalso].
      destruct RL as (_ & _ & _ & A & _), RM as (_ & _ & _ & B & _). apply A in Hq. apply B in Hp. rewrite Fr, To in Hp.
      assert (Rp := price_back s t R _ _ _ (proj1 Hp)). assert (Rq := price_to s t R _ _ _ (proj1 Hq)).
      assert (Z1 := proj2 Hq p Rp). assert (Z2 := proj2 Hp q Rq). rewrite !un_cost in *.
      rewrite (price_one s t i p O) in Z2 by (intros j Hj; exact (price_in s _ _ _ j Rp Hj)). rewrite (price_one s t i q O), (times_not i q Nq) in Z2 by (intros j Hj; exact (price_in s _ _ _ j (proj1 Hq) Hj)).
      assert (NDp : NoDup p) by (refine (least_nodup (unreserved t) (usable (unreserved t)) _ _ p _ Hp); exact Co'). rewrite (times_once i p NDp Ip) in Z2. lia.
    + rewrite D2; [exact B1|]. intros p Hp Ip. assert (Z : existsb (fun p => if in_dec Nat.eq_dec i p then true else false) M = true); [|congruence].
      apply existsb_exists. exists p. split; [exact Hp|]. destruct (in_dec Nat.eq_dec i p); [reflexivity|contradiction].
Qed.
Lemma own_traffic E E' s t s' t' i : env_ok E -> env_ok E' -> repriced s t -> plain Flex s -> plain Flex t ->
  update_simulation E Flex s = (s', Ok tt) -> update_simulation E' Flex t = (t', Ok tt) -> only_cost_of i s t -> i_cost (h_if s i) < i_cost (h_if t i) ->
  (forall d, In d (m_dms s) -> (0 <= d_traffic (h_dm s d))%Q) -> In i (m_ifs s) ->
  if i_failed (h_if s i) then i_traffic (h_if s' i) = TDown /\ i_traffic (h_if t' i) = TDown
  else exists q r, i_traffic (h_if s' i) = TNum q /\ i_traffic (h_if t' i) = TNum r /\ (r <= q)%Q.
Proof.
  intros HE HE' R P P' U U' O C Pos Hi. assert (Hi' : In i (m_ifs t)) by (apply (rp_ifs _ _ R); exact Hi).
  assert (A := run_traffic E Flex s s' HE P U i Hi). assert (B := run_traffic E' Flex t t' HE' P' U' i Hi'). rewrite (rp_fail _ _ R i Hi) in B.
  destruct (i_failed (h_if s i)); [auto|]. destruct A as (q & f & A1 & A2 & A3), B as (r & g & B1 & B2 & B3). exists q, r. split; [exact A1|]. split; [exact B1|].
  rewrite A2, B2, (rp_dms _ _ R). rewrite (rp_dms _ _ R) in B3.
  assert (X : forall l, (forall d, In d l -> In d (m_dms s)) -> (sumq g l <= sumq f l)%Q); [|apply X; auto].
  induction l as [|d l IH]; intros H; [rewrite !sumq_nil; lra|]. rewrite !sumq_cons. assert (Hd := H d (or_introl eq_refl)). specialize (IH (fun e He => H e (or_intror He))).
  assert (Y := own_adds E E' s t s' t' i d (f d) (g d) HE HE' R P P' U U' O C Hd (Pos d Hd) (A3 d Hd) (B3 d Hd)). lra.
Qed.

(** ** Costs set through the API *)
Section Calls.
Variables (E : env) (k : kind) (s s' : st) (i : nat) (c : Z).
Hypothesis HE : env_ok E.
Hypothesis S : sound_net k s.
Hypothesis U : update_simulation E k s = (s', Ok tt).
Hypothesis Hi : In i (m_ifs s).
Hypothesis Hc : 1 <= c.
Let P : plain k s := sound_plain _ _ S.
Let ND : NoDup (m_ifs s) := proj1 (proj1 (proj2 P)).
Let Co : forall i, In i (m_ifs s) -> 1 <= i_cost (h_if s i) := proj1 (proj2 (proj1 (proj2 P))).
Lemma set_cost_same : (forall d, In d (m_dms s) -> (i_cost (h_if s i) <= c /\ ~ on_a_path s' d i) \/ (c <= i_cost (h_if s i) /\ on_every_path s' d i) \/ d_path (h_dm s' d) = DUnrouted) ->
  exists s1 t1, iface_set_cost i c s' = (s1, Ok tt) /\ update_simulation E k s1 = (t1, Ok tt) /\
    (forall d, In d (m_dms s) -> same_paths (d_path (h_dm s' d)) (d_path (h_dm t1 d))) /\
    (forall x, In x (m_ifs s) -> same_traffic (i_traffic (h_if s' x)) (i_traffic (h_if t1 x))).
Proof.
  intros H. destruct (set_cost_run E k s s' i c HE S U Hc) as (s1 & t1 & A & U1 & P1 & R & C1 & O). exists s1, t1. split; [exact A|]. split; [exact U1|].
  assert (ND1 : NoDup (m_ifs s1)) by apply (proj1 (proj2 P1)). assert (Co1 : forall i, In i (m_ifs s1) -> 1 <= i_cost (h_if s1 i)) by apply (proj1 (proj2 P1)).
  assert (X : forall d, In d (m_dms s) -> same_paths (d_path (h_dm s' d)) (d_path (h_dm t1 d)) /\ forall j x y, adds k s' d j x -> adds k t1 d j y -> (x == y)%Q).
  { intros d Hd. destruct (H d Hd) as [[H1 H2]|[[H1 H2]|H1]].
    - apply (dearer_same s s1 R ND Co E E k s' t1 HE HE P P1 U U1 d Hd).
      + intros j Hj. destruct (Nat.eq_dec j i) as [->|Ne]; [rewrite C1; exact H1|rewrite (O j Hj Ne); lia].
      + intros j Hj. destruct (Nat.eq_dec j i) as [->|Ne]; [contradiction|]. apply O; [|exact Ne].
        destruct Hj as (ps & p & A1 & A2 & A3). destruct (run_routes E k s s' HE P U d Hd) as [[B _]|(L & o & es & B & _ & _ & B2 & _)]; [congruence|].
        rewrite B in A1. injection A1 as <-. apply in_map_iff in A2 as (q & <- & Hq). unfold if_path in A3. apply in_map_iff in A3 as (x & X & Hx). injection X as ->.
        apply B2 in Hq as [Rt _]. exact (proj1 (route_all _ _ _ _ _ j Rt Hx)).
    - apply (cheaper_same s s1 R ND ND1 Co Co1 E E k s' t1 HE HE P P1 U U1 d i Hd O); [rewrite C1; exact H1|exact H2].
    - assert (Y := proj1 (price_unrouted s s1 R ND ND1 Co Co1 E E k s' t1 HE HE P P1 U U1 d Hd) H1). split; [rewrite H1, Y; exact I|].
      intros j x y Ax Ay. assert (Hd' : In d (m_dms s1)) by (rewrite (rp_dms _ _ R); exact Hd).
      destruct (run_puts E k s s' HE P U d j x Hd Ax) as [[_ ->]|(L & o & es & RL & _)]; [|rewrite (proj1 RL) in H1; discriminate H1].
      destruct (run_puts E k s1 t1 HE P1 U1 d j y Hd' Ay) as [[_ ->]|(L & o & es & RL & _)]; [reflexivity|]. rewrite (proj1 RL) in Y. discriminate Y. }
  split; [intros d Hd; apply (X d Hd)|]. apply (all_same E E k s s1 s' t1 HE HE R P P1 U U1). intros d j x y Hd. exact (proj2 (X d Hd) j x y).
Qed.
End Calls.
