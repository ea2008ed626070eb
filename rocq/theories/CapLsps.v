(** CapLsps.v - simulations of models with LSPs that differ in capacities. *)
From Verif Require Import Base Graph Objects Sim Api Spec SpecCkt SpecSim SpecMetric SpecFlow SpecOrder SpecShort SpecTotal SpecWhatIf SpecSame SpecHist SpecFail SpecMore GraphProofs MonadProofs RoundProofs ResProofs ObjProofs CircuitProofs
  ValidateProofs GroupProofs PathProofs QuietProofs RouteProofs LeastProofs OrderProofs DemandProofs MetricProofs IgpProofs Ecmp TrafficProofs ShareProofs FlowProofs UtilProofs RepairProofs WhatIf WhatIfApi OwnProofs OwnApi SpecSig SigProofs SigSeq SigEnd LspTotal SigTotal LspSucceeds LspExact
  OrderLsps PropertiesApi PropertiesRoute PropertiesTraffic PropertiesSignal MoreLsps AddProofs WhatIfMore ShortLsp SpecExn SpecCost SpecLspCost WhatCost DownLsps CostLsps SpecCap.
From Coq Require Import Lqa.

(** A change of capacities is a change of costs that changes no cost. *)
Lemma recapped_repriced s t : recapped s t -> repriced_lsps s t.
Proof.
  intros W. constructor; [exact (ra_ifs _ _ W)| |exact (ra_dms _ _ W)|exact (ra_dm _ _ W)|exact (ra_lsps _ _ W)|exact (ra_ls _ _ W)].
  intros i Hi. destruct (ra_if _ _ W i Hi) as (A & B & _ & D & F). auto.
Qed.
Lemma recapped_costs s t : recapped s t -> no_cheaper s t.
Proof. intros W i Hi. destruct (ra_if _ _ W i Hi) as (_ & _ & -> & _). lia. Qed.

(** Whether an interface is open to RSVP does not depend on its capacity. *)
Lemma open_rsvp k s i : lsps_usual k s -> In i (m_ifs s) -> (available (unreserved s) i <-> i_rsvp (h_if s i) = true).
Proof.
  intros LU Hi. destruct (lu_caps _ _ LU i Hi) as (_ & C & P0 & _). unfold available, reservable, reserved. cbn [unreserved h_if i_rsvp i_cap i_pct i_res if_res]. destruct (i_rsvp (h_if s i)).
  - split; [reflexivity|]. intros _. exists (round1 (i_cap (h_if s i) * i_pct (h_if s i) / 100 - 0)). split.
    + exists 0%Q. split; [apply (rounds_compat 10 0 0 (roundd 10 0) 0); [reflexivity|vm_compute; reflexivity|apply roundd_rounds]|rewrite round1_roundd; apply roundd_rounds].
    + apply round1_ge0. assert (X : (0 <= i_cap (h_if s i) * i_pct (h_if s i))%Q) by now apply Qmult_le_0_compat. unfold Qdiv. change (/ 100)%Q with (1 # 100)%Q. lra.
  - split; [|discriminate]. intros (r & A & B). lra.
Qed.

Section Setter.
Variables (i : nat) (c : Q) (s : st).
Let t := upd_if i (if_cap c) s.
Lemma cc_field {A} (f : iface -> A) j : (forall r, f (if_cap c r) = f r) -> f (h_if t j) = f (h_if s j).
Proof. intros H. unfold t. simpl. apply fupd_cases; [intros ->; apply H|reflexivity]. Qed.
Lemma cc_loc j : loc t j = loc s j.
Proof. unfold loc. rewrite (cc_field i_node j) by reflexivity. reflexivity. Qed.
Lemma cc_rem j : rem t j = rem s j.
Proof. unfold rem. rewrite (cc_field i_rem j) by reflexivity. reflexivity. Qed.
Lemma cc_cap j : i_cap (h_if t j) = if Nat.eqb j i then c else i_cap (h_if s j).
Proof. unfold t. simpl. unfold fupd. destruct (Nat.eqb_spec j i) as [->|]; [now rewrite Nat.eqb_refl|]. destruct (Nat.eqb_spec i j); [congruence|reflexivity]. Qed.
Lemma cc_key j : if_key t j = if_key s j.
Proof. unfold if_key. rewrite cc_loc, (cc_field i_name) by reflexivity. reflexivity. Qed.
Lemma cc_reverse k a b : is_reverse k t a b <-> is_reverse k s a b.
Proof. unfold is_reverse. rewrite !cc_loc, !cc_rem, !(cc_field i_cid) by reflexivity. reflexivity. Qed.
Lemma cc_room k : fits_all s i c -> with_room k s -> with_room k t.
Proof.
  intros (Tc & Pc & Ac) R. assert (LU := rm_usual _ _ R). destruct (rm_posed _ _ R) as (N & Co & T). constructor.
  - split; [exact N|]. split; [|exact T]. intros j Hj. rewrite (cc_field i_cost) by reflexivity. apply Co, Hj.
  - intros j Hj. rewrite cc_loc, cc_rem. exact (rm_known _ _ R j Hj).
  - intros Hk j Hj. rewrite (cc_field i_cid) by reflexivity. exact (rm_cids _ _ R Hk j Hj).
  - constructor.
    + exact (lu_once _ _ LU).
    + rewrite (map_ext _ _ cc_key). exact (lu_ifs _ _ LU).
    + exact (lu_traffic _ _ LU).
    + exact (lu_cfg _ _ LU).
    + exact (lu_tenths _ _ LU).
    + intros j Hj. rewrite (cc_field i_pct), cc_cap by reflexivity. destruct (lu_caps _ _ LU j Hj) as (A & B & D). destruct (Nat.eqb j i); [|auto]. split; [exact Tc|]. split; [lra|exact D].
    + exact (lu_metric _ _ LU).
    + exact (lu_texts _ _ LU).
  - intros j Hj. rewrite (cc_field i_failed), (cc_field i_rsvp), (cc_field i_pct), cc_cap by reflexivity. intros F V. destruct (Nat.eqb_spec j i) as [->|]; [exact Ac|exact (rm_ample _ _ R j Hj F V)].
  - intros a b Ha Hb X. rewrite !(cc_field i_failed) by reflexivity. apply cc_reverse in X. exact (rm_agree _ _ R a b Ha Hb X).
  - exact (rm_off _ _ R).
Qed.
Lemma cc_fits j c' : fits_all s j c' -> fits_all t j c'.
Proof. intros (A & B & D). split; [exact A|]. split; [exact B|]. rewrite (cc_field i_pct) by reflexivity. exact D. Qed.
Lemma cc_recapped r : recapped r s -> recapped r t.
Proof.
  intros W. constructor; [exact (ra_ifs _ _ W)| |exact (ra_dms _ _ W)|exact (ra_dm _ _ W)|exact (ra_lsps _ _ W)|exact (ra_ls _ _ W)].
  intros j Hj. rewrite cc_loc, cc_rem, (cc_field i_cost), (cc_field i_failed), (cc_field i_rsvp) by reflexivity. exact (ra_if _ _ W j Hj).
Qed.
Lemma cc_set : (0 < c)%Q -> iface_set_capacity i c s = (t, Ok tt).
Proof. intros H. unfold iface_set_capacity. assert (B := Qltb_true 0 c). destruct (Qltb 0 c) eqn:X; [reflexivity|]. apply B in H. discriminate H. Qed.
End Setter.

(** ** Both ends of a link *)
Lemma fit_caps k s t : lsps_usual k s -> lsps_usual k t -> m_ifs t = m_ifs s -> m_nds t = m_nds s -> h_nd t = h_nd s ->
  (forall j, loc t j = loc s j /\ rem t j = rem s j /\ i_cid (h_if t j) = i_cid (h_if s j) /\ i_rsvp (h_if t j) = i_rsvp (h_if s j)) ->
  (forall x y, In x (m_ifs s) -> In y (m_ifs s) -> i_rsvp (h_if s x) = true -> is_reverse k s x y -> (i_cap (h_if s x) == i_cap (h_if s y))%Q -> (i_cap (h_if t x) == i_cap (h_if t y))%Q) ->
  fit k (unreserved s) -> fit k (unreserved t).
Proof.
  intros LU LU' EI EN EH Fi Cap (A & B & C & D & F). unfold fit, pairs_up, one_in in *. change (m_ifs (unreserved t)) with (m_ifs t). change (m_ifs (unreserved s)) with (m_ifs s) in *. rewrite EI.
  assert (Av : forall j, In j (m_ifs s) -> (available (unreserved t) j <-> available (unreserved s) j)).
  { intros j Hj. rewrite (open_rsvp k s j LU Hj), (open_rsvp k t j LU') by now rewrite EI. destruct (Fi j) as (_&_&_&->). reflexivity. }
  assert (L : forall j, loc (unreserved t) j = loc (unreserved s) j) by (intros j; exact (proj1 (Fi j))). assert (R : forall j, rem (unreserved t) j = rem (unreserved s) j) by (intros j; exact (proj1 (proj2 (Fi j)))).
  assert (I1 : forall j, i_cid (h_if (unreserved t) j) = i_cid (h_if (unreserved s) j)) by (intros j; exact (proj1 (proj2 (proj2 (Fi j))))).
  split; [|split; [|split; [|split]]].
  - intros x Hx Ax. apply (Av x Hx) in Ax. destruct (A x Hx Ax) as [(y & Hy & Ay & Y) Z]. split.
    + exists y. split; [exact Hy|]. split; [now apply Av|]. now rewrite !L, !R.
    + intros Hk. rewrite I1. intros Hn. destruct (Z Hk Hn) as [(u & Hu & (u1 & u2 & u3) & u4) (v & Hv & (v1 & v2 & v3) & v4)]. split; [exists u|exists v].
      * split; [exact Hu|]. split; [rewrite !L, !R, !I1; auto|]. intros w Hw. rewrite !L, !R, !I1. apply u4, Hw.
      * split; [exact Hv|]. split; [rewrite !L, !R, !I1; auto|]. intros w Hw. rewrite !L, !R, !I1. apply v4, Hw.
  - intros x Hx. apply (lu_caps _ _ LU' x). now rewrite EI.
  - intros x y Hx Hy Ax X. apply (Av x Hx) in Ax. assert (X' : is_reverse k (unreserved s) x y) by (unfold is_reverse in *; now rewrite !L, !R, !I1 in X).
    apply (Cap x y Hx Hy); [now apply (open_rsvp k s x LU Hx)|exact X'|exact (C x y Hx Hy Ax X')].
  - change (NoDup (map (nd_name t) (m_nds t))). unfold nd_name. rewrite EN, EH. exact D.
  - intros Hk. destruct (F Hk) as [F1 F2]. split; [|change (forall n, In n (m_nds t) -> n_shortcuts (h_nd t n) = false); rewrite EN, EH; exact F2]. erewrite map_ext; [exact F1|]. intros x. cbv beta. now rewrite L, R.
Qed.
Lemma reverse_sym k s i j : is_reverse k s i j -> is_reverse k s j i.
Proof. intros (A & B & [D|D]); (split; [auto|]; split; [auto|]); [now left|right; auto]. Qed.

Section Again.
Variables (E : env) (k : kind) (s s' : st).
Hypothesis HE : env_ok E.
Hypothesis R : with_room k s.
Hypothesis U : update_simulation E k s = (s', Ok tt).
Let Ho : forall o, In o [OpUpdate] -> outage_op s o. Proof. intros o [<-|[]]; exact I. Qed.
Let Es : run_ops E k [OpUpdate] s = s'. Proof. simpl. now rewrite U. Qed.
Let C : same_config k s s'. Proof. rewrite <- Es. exact (config_history E k _ s Ho). Qed.
Let Fa := fin_fail E k HE s s' (rm_posed _ _ R) (rm_cids _ _ R) (rm_agree _ _ R) U.
Let R' := again_room E k s s' HE R U.
Lemma again_recapped : recapped s s'.
Proof.
  constructor.
  - intros j. now rewrite (cf_ifs _ _ _ C).
  - intros j Hj. rewrite (cf_loc _ _ _ C), (cf_rem _ _ _ C), (Fa j Hj). repeat split; apply (SpecWhatIf.cf_if _ _ _ C j).
  - exact (cf_dms _ _ _ C).
  - intros d _. exact (cf_demand k s s' C d).
  - exact (cf_lsps _ _ _ C).
  - intros l _. destruct (fin_ls E k s s' U l) as [F T]. split; [exact F|]. split; [exact T|]. split; [apply (SpecWhatIf.cf_ls _ _ _ C l)|]. apply read_omm. exact (fin_omm E k s s' U l).
Qed.
Lemma again_fits i c : fits_all s i c -> fits_all s' i c.
Proof.
  intros (A & B & D). split; [exact A|]. split; [exact B|]. assert (W := recapped_repriced _ _ again_recapped). rewrite (cf_lsps _ _ _ C).
  rewrite (map_ext_in _ (fun l => wanted s l (equal_share s l))) by (intros l Hl; exact (wi_wanted s s' W l Hl)). assert (X : i_pct (h_if s' i) = i_pct (h_if s i)) by apply (SpecWhatIf.cf_if _ _ _ C i). rewrite X. exact D.
Qed.
Lemma again_fine : demands_fine s' /\ lsps_fine s' /\ fit k (unreserved s').
Proof.
  destruct (proj1 (succeeds_ample E k s HE (rm_posed _ _ R) (rm_known _ _ R) (rm_cids _ _ R) (rm_usual _ _ R) (rm_ample _ _ R)) (ex_intro _ s' U)) as (A & B & D).
  split; [exact (WhatIf.cf_fine _ _ _ C A)|]. split; [|exact (config_fit _ _ _ C D)].
  intros x Hx. rewrite (WhatIf.cf_lsps _ _ _ C) in Hx. destruct (fin_ls E k s s' U x) as [F T]. rewrite F, T, (WhatIf.cf_names _ _ _ C). exact (B x Hx).
Qed.
Lemma again_cap j : i_cap (h_if s' j) = i_cap (h_if s j). Proof. apply (SpecWhatIf.cf_if _ _ _ C j). Qed.
Lemma again_rsvp j : i_rsvp (h_if s' j) = i_rsvp (h_if s j). Proof. apply (SpecWhatIf.cf_if _ _ _ C j). Qed.
Lemma again_reverse a b : is_reverse k s' a b <-> is_reverse k s a b. Proof. exact (cf_reverse k s s' C a b). Qed.

Lemma set_caps i j c : two_ends k s i j -> fits_all s i c -> fits_all s j c ->
  exists s1 s2 t, iface_set_capacity i c s' = (s1, Ok tt) /\ iface_set_capacity j c s1 = (s2, Ok tt) /\ update_simulation E k s2 = (t, Ok tt) /\ with_room k s2 /\ recapped s s2 /\
    (forall x, i_cap (h_if s2 x) = if (Nat.eqb x i || Nat.eqb x j)%bool then c else i_cap (h_if s x)).
Proof.
  intros (Hi & Hj & V & So) Ri Rj. set (s1 := upd_if i (if_cap c) s'). set (s2 := upd_if j (if_cap c) s1).
  assert (R1 : with_room k s1) by exact (cc_room i c s' k (again_fits i c Ri) R'). assert (R2 : with_room k s2) by exact (cc_room j c s1 k (cc_fits i c s' j c (again_fits j c Rj)) R1).
  assert (Cp : forall x, i_cap (h_if s2 x) = if (Nat.eqb x i || Nat.eqb x j)%bool then c else i_cap (h_if s x)).
  { intros x. unfold s2, s1. rewrite !cc_cap, again_cap. destruct (Nat.eqb x i), (Nat.eqb x j); reflexivity. }
  destruct again_fine as (A & B & D). destruct (proj2 (succeeds_ample E k s2 HE (rm_posed _ _ R2) (rm_known _ _ R2) (rm_cids _ _ R2) (rm_usual _ _ R2) (rm_ample _ _ R2))) as (t & U2).
  { split; [exact A|]. split; [exact B|]. apply (fit_caps k s' s2 (rm_usual _ _ R') (rm_usual _ _ R2)); auto.
    - intros x. unfold s2, s1. rewrite !cc_loc, !cc_rem, !(cc_field _ _ _ i_cid), !(cc_field _ _ _ i_rsvp) by reflexivity. auto.
    - intros x y Hx Hy _ X Eq. rewrite (cf_ifs _ _ _ C) in Hx, Hy. rewrite !again_cap in Eq. rewrite !Cp. apply again_reverse in X.
      assert (X' := reverse_sym _ _ _ _ X). destruct (So x Hx) as [Sx1 Sx2], (So y Hy) as [Sy1 Sy2].
      destruct (Nat.eqb_spec x i) as [->|Nx1]; [rewrite (Sy1 X), Nat.eqb_refl, orb_true_r; reflexivity|]. destruct (Nat.eqb_spec x j) as [->|Nx2]; [rewrite (Sy2 X), Nat.eqb_refl; reflexivity|].
      destruct (Nat.eqb_spec y i) as [->|Ny1]; [destruct (Nx2 (Sx1 X'))|]. destruct (Nat.eqb_spec y j) as [->|Ny2]; [destruct (Nx1 (Sx2 X'))|]. exact Eq. }
  exists s1, s2, t. destruct Ri as (_ & Pc & _). split; [exact (cc_set i c s' Pc)|]. split; [exact (cc_set j c s1 Pc)|]. split; [exact U2|]. split; [exact R2|]. split; [|exact Cp].
  apply cc_recapped, cc_recapped. exact again_recapped.
Qed.
Lemma set_one_cap i j c : In i (m_ifs s) -> In j (m_ifs s) -> i <> j -> is_reverse k s i j -> i_rsvp (h_if s i) = true -> fits_all s i c -> ~ (c == i_cap (h_if s j))%Q ->
  exists s1, iface_set_capacity i c s' = (s1, Ok tt) /\ forall t, update_simulation E k s1 <> (t, Ok tt).
Proof.
  intros Hi Hj Ne V Op Ri Nc. assert (R1 : with_room k (upd_if i (if_cap c) s')) by exact (cc_room i c s' k (again_fits i c Ri) R'). exists (upd_if i (if_cap c) s'). split; [apply cc_set, Ri|]. intros t U1.
  destruct (proj1 (succeeds_ample E k _ HE (rm_posed _ _ R1) (rm_known _ _ R1) (rm_cids _ _ R1) (rm_usual _ _ R1) (rm_ample _ _ R1)) (ex_intro _ t U1)) as (_ & _ & _ & _ & F & _).
  assert (Hi' : In i (m_ifs s')) by now rewrite (cf_ifs _ _ _ C). assert (Hj' : In j (m_ifs s')) by now rewrite (cf_ifs _ _ _ C).
  assert (X := F i j Hi' Hj'). apply Nc. change (i_cap (h_if (unreserved (upd_if i (if_cap c) s')) i)) with (i_cap (h_if (upd_if i (if_cap c) s') i)) in X. change (i_cap (h_if (unreserved (upd_if i (if_cap c) s')) j)) with (i_cap (h_if (upd_if i (if_cap c) s') j)) in X.
  rewrite !cc_cap, Nat.eqb_refl in X. destruct (Nat.eqb_spec j i); [congruence|]. rewrite again_cap in X. apply X.
  - apply (open_rsvp k _ i (rm_usual _ _ R1) Hi'). rewrite (cc_field _ _ _ i_rsvp), again_rsvp by reflexivity. exact Op.
  - change (is_reverse k (upd_if i (if_cap c) s') i j). apply cc_reverse. now apply again_reverse.
Qed.
End Again.
