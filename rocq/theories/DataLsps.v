(** DataLsps.v - models with the same data in different objects (C93). *)
From Verif Require Import Base Graph Objects Sim Api Spec SpecCkt SpecSim SpecMetric SpecFlow SpecOrder SpecShort SpecTotal SpecWhatIf SpecSame SpecHist SpecFail SpecMore SpecData GraphProofs MonadProofs RoundProofs ResProofs ObjProofs CircuitProofs
  ValidateProofs GroupProofs PathProofs QuietProofs RouteProofs LeastProofs OrderProofs DemandProofs MetricProofs IgpProofs Ecmp TrafficProofs ShareProofs FlowProofs UtilProofs RepairProofs WhatIf OwnProofs OwnApi SpecSig SigProofs SigSeq SigEnd LspTotal SigTotal LspSucceeds LspExact
  OrderLsps PropertiesApi PropertiesRoute PropertiesTraffic PropertiesSignal MoreLsps MatchLsps.
From Coq Require Import Permutation Lqa.

Lemma matching {A B K} (dec : forall x y : K, {x = y} + {x <> y}) (b0 : B) (ks : A -> K) (kt : B -> K) ls lt :
  NoDup (map ks ls) -> NoDup (map kt lt) ->
  (forall x, In x ls -> exists y, In y lt /\ kt y = ks x) -> (forall y, In y lt -> exists x, In x ls /\ kt y = ks x) ->
  exists f, Permutation (map f ls) lt /\ forall x y, In x ls -> In y lt -> kt y = ks x -> y = f x.
Proof.
  intros Ns Nt HA HB. exists (fun x => match find (fun y => if dec (kt y) (ks x) then true else false) lt with Some y => y | None => b0 end).
  assert (F : forall x, In x ls -> exists y, In y lt /\ kt y = ks x /\ find (fun y => if dec (kt y) (ks x) then true else false) lt = Some y).
  { intros x Hx. destruct (find (fun y => if dec (kt y) (ks x) then true else false) lt) as [y|] eqn:Fy.
    - apply find_some in Fy as [I X]. exists y. destruct (dec (kt y) (ks x)); [auto|discriminate].
    - destruct (HA x Hx) as (y & I & X). assert (Z := find_none _ _ Fy y I). simpl in Z. destruct (dec (kt y) (ks x)); [discriminate|contradiction]. }
  assert (U : forall x y, In x ls -> In y lt -> kt y = ks x -> y = match find (fun y => if dec (kt y) (ks x) then true else false) lt with Some y => y | None => b0 end).
  { intros x y Hx Hy X. destruct (F x Hx) as (y' & I & X' & ->). apply (nodup_map_inj kt lt); auto. congruence. }
  split; [|exact U]. apply NoDup_Permutation.
  - apply nodup_map; [eapply NoDup_of_map; eauto|]. intros x x' Hx Hx'. destruct (F x Hx) as (y & _ & X & ->), (F x' Hx') as (y' & _ & X' & ->). intros <-. apply (nodup_map_inj ks ls); auto. congruence.
  - eapply NoDup_of_map; eauto.
  - intros y. split.
    + intros H. apply in_map_iff in H as (x & <- & Hx). destruct (F x Hx) as (y & I & _ & ->). exact I.
    + intros Hy. destruct (HB y Hy) as (x & Hx & X). apply in_map_iff. exists x. split; [|exact Hx]. symmetry. now apply U.
Qed.
Lemma two_dec (x y : string * string) : {x = y} + {x <> y}. Proof. decide equality; apply string_dec. Qed.
Lemma three_dec (x y : string * string * string) : {x = y} + {x <> y}. Proof. decide equality; [apply string_dec|apply two_dec]. Qed.

Section Data.
Variables (k : kind) (s t : st).
Hypothesis D : same_data k s t.
Hypothesis Ks : keys_unique s.
Hypothesis Kt : keys_unique t.
Hypothesis LU : lsps_usual k s.

Lemma sd_matched : exists fi fd fl, matched 1 1 fi fd fl s t /\
  (forall i, In i (m_ifs s) -> if_alike k s i t (fi i)) /\ (forall i j, In i (m_ifs s) -> In j (m_ifs t) -> if_key t j = if_key s i -> j = fi i) /\
  (forall d, In d (m_dms s) -> dm_alike s d t (fd d)) /\ (forall i j, In i (m_dms s) -> In j (m_dms t) -> dmd_key t j = dmd_key s i -> j = fd i) /\
  (forall l, In l (m_lsps s) -> ls_alike s l t (fl l)) /\ (forall i j, In i (m_lsps s) -> In j (m_lsps t) -> lsp_key t j = lsp_key s i -> j = fl i).
Proof.
  destruct D as [[I1 I2] _ [D1 D2] [L1 L2]]. destruct Ks as (K1 & _ & K2 & K3 & _), Kt as (T1 & _ & T2 & T3 & _).
  destruct (matching two_dec 0%nat (if_key s) (if_key t) (m_ifs s) (m_ifs t) K1 T1) as (fi & Pi & Ui).
  { intros x Hx. destruct (I1 x Hx) as (y & Hy & A & _). eauto. } { intros y Hy. destruct (I2 y Hy) as (x & Hx & A & _). eauto. }
  destruct (matching three_dec 0%nat (dmd_key s) (dmd_key t) (m_dms s) (m_dms t) K2 T2) as (fd & Pd & Ud).
  { intros x Hx. destruct (D1 x Hx) as (y & Hy & A & _). eauto. } { intros y Hy. destruct (D2 y Hy) as (x & Hx & A & _). eauto. }
  destruct (matching three_dec 0%nat (lsp_key s) (lsp_key t) (m_lsps s) (m_lsps t) K3 T3) as (fl & Pl & Ul).
  { intros x Hx. destruct (L1 x Hx) as (y & Hy & A & _). eauto. } { intros y Hy. destruct (L2 y Hy) as (x & Hx & A & _). eauto. }
  assert (Ai : forall i, In i (m_ifs s) -> if_alike k s i t (fi i)). { intros x Hx. destruct (I1 x Hx) as (y & Hy & A). now rewrite <- (Ui x y Hx Hy (proj1 A)). }
  assert (Ad : forall i, In i (m_dms s) -> dm_alike s i t (fd i)). { intros x Hx. destruct (D1 x Hx) as (y & Hy & A). now rewrite <- (Ud x y Hx Hy (proj1 A)). }
  assert (Al : forall i, In i (m_lsps s) -> ls_alike s i t (fl i)). { intros x Hx. destruct (L1 x Hx) as (y & Hy & A). now rewrite <- (Ul x y Hx Hy (proj1 A)). }
  exists fi, fd, fl. split; [constructor; auto|auto 10].
  - intros i Hi. destruct (Ai i Hi) as (A & B & Co & _ & F & R & _). injection A as _ A. rewrite Co. repeat split; auto. lia.
  - intros d Hd. destruct (Ad d Hd) as (A & B). injection A as A1 A2 _. repeat split; auto. rewrite B. ring.
  - intros l Hl. destruct (Al l Hl) as (A & B & R). injection A as A1 A2 _. repeat split; auto.
    + unfold cfg_times. destruct (l_cfg (h_ls s l)), (l_cfg (h_ls t (fl l))); simpl in *; auto. rewrite B. ring.
    + intros m O. rewrite (omm_read _ _ (usual_omm k s l LU Hl) R), O. f_equal. destruct m; simpl; auto. f_equal. destruct z; auto.
Qed.
Lemma sd_names x : In x (map (nd_name t) (m_nds t)) <-> In x (map (nd_name s) (m_nds s)).
Proof.
  destruct (sd_nds _ _ _ D) as [A B]. rewrite !in_map_iff. split; intros (n & <- & Hn).
  - destruct (B n Hn) as (m & Hm & X & _). exists m. auto.
  - destruct (A n Hn) as (m & Hm & X & _). exists m. auto.
Qed.
Lemma sd_i j : In j (m_ifs t) -> exists i, In i (m_ifs s) /\ if_alike k s i t j. Proof. apply (sd_ifs _ _ _ D). Qed.
Lemma sd_l j : In j (m_lsps t) -> exists i, In i (m_lsps s) /\ ls_alike s i t j. Proof. apply (sd_lsps _ _ _ D). Qed.
Lemma sd_d j : In j (m_dms t) -> exists i, In i (m_dms s) /\ dm_alike s i t j. Proof. apply (sd_dms _ _ _ D). Qed.
Lemma sd_from x : In x (from_names t) -> In x (from_names s).
Proof.
  unfold from_names. rewrite !in_app_iff, !in_map_iff. intros [(l & <- & Hl)|(d & <- & Hd)].
  - left. destruct (sd_l l Hl) as (m & Hm & A & _). injection A as A _ _. eauto.
  - right. destruct (sd_d d Hd) as (m & Hm & A & _). injection A as A _ _. eauto.
Qed.
Lemma sd_to x : In x (to_names t) -> In x (to_names s).
Proof.
  unfold to_names. rewrite !in_app_iff, !in_map_iff. intros [(l & <- & Hl)|(d & <- & Hd)].
  - left. destruct (sd_l l Hl) as (m & Hm & A & _). injection A as _ A _. eauto.
  - right. destruct (sd_d d Hd) as (m & Hm & A & _). injection A as _ A _. eauto.
Qed.
Lemma alike_ends i j : if_alike k s i t j -> loc t j = loc s i /\ rem t j = rem s i.
Proof. intros (A & B & _). injection A as _ A. auto. Qed.
Lemma sd_texts : node_texts s -> node_texts t.
Proof.
  intros NT a b a' b' Ha Hb Ha' Hb'. apply sd_names in Ha. apply sd_names in Hb. apply NT; auto.
  - apply in_map_iff in Ha' as (l & <- & Hl). destruct (sd_l l Hl) as (m & Hm & A & _). injection A as -> _ _. now apply in_map.
  - apply in_map_iff in Hb' as (l & <- & Hl). destruct (sd_l l Hl) as (m & Hm & A & _). injection A as _ -> _. now apply in_map.
Qed.
Lemma sd_usual : usual_room k s -> usual_room k t.
Proof.
  intros R. destruct sd_matched as (fi & fd & fl & M & Ai & Ui & Ad & Ud & Al & Ul). assert (WP := ur_posed _ _ R). destruct WP as (N & Co & TD). destruct Kt as (T1 & _ & T2 & T3 & _).
  constructor.
  - split; [eapply NoDup_of_map; eauto|]. split.
    + intros j Hj. destruct (sd_i j Hj) as (i & Hi & _ & _ & -> & _). auto.
    + intros a a' b b' Ha Ha' Hb Hb'. apply TD; auto using sd_from, sd_to.
  - intros j Hj. destruct (sd_i j Hj) as (i & Hi & A). destruct (alike_ends i j A) as [-> ->]. rewrite !sd_names. exact (ur_known _ _ R i Hi).
  - intros Hk j Hj. destruct (sd_i j Hj) as (i & Hi & _ & _ & _ & _ & _ & _ & _ & X). rewrite (X Hk). exact (ur_cids _ _ R Hk i Hi).
  - constructor.
    + eapply NoDup_of_map; eauto.
    + exact T1.
    + intros e He. destruct (sd_d e He) as (d & Hd & _ & ->). exact (lu_traffic _ _ LU d Hd).
    + intros m x Hm Cx. destruct (sd_l m Hm) as (l & Hl & _ & X & _). rewrite Cx in X. unfold same_cfg in X. destruct (l_cfg (h_ls s l)) as [y|] eqn:Y; [|tauto]. rewrite <- X. exact (lu_cfg _ _ LU l y Hl Y).
    + intros m Hm. apply (mt_lof _ _ _ _ _ _ _ M) in Hm as (l & Hl & ->). eapply tenths_eq; [symmetry; rewrite (mt_wanted 1 1 fi fd fl s t M l Hl), Qmult_1_l; reflexivity|]. exact (lu_tenths _ _ LU l Hl).
    + intros j Hj. destruct (sd_i j Hj) as (i & Hi & _ & _ & _ & C & _ & _ & P & _). destruct (lu_caps _ _ LU i Hi) as (A & B & B1 & B2). split; [eapply tenths_eq; [symmetry; exact C|exact A]|]. rewrite C, P. auto.
    + intros m x Hm Px. destruct (sd_l m Hm) as (l & Hl & _ & _ & Y). assert (Ne := usual_omm k s l LU Hl). rewrite <- (omm_read _ _ Ne Y) in Ne. revert Px Ne. unfold mstate_of, omm.
      destruct (l_imm (h_ls t m)) as [w|]; [|discriminate]. destruct (Z.eqb w 0); [discriminate|]. intros [= ->]. destruct (Z.ltb_spec 0 x); auto. intros Ne. destruct (Ne _ eq_refl).
    + intros Hk (n & Hn & Sn). destruct (proj2 (sd_nds _ _ _ D) n Hn) as (m & Hm & _ & X). rewrite X in Sn. exact (sd_texts (lu_texts _ _ LU Hk (ex_intro _ m (conj Hm Sn)))).
  - intros j Hj Fj Rj. destruct (sd_i j Hj) as (i & Hi & _ & _ & _ & C & F & Rv & P & _). rewrite C, P. rewrite F in Fj. rewrite Rv in Rj. assert (X := ur_ample _ _ R i Hi Fj Rj).
    eapply Qle_trans; [|exact X]. rewrite <- (Qsum_perm _ _ (Permutation_map _ (mt_lsps _ _ _ _ _ _ _ M))), map_map.
    change (sumq (fun l => wanted t (fl l) (equal_share t (fl l))) (m_lsps s) <= sumq (fun l => wanted s l (equal_share s l)) (m_lsps s))%Q.
    rewrite (sumq_ext _ (fun l => wanted s l (equal_share s l))); [apply Qle_refl|]. intros l Hl. rewrite (mt_wanted 1 1 fi fd fl s t M l Hl). ring.
  - intros a b Ha Hb (X & Y & Z). destruct (sd_i a Ha) as (i & Hi & A), (sd_i b Hb) as (j & Hj & B). destruct (alike_ends i a A) as [A1 A2], (alike_ends j b B) as [B1 B2].
    destruct A as (_&_&_&_&->&_&_&Ca), B as (_&_&_&_&->&_&_&Cb). apply (ur_agree _ _ R); auto. split; [congruence|]. split; [congruence|].
    destruct k; [right|left; reflexivity]. destruct Z as [Z|Z]; [discriminate|]. rewrite <- (Ca eq_refl), <- (Cb eq_refl). exact Z.
Qed.
Lemma sd_off : shortcuts_off s -> shortcuts_off t.
Proof. intros O n Hn. destruct (proj2 (sd_nds _ _ _ D) n Hn) as (m & Hm & _ & ->). exact (O m Hm). Qed.
Lemma sd_room : with_room k s -> with_room k t.
Proof. intros R. exact (room_with _ _ (sd_usual R) (sd_off (rm_off _ _ R))). Qed.
Lemma sd_dfine : demands_fine s -> demands_fine t.
Proof. intros H e He. destruct (sd_d e He) as (d & Hd & A & _). injection A as A B _. rewrite A, B, sd_names. auto. Qed.
Lemma sd_lfine : lsps_fine s -> lsps_fine t.
Proof. intros H e He. destruct (sd_l e He) as (d & Hd & A & _). injection A as A B _. rewrite A, B, sd_names. auto. Qed.
Lemma sd_avail i j : if_alike k s i t j -> (available (unreserved t) j <-> available (unreserved s) i).
Proof.
  intros (_&_&_&C&_&R&P&_).
  assert (X : forall r, reservable (unreserved t) j r <-> reservable (unreserved s) i r).
  { intros r. unfold reservable. simpl. rewrite R. destruct (i_rsvp (h_if s i)); [|tauto].
    assert (Z : forall r0, (i_cap (h_if t j) * i_pct (h_if t j) / 100 - r0 == i_cap (h_if s i) * i_pct (h_if s i) / 100 - r0)%Q) by (intros r0; now rewrite C, P).
    split; intros (r0 & A & B); exists r0; (split; [exact A|]).
    - exact (rounds_compat _ _ _ _ _ (Z r0) (Qeq_refl _) B).
    - exact (rounds_compat _ _ _ _ _ (Qeq_sym _ _ (Z r0)) (Qeq_refl _) B). }
  unfold available. split; intros (r & A & B); exists r; (split; [now apply X|exact B]).
Qed.
Lemma sd_one (P Q : nat -> Prop) : (forall i j, In i (m_ifs s) -> In j (m_ifs t) -> if_alike k s i t j -> (P i <-> Q j)) -> one_in (m_ifs s) P -> one_in (m_ifs t) Q.
Proof.
  intros H (x & Hx & Px & Ux). destruct (proj1 (sd_ifs _ _ _ D) x Hx) as (y & Hy & A). exists y. split; [exact Hy|]. split; [now apply (H x y)|]. intros z Hz Qz.
  destruct (sd_i z Hz) as (w & Hw & B). assert (w = x) by (apply Ux; auto; now apply (H w z)). subst w. destruct Kt as (T1 & _). apply (nodup_map_inj _ _ T1); auto. destruct A as (A&_), B as (B&_). congruence.
Qed.
Lemma sd_fit : fit k (unreserved s) -> fit k (unreserved t).
Proof.
  intros (A & B & C & N & P). split; [|split; [|split; [|split]]].
  - intros j Hj Av. destruct (sd_i j Hj) as (i & Hi & X). apply (sd_avail i j X) in Av. destruct (A i Hi Av) as [(i' & Hi' & Av' & L1 & L2) W]. destruct (alike_ends i j X) as [E1 E2]. split.
    + destruct (proj1 (sd_ifs _ _ _ D) i' Hi') as (j' & Hj' & X'). destruct (alike_ends i' j' X') as [E1' E2']. exists j'. split; [exact Hj'|]. split; [now apply (sd_avail i' j' X')|].
      change (loc t j' = rem t j /\ rem t j' = loc t j). rewrite E1, E2, E1', E2'. auto.
    + intros Hk Nn. destruct X as (X1&X2&X3&X4&X5&X6&X7&X8). assert (Cx := X8 Hk). change (i_cid (h_if t j) <> CNone) in Nn. rewrite Cx in Nn. destruct (W Hk Nn) as [W1 W2]. split.
      * revert W1. apply sd_one. intros a b Ha Hb Y. destruct (alike_ends a b Y) as [F1 F2]. destruct Y as (_&_&_&_&_&_&_&Y).
        change ((loc s a = loc s i /\ rem s a = rem s i /\ i_cid (h_if s a) = i_cid (h_if s i)) <-> (loc t b = loc t j /\ rem t b = rem t j /\ i_cid (h_if t b) = i_cid (h_if t j))). rewrite F1, F2, E1, E2, (Y Hk), Cx. tauto.
      * revert W2. apply sd_one. intros a b Ha Hb Y. destruct (alike_ends a b Y) as [F1 F2]. destruct Y as (_&_&_&_&_&_&_&Y).
        change ((loc s a = rem s i /\ rem s a = loc s i /\ i_cid (h_if s a) = i_cid (h_if s i)) <-> (loc t b = rem t j /\ rem t b = loc t j /\ i_cid (h_if t b) = i_cid (h_if t j))). rewrite F1, F2, E1, E2, (Y Hk), Cx. tauto.
  - intros j Hj. destruct (sd_i j Hj) as (i & Hi & _&_&_&X&_). change (0 <= i_cap (h_if t j))%Q. rewrite X. exact (B i Hi).
  - intros a b Ha Hb Av Rv. destruct (sd_i a Ha) as (i & Hi & X), (sd_i b Hb) as (j & Hj & Y). apply (sd_avail i a X) in Av. destruct (alike_ends i a X) as [A1 A2], (alike_ends j b Y) as [B1 B2].
    destruct X as (_&_&_&X1&_&_&_&X2), Y as (_&_&_&Y1&_&_&_&Y2). change (i_cap (h_if t a) == i_cap (h_if t b))%Q. rewrite X1, Y1. apply (C i j Hi Hj Av).
    destruct Rv as (R1 & R2 & R3). change (loc t a = rem t b) in R1. change (rem t a = loc t b) in R2. split; [change (loc s i = rem s j); congruence|]. split; [change (rem s i = loc s j); congruence|].
    destruct R3 as [R3|R3]; [left; exact R3|]. destruct (kind_dec k) as [Hk|Hk]; [right|left; exact Hk]. change (i_cid (h_if t a) = i_cid (h_if t b)) in R3. rewrite (X2 Hk), (Y2 Hk) in R3. exact R3.
  - exact (proj1 (proj2 Kt)).
  - intros Hk. destruct (P Hk) as [P1 P2]. split.
    + destruct sd_matched as (fi & fd & fl & M & Ai & _). change (NoDup (map (fun i => ends_text (loc t i) (rem t i)) (m_ifs t))).
      refine (Permutation_NoDup (Permutation_map _ (mt_ifs _ _ _ _ _ _ _ M)) _). rewrite map_map. rewrite (map_ext_in _ (fun i => ends_text (loc s i) (rem s i))); [exact P1|].
      intros i Hi. destruct (alike_ends _ _ (Ai i Hi)) as [-> ->]. reflexivity.
    + intros n Hn. destruct (proj2 (sd_nds _ _ _ D) n Hn) as (m & Hm & _ & X). change (n_shortcuts (h_nd t n) = false). rewrite X. exact (P2 m Hm).
Qed.
End Data.

Lemma same_cfg_sym a b : same_cfg a b -> same_cfg b a.
Proof. destruct a, b; simpl; auto. now symmetry. Qed.
Lemma each_sym (R : nat -> nat -> Prop) l m : each_has R l m -> each_has (fun y x => R x y) m l.
Proof. intros [A B]. split; auto. Qed.
Lemma each_weaken (R S : nat -> nat -> Prop) l m : (forall x y, R x y -> S x y) -> each_has R l m -> each_has S l m.
Proof. intros H [A B]. split; intros x Hx; [destruct (A x Hx) as (y & Y & Z)|destruct (B x Hx) as (y & Y & Z)]; exists y; auto. Qed.
Lemma sd_sym k s t : same_data k s t -> same_data k t s.
Proof.
  intros [A B C D]. constructor.
  - eapply each_weaken; [|exact (each_sym _ _ _ A)]. intros j i (X1&X2&X3&X4&X5&X6&X7&X8). repeat (split; [solve [auto|now symmetry]|]). intros Hk. symmetry. auto.
  - eapply each_weaken; [|exact (each_sym _ _ _ B)]. intros j i (X1&X2). split; auto.
  - eapply each_weaken; [|exact (each_sym _ _ _ C)]. intros j i (X1&X2). split; [auto|now symmetry].
  - eapply each_weaken; [|exact (each_sym _ _ _ D)]. intros j i (X1&X2&X3). split; [auto|]. split; [now apply same_cfg_sym|auto].
Qed.
Lemma sd_succeeds E E' k s t : env_ok E -> env_ok E' -> same_data k s t -> keys_unique s -> keys_unique t -> usual_room k s ->
  (exists s', update_simulation E k s = (s', Ok tt)) -> exists t', update_simulation E' k t = (t', Ok tt).
Proof.
  intros HE HE' D Ks Kt R H. assert (LU := ur_usual _ _ R). assert (Rt := sd_usual k s t D Ks Kt LU R).
  apply (succeeds_ample E k s HE (ur_posed _ _ R) (ur_known _ _ R) (ur_cids _ _ R) LU (ur_ample _ _ R)) in H as (A & B & C).
  apply (succeeds_ample E' k t HE' (ur_posed _ _ Rt) (ur_known _ _ Rt) (ur_cids _ _ Rt) (ur_usual _ _ Rt) (ur_ample _ _ Rt)). split; [exact (sd_dfine k s t D A)|]. split; [exact (sd_lfine k s t D B)|exact (sd_fit k s t D Ks Kt LU C)].
Qed.

Section Keys.
Variables (E : env) (k : kind).
Hypothesis HE : env_ok E.
Variables s s' : st.
Hypothesis R : with_room k s.
Hypothesis Up : update_simulation E k s = (s', Ok tt).
Lemma fin_key i : if_key s' i = if_key s i.
Proof. destruct (fin_input E k s s' Up) as (_&_&_&X&_). unfold if_key. destruct (fin_loc E k s s' Up i) as [-> _]. destruct (X i) as (->&_). reflexivity. Qed.
Lemma fin_lkey l : lsp_key s' l = lsp_key s l.
Proof. destruct (fin_input E k s s' Up) as (_&_&_&_&_&X). unfold lsp_key. destruct (fin_ls E k s s' Up l) as [-> ->]. destruct (X l) as (_&_&->&_). reflexivity. Qed.
Lemma path_items d ps p x : In d (m_dms s) -> d_path (h_dm s' d) = DPaths ps -> In p ps -> In x p -> match x with IIf i => In i (m_ifs s) | ILsp l => In l (m_lsps s) end.
Proof.
  intros Hd P Hp Hx. assert (Fs := fin_fail E k HE s s' (rm_posed _ _ R) (rm_cids _ _ R) (rm_agree _ _ R) Up).
  destruct (routed_or E k HE s s' (rm_posed _ _ R) (rm_known _ _ R) (rm_usual _ _ R) (rm_ample _ _ R) Up d) as [H|N].
  - destruct (C07_ride E k s s' d HE (rm_posed _ _ R) (lu_once _ _ (rm_usual _ _ R)) Up Fs Hd H) as (ls & es & _ & _ & X & Q & _). rewrite P in Q. injection Q as ->.
    apply in_map_iff in Hp as (l & <- & Hl). destruct Hx as [<-|[]]. apply X in Hl. exact (in_lsp E k s s' Up d l (proj1 Hl)).
  - assert (A := C01_igp_paths E k s s' d HE (rm_posed _ _ R) Up Fs Hd N (off_s E k s s' Up (rm_off _ _ R) d)). rewrite P in A. destruct A as (L & -> & _ & _ & A). apply in_map_iff in Hp as (q & <- & Hp). apply A in Hp. rename Hp into Hq.
    unfold if_path in Hx. apply in_map_iff in Hx as (i & <- & Hi). destruct (fin_sets E k s s' Up) as (<-&_). exact (proj1 (PathProofs.route_in _ _ _ _ _ (proj1 Hq) i Hi)).
Qed.
End Keys.

Section Results.
Variables (E E' : env) (k : kind).
Hypothesis HE : env_ok E.
Hypothesis HE' : env_ok E'.
Variables s t s' t' : st.
Hypothesis D : same_data k s t.
Hypothesis Ks : keys_unique s.
Hypothesis Kt : keys_unique t.
Hypothesis Rs : usual_room k s.
Hypothesis Up : update_simulation E k s = (s', Ok tt).
Hypothesis Up' : update_simulation E' k t = (t', Ok tt).
Let LU := ur_usual _ _ Rs.
Let Rt := sd_usual k s t D Ks Kt LU Rs.

Lemma sd_lsps_same l m : In l (m_lsps s) -> In m (m_lsps t) -> lsp_key t m = lsp_key s l ->
  same_fate (l_path (h_ls s' l)) (l_path (h_ls t' m)) /\ same_amount (l_res (h_ls s' l)) (l_res (h_ls t' m)) /\ same_amount (l_setup (h_ls s' l)) (l_setup (h_ls t' m)) /\
  (sole_road s l -> same_named_way s' (l_path (h_ls s' l)) t' (l_path (h_ls t' m))).
Proof.
  intros Hl Hm K. destruct (sd_matched k s t D Ks Kt LU) as (fi & fd & fl & M & Ai & Ui & Ad & Ud & Al & Ul). rewrite (Ul l m Hl Hm K).
  assert (X := mt_lsp E E' k k 1 1 fi fd fl HE HE' s t s' t' ltac:(lia) M Rs Rt Up Up' l Hl). assert (Y := mt_setup E E' k k 1 1 fi fd fl HE HE' s t s' t' M Rs Rt Up Up' l Hl).
  destruct Y as (b & b' & -> & -> & Y). destruct X as [(p & p' & b1 & b1' & q & q' & -> & -> & B & B' & -> & -> & X)|(-> & -> & -> & ->)].
  - cbn [same_fate same_amount same_named_way]. split; [destruct (route_cost s p); reflexivity|]. split; [rewrite X; ring|]. split; [rewrite Y; ring|]. intros So. rewrite (So p' p B' B). split; [|destruct (route_cost s p); reflexivity].
    rewrite map_map. apply map_ext_in. intros i Hi. assert (I := mt_on s _ _ _ (proj1 (proj1 B)) i Hi). destruct (Ai i I) as (A & _).
    transitivity (if_key s i); [exact (fin_key E k s s' Up i)|]. rewrite <- A. symmetry. exact (fin_key E' k t t' Up' (fi i)).
  - cbn [same_fate same_amount same_named_way]. split; [auto|]. split; [auto|]. split; [rewrite Y; ring|auto].
Qed.
Hypothesis Off : shortcuts_off s.
Let Offt := sd_off k s t D Off.
Lemma sd_paths d e : In d (m_dms s) -> In e (m_dms t) -> dmd_key t e = dmd_key s d -> same_routes s' (d_path (h_dm s' d)) t' (d_path (h_dm t' e)).
Proof.
  intros Hd He K. destruct (sd_matched k s t D Ks Kt LU) as (fi & fd & fl & M & Ai & Ui & Ad & Ud & Al & Ul). rewrite (Ud d e Hd He K).
  assert (X := mt_paths E E' k k 1 1 fi fd fl HE HE' s t s' t' ltac:(lia) M Rs Rt Up Up' Off Offt d Hd). unfold paths_to in X. unfold same_routes.
  assert (V := fun ps p x => path_items E k HE s s' (room_with _ _ Rs Off) Up d ps p x Hd). destruct (d_path (h_dm s' d)) as [|ps], (d_path (h_dm t' (fd d))) as [|qs]; try contradiction; auto. destruct X as [X1 X2]. assert (V' := fun p x => V ps p x eq_refl). clear V. rename V' into V.
  assert (HH : forall p, In p ps -> map (hop_of t') (map (item_to fi fl) p) = map (hop_of s') p).
  { intros p Hp. rewrite map_map. apply map_ext_in. intros x Hx. specialize (V p x Hp Hx). destruct x as [i|l]; simpl; f_equal.
    - rewrite (fin_key E k s s' Up), (fin_key E' k t t' Up'). exact (proj1 (Ai i V)).
    - rewrite (fin_lkey E k s s' Up), (fin_lkey E' k t t' Up'). exact (proj1 (Al l V)). }
  intros h. rewrite !in_map_iff. split.
  - intros (p & <- & Hp). exists (map (item_to fi fl) p). split; auto.
  - intros (q & <- & Hq). destruct (X2 q Hq) as (p & Hp & ->). exists p. split; [|auto]. symmetry; auto.
Qed.
Lemma sd_traffic i j : In i (m_ifs s) -> In j (m_ifs t) -> if_key t j = if_key s i -> (forall d l, In d (m_dms s) -> preferred s' d l -> sole_road s l) ->
  same_traffic (i_traffic (h_if s' i)) (i_traffic (h_if t' j)).
Proof.
  intros Hi Hj K So. destruct (sd_matched k s t D Ks Kt LU) as (fi & fd & fl & M & Ai & Ui & Ad & Ud & Al & Ul). rewrite (Ui i j Hi Hj K).
  assert (X := mt_traffic E E' k k 1 1 fi fd fl HE HE' s t s' t' ltac:(lia) M Rs Rt Up Up' Off Offt i eq_refl ltac:(right; reflexivity) Hi So).
  destruct (i_failed (h_if s i)); [destruct X as [-> ->]; exact Logic.I|]. destruct X as (q & r & -> & -> & X). simpl. rewrite X. ring.
Qed.
End Results.
