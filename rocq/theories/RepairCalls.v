(** RepairCalls.v - when fail_node and fail_srlg return (C29, C31), what
    unfail_interface leaves behind (C28) and the fail/unfail round trip (C30). *)
From Verif Require Import Base Graph Objects Sim Api Spec SpecCkt SpecFail GraphProofs MonadProofs ObjProofs ApiProofs QueryProofs CircuitProofs ValidateProofs FailProofs RepairProofs.

Lemma mfor_total {A} (l : list A) body (I : st -> Prop) :
  (forall x s, In x l -> I s -> exists s', body x s = (s', Ok tt) /\ I s') ->
  forall s, I s -> exists s', mfor l body s = (s', Ok tt) /\ I s'.
Proof.
  induction l as [|x l IH]; intros Hb s Hs; [exists s; split; auto|].
  destruct (Hb x s) as (s1 & H1 & I1); [left; auto|auto|]. destruct (IH (fun y s' Hy => Hb y s' (or_intror Hy)) s1 I1) as (s2 & H2 & I2).
  exists s2. split; auto. simpl. now rewrite (bind_run _ _ _ _ _ H1).
Qed.

(** Keys and references are read off what fail calls leave alone. *)

Section Total.
Variable s : st.
Hypothesis HU : keys_unique s.
Hypothesis HR : refs_ok s.

Definition dn (s1 : st) : Prop := exists P N, brought_down s s1 P N /\ h_sr s1 = h_sr s.

Lemma dn_refl : dn s.
Proof. exists (fun _ => False), (fun _ => False). split; auto. apply bd_refl; auto. Qed.
Lemma dn_step s1 s2 P N : dn s1 -> brought_down s1 s2 P N -> h_sr s2 = h_sr s1 -> dn s2.
Proof. intros (P1 & N1 & B1 & E1) B2 E2. eexists _, _. split; [eapply bd_trans; eauto|congruence]. Qed.

Lemma dn_keys s1 : dn s1 -> keys_unique s1.
Proof.
  intros (P & N & B & Es). destruct HU as (U1 & U2 & U3 & U4 & U5). destruct (bd_sets _ _ _ _ B) as (M1 & M2 & M3 & M4 & M5).
  unfold keys_unique. rewrite M1, M2, M3, M4, M5.
  rewrite (map_ext (if_key s1) (if_key s)) by apply (bd_key _ _ _ _ B).
  rewrite (map_ext (nd_name s1) (nd_name s)) by apply (bd_name _ _ _ _ B).
  rewrite (map_ext (srlg_name s1) (srlg_name s)) by (intros g; unfold srlg_name; now rewrite Es).
  rewrite (map_ext (dmd_key s1) (dmd_key s)). 2:{ intros d. unfold dmd_key, dmd_from, dmd_to. rewrite (bd_dm _ _ _ _ B). now rewrite !(bd_name _ _ _ _ B). }
  rewrite (map_ext (lsp_key s1) (lsp_key s)). 2:{ intros d. unfold lsp_key, lsp_from, lsp_to. rewrite (bd_ls _ _ _ _ B). now rewrite !(bd_name _ _ _ _ B). }
  auto.
Qed.
Lemma dn_refs s1 : dn s1 -> refs_ok s1.
Proof.
  intros (P & N & B & Es). destruct HR as (R1 & R2 & R3). destruct (bd_sets _ _ _ _ B) as (M1 & M2 & M3 & M4 & M5). unfold refs_ok.
  rewrite M1, M2, M3, M4, (bd_dm _ _ _ _ B), (bd_ls _ _ _ _ B). split; [|split; auto].
  intros i Hi. destruct (bd_data _ _ _ _ B i) as [(_&_&_&->&->&_) _]. auto.
Qed.
Lemma dn_other s1 i : dn s1 -> has_other_end s i -> has_other_end s1 i.
Proof.
  intros (P & N & B & Es) (j & J & U). exists j. split; [now apply (bd_other _ _ _ _ B)|].
  intros x. rewrite (bd_mifs _ _ _ _ B), (bd_loc _ _ _ _ B), (bd_rem _ _ _ _ B).
  destruct (bd_data _ _ _ _ B i) as [_ ->], (bd_data _ _ _ _ B x) as [_ ->]. apply U.
Qed.

Lemma dn_fail_interface s1 i : dn s1 -> In i (m_ifs s) -> has_other_end s i ->
  exists s2, fail_interface (i_name (h_if s1 i)) (loc s i) s1 = (s2, Ok tt) /\ dn s2.
Proof.
  intros D Hi Ho. assert (U1 := dn_keys _ D). destruct (dn_other _ _ D Ho) as (j & J).
  assert (Hi1 : In i (m_ifs s1)) by (destruct D as (P & N & B & _); now rewrite (bd_mifs _ _ _ _ B)).
  destruct (fail_interface_total s1 i j U1 (dn_refs _ D) Hi1 J) as (s2 & H2).
  assert (L : loc s1 i = loc s i) by (destruct D as (P & N & B & _); apply (bd_loc _ _ _ _ B)). rewrite L in H2.
  exists s2. split; auto. destruct (fail_interface_bd _ _ _ _ (proj1 U1) H2) as (B2 & E2 & _). eapply dn_step; eauto.
Qed.

Lemma dn_fail_node s1 n : dn s1 -> In n (m_nds s) -> (forall i, In i (m_ifs s) -> loc s i = nd_name s n -> has_other_end s i) ->
  exists s2, fail_node (nd_name s n) s1 = (s2, Ok tt) /\ dn s2.
Proof.
  intros D Hn Ho. assert (U1 := dn_keys _ D).
  assert (T : exists s2, fail_node (nd_name s n) s1 = (s2, Ok tt)).
  { unfold fail_node. rewrite bind_gets.
    destruct (mfor_total (ifaces_of_name s1 (nd_name s n)) (fun i => nm <- gets (fun s => i_name (h_if s i)) ;; fail_interface nm (nd_name s n)) dn) with (s := s1) as (s2 & H2 & D2); auto.
    - intros x s2 Hx D2. apply ifaces_of_name_In in Hx as [Hx1 Hx2]. destruct D as (P & N & B & Es).
      rewrite (bd_mifs _ _ _ _ B) in Hx1. rewrite (bd_loc _ _ _ _ B) in Hx2. rewrite bind_gets. rewrite <- Hx2.
      apply dn_fail_interface; auto.
    - rewrite (bind_run _ _ _ _ _ H2), bind_reads. assert (G := get_node_spec s2 (nd_name s n)).
      destruct (get_node s2 (nd_name s n)) as [m|e]; [eexists; reflexivity|].
      exfalso. destruct G as [_ G]. destruct D2 as (P & N & B & Es). apply (G n); [now rewrite (bd_mnds _ _ _ _ B)|apply (bd_name _ _ _ _ B)]. }
  destruct T as (s2 & T). exists s2. split; auto.
  destruct (fail_node_bd _ _ _ (proj1 U1) (proj1 (proj2 U1)) T) as (B2 & E2 & _). eapply dn_step; eauto.
Qed.

Lemma fail_node_total n : In n (m_nds s) -> (forall i, In i (m_ifs s) -> loc s i = nd_name s n -> has_other_end s i) ->
  exists s', fail_node (nd_name s n) s = (s', Ok tt).
Proof. intros Hn Ho. destruct (dn_fail_node s n dn_refl Hn Ho) as (s' & H & _). eauto. Qed.

Lemma fail_srlg_total g : In g (m_srs s) ->
  (forall i, In i (m_ifs s) -> In g (i_srlgs (h_if s i)) \/ on_failed s g i -> has_other_end s i) ->
  exists s', fail_srlg (srlg_name s g) s = (s', Ok tt).
Proof.
  intros Hg Ho. unfold fail_srlg. rewrite bind_reads.
  destruct (lookups_exact s HU HR) as (_ & _ & _ & _ & L). specialize (L (srlg_name s g)).
  destruct (get_srlg s (srlg_name s g)) as [g'|e]; [|exfalso; destruct L as [_ L]; apply (L g Hg); reflexivity].
  assert (g = g') by (apply L; auto). subst g'. rewrite bind_gets.
  match goal with |- exists _, bind (mfor ?l ?b) _ _ = _ => destruct (mfor_total l b dn) with (s := s) as (s1 & H1 & D1) end.
  - intros x s1 Hx D. rewrite bind_gets. assert (D' := D). destruct D' as (P & N & B & Es).
    assert (M := mem_srlg_nodes s1 g x ltac:(now rewrite (bd_mnds _ _ _ _ B))). rewrite (bd_nsrlgs _ _ _ _ B) in M.
    destruct (mem_nd s1 x (srlg_nodes s1 g)); [|exists s1; split; auto].
    rewrite bind_gets, (bd_name _ _ _ _ B). apply (dn_fail_node s1 x); auto.
    intros i Hi Li. apply Ho; auto. right. exists x. split; auto. split; [now apply M|auto].
  - apply dn_refl.
  - rewrite (bind_run _ _ _ _ _ H1), bind_gets.
    match goal with |- exists _, bind (mfor ?l ?b) _ _ = _ => destruct (mfor_total l b dn) with (s := s1) as (s2 & H2 & D2) end; auto.
    + intros x s2 Hx D. rewrite bind_gets. assert (D' := D). destruct D' as (P & N & B & Es). destruct D1 as (P1 & N1 & B1 & Es1).
      rewrite (bd_mifs _ _ _ _ B1) in Hx. assert (U2 := dn_keys _ D).
      assert (M := mem_srlg_ifaces s2 g x (proj1 U2) ltac:(now rewrite (bd_mifs _ _ _ _ B))).
      destruct (bd_data _ _ _ _ B x) as [(_&_&_&_&_&Ex&_) _]. rewrite Ex in M.
      destruct (mem_if s2 x (srlg_ifaces s2 g)); [|exists s2; split; auto].
      rewrite bind_gets. cbn [fst snd ikey]. change (ilocal s2 x) with (loc s2 x). rewrite (bd_loc _ _ _ _ B).
      apply dn_fail_interface; auto. apply Ho; auto. left. now apply M.
    + rewrite (bind_run _ _ _ _ _ H2). eexists. reflexivity.
Qed.
End Total.

(** ** C28 *)
Lemma circuit_pair k s s1 a b : circuits_ok k s s1 -> cids_set k s -> In (a, b) (m_ckts s1) -> In a (m_ifs s) /\ In b (m_ifs s) /\ is_reverse k s a b.
Proof.
  intros C CS H. destruct (cc_ends _ _ _ C a b H) as (Ha & Hb & L & R & Hc & _). split; auto. split; auto. split; auto. split; auto. destruct k; auto.
Qed.

(** Validation, whatever its outcome, only takes down ends of half-failed links. *)
Lemma validate_failed E k s s' r x : env_ok E -> NoDup (m_ifs s) -> cids_set k s -> validate_model E k s = (s', r) ->
  h_nd s' = h_nd s /\ h_sr s' = h_sr s /\ same_sets s s' /\
  (i_failed (h_if s' x) = i_failed (h_if s x) /\ i_res (h_if s' x) = i_res (h_if s x) \/
   i_failed (h_if s' x) = true /\ i_res (h_if s' x) = 0%Q /\
   exists y, In x (m_ifs s) /\ In y (m_ifs s) /\ is_reverse k s x y /\ i_failed (h_if s x) <> i_failed (h_if s y)).
Proof.
  intros HE N CS H. assert (V := validate_mid E k s HE N). rewrite H in V.
  assert (CF : forall t, cframe k s t -> h_nd t = h_nd s /\ h_sr t = h_sr s /\ same_sets s t /\
    (i_failed (h_if t x) = i_failed (h_if s x) /\ i_res (h_if t x) = i_res (h_if s x))).
  { intros t F. destruct (cf_data _ _ _ F x) as (_&_&_&_&_&_&A&B&_). split; [apply F|]. split; [apply F|]. split; [|auto]. repeat split; apply F. }
  destruct V as [(_ & F & _)|(P & s1 & C & [T|[-> _]])].
  - destruct (CF _ F) as (A & B & D & G). auto.
  - assert (F := cc_frame _ _ _ C). destruct (td_rest _ _ _ _ F T) as (A1&A2&_&_&A3&A4&A5&A6&A7&_). split; auto. split; auto. split; [repeat split; auto|].
    destruct (td_if _ _ _ _ F T x) as (b & c & Hx & _). rewrite Hx.
    destruct (mis s (m_ckts s') x) eqn:M; [|left; auto]. right. split; [reflexivity|]. split; [reflexivity|].
    apply mis_iff in M as ([a b'] & H1 & H2 & H3). rewrite (taken_down_ckts _ _ _ T) in H1.
    destruct (circuit_pair _ _ _ _ _ C CS H1) as (Ha & Hb & Rv). simpl in H3.
    destruct H2 as [->| ->]; simpl in *; [exists b'|exists a]; auto. split; auto. split; auto. split; [now apply rev_sym|auto].
  - destruct (CF _ (cc_frame _ _ _ C)) as (A & B & D & G). auto.
Qed.


Section Unfail.
Variables (E : env) (k : kind) (s : st).
Hypothesis HE : env_ok E.
Hypothesis W : wf_net k s.

Lemma unfail_both b iname nname i j s' r s1 : In i (m_ifs s) -> other_end s i j -> ends_up s i ->
  only_ifs s s1 -> (forall x, h_if s1 x = if (Nat.eqb x i || Nat.eqb x j)%bool then up (h_if s x) else h_if s x) ->
  (s', r) = validate_model E k s1 -> unfail_interface E k iname nname b s = (s', r) ->
  (forall x, x = i \/ x = j -> i_failed (h_if s' x) = false /\ i_res (h_if s' x) = 0%Q) /\
  h_nd s' = h_nd s /\ h_sr s' = h_sr s /\ same_sets s s' /\
  (forall x, In x (m_ifs s) -> x <> i -> x <> j ->
     i_failed (h_if s' x) = i_failed (h_if s x) \/
     i_failed (h_if s' x) = true /\ exists y, In y (m_ifs s) /\ is_reverse k s x y /\ i_failed (h_if s x) <> i_failed (h_if s y)).
Proof.
  intros Hi J EU O X V _. symmetry in V. destruct W as (U & R & CS & L).
  assert (S : stat k s s1) by (apply only_ifs_stat; auto; intros x; rewrite X; destruct (_ || _); auto).
  assert (N1 : NoDup (m_ifs s1)) by (rewrite (stat_ifs _ _ _ S); eapply NoDup_map_inv; apply U).
  assert (CS1 : cids_set k s1) by (apply (stat_wf _ _ _ S); auto).
  assert (RV := other_rev k _ _ _ J). assert (Hj := proj1 J). destruct (linked_pair _ _ _ _ L Hi Hj RV) as [U1 U2].
  assert (Fi : i_failed (h_if s1 i) = false) by (rewrite X, Nat.eqb_refl; reflexivity).
  assert (Fj : i_failed (h_if s1 j) = false) by (rewrite X, Nat.eqb_refl, orb_true_r; reflexivity).
  destruct O as (O1 & O2 & O3 & _).
  destruct (validate_failed E k s1 s' r i HE N1 CS1 V) as (V1 & V2 & V3 & _).
  split; [|split; [congruence|split; [congruence|split; [eapply same_sets_trans; eauto|]]]].
  - assert (Ri : i_res (h_if s1 i) = 0%Q) by (rewrite X, Nat.eqb_refl; reflexivity).
    assert (Rj : i_res (h_if s1 j) = 0%Q) by (rewrite X, Nat.eqb_refl, orb_true_r; reflexivity).
    intros x Hx. assert (F1 : i_failed (h_if s1 x) = false /\ i_res (h_if s1 x) = 0%Q) by (destruct Hx; subst; auto).
    destruct (validate_failed E k s1 s' r x HE N1 CS1 V) as (_ & _ & _ & [[E1 E2]|(_ & _ & y & _ & Hy & Ry & Ne)]).
    + rewrite E1, E2. exact F1.
    + exfalso. rewrite (stat_ifs _ _ _ S) in Hy. apply (proj1 (stat_rev _ _ _ S x y)) in Ry.
      destruct Hx; subst x; [rewrite (U1 y Hy Ry) in Ne|rewrite (U2 y Hy Ry) in Ne]; congruence.
  - intros x Hx Nx1 Nx2. assert (Ex : h_if s1 x = h_if s x).
    { rewrite X. apply Nat.eqb_neq in Nx1, Nx2. now rewrite Nx1, Nx2. }
    destruct (validate_failed E k s1 s' r x HE N1 CS1 V) as (_ & _ & _ & [[E1 E2]|(F & _ & y & _ & Hy & Ry & Ne)]).
    + left. now rewrite E1, Ex.
    + right. split; auto. rewrite (stat_ifs _ _ _ S) in Hy. apply (proj1 (stat_rev _ _ _ S x y)) in Ry. exists y. split; auto. split; auto.
      rewrite Ex in Ne. assert (Ey : h_if s1 y = h_if s y); [|now rewrite Ey in Ne].
      rewrite X. destruct (Nat.eqb_spec y i) as [->|]; [exfalso; apply rev_sym in Ry; apply Nx2; auto|].
      destruct (Nat.eqb_spec y j) as [->|]; [exfalso; apply rev_sym in Ry; apply Nx1; auto|]. reflexivity.
Qed.

(** When it returns *)
Lemma unfail_ok b iname nname s' : unfail_interface E k iname nname b s = (s', Ok tt) ->
  exists i j, In i (m_ifs s) /\ if_key s i = (iname, nname) /\ other_end s i j /\
   ((~ ends_up s i /\ b = false /\ s' = s) \/
    (ends_up s i /\ ends_up s j /\ ~ in_failed_srlg s (i_srlgs (h_if s i)) /\ ~ in_failed_srlg s (i_srlgs (h_if s j)) /\
     (forall x, x = i \/ x = j -> i_failed (h_if s' x) = false /\ i_res (h_if s' x) = 0%Q) /\
     h_nd s' = h_nd s /\ h_sr s' = h_sr s /\ same_sets s s' /\
     (forall x, In x (m_ifs s) -> x <> i -> x <> j ->
        i_failed (h_if s' x) = i_failed (h_if s x) \/
        i_failed (h_if s' x) = true /\ exists y, In y (m_ifs s) /\ is_reverse k s x y /\ i_failed (h_if s x) <> i_failed (h_if s y)))).
Proof.
  intros H. destruct W as (U & R & CS & L).
  destruct (unfail_interface_run _ _ _ _ _ _ _ _ U R H) as [(e & X & _)|(i & j & Hi & Ki & Gr & J & X)]; [discriminate|].
  exists i, j. split; auto. split; auto. split; auto.
  destruct X as [NU -> Hb|EU Fj -> (m & Hr)|s1 EU NFj Fi O X1 -> (m & Hr)|s1 EU NFj NFi O _ _ X1 V]; try discriminate.
  - left. destruct b; [discriminate|]. auto.
  - right. split; auto. split; [apply (other_ends_up s i j); auto; [apply J|symmetry; apply J|symmetry; apply J]|]. split; auto. split; auto.
    eapply unfail_both; eauto.
Qed.

(** When it is called on a link with two proper ends *)
Lemma unfail_link b i j s' r : In i (m_ifs s) -> sole_other_end s i j ->
  unfail_interface E k (i_name (h_if s i)) (loc s i) b s = (s', r) ->
  (~ ends_up s i -> s' = s /\ (if b then exists m, r = Err (ModelException m) else r = Ok tt)) /\
  (ends_up s i -> in_failed_srlg s (i_srlgs (h_if s i)) \/ in_failed_srlg s (i_srlgs (h_if s j)) ->
     (exists m, r = Err (ModelException m)) /\
     (forall x, x = i \/ x = j -> in_failed_srlg s (i_srlgs (h_if s x)) -> i_failed (h_if s x) = true -> i_failed (h_if s' x) = true) /\
     only_ifs s s' /\ (forall x, x <> i -> x <> j -> h_if s' x = h_if s x)) /\
  (ends_up s i -> ~ in_failed_srlg s (i_srlgs (h_if s i)) -> ~ in_failed_srlg s (i_srlgs (h_if s j)) ->
     forall x, x = i \/ x = j -> i_failed (h_if s' x) = false /\ i_res (h_if s' x) = 0%Q).
Proof.
  intros Hi SJ H. destruct W as (U & R & CS & L).
  assert (Gj := get_remote_unique s i j ltac:(exact Hi) SJ).
  destruct (unfail_interface_run _ _ _ _ _ _ _ _ U R H) as [(e & _ & _ & [X|(x & Hx & Kx & X)])|(i' & j' & Hi' & Ki & Gr & J & X)].
  { exfalso. apply (X i Hi). reflexivity. }
  { exfalso. assert (x = i) by (apply (NoDup_map_inj (if_key s) (m_ifs s)); auto; apply U). subst x. congruence. }
  assert (i' = i) by (apply (NoDup_map_inj (if_key s) (m_ifs s)); auto; apply U). subst i'.
  assert (j' = j) by congruence. subst j'.
  destruct X as [NU -> Hb|EU Fj -> (m & Hr)|s1 EU NFj Fi O X1 -> (m & Hr)|s1 EU NFj NFi O _ _ X1 V].
  - split; [|split; intros; tauto]. intros _. split; auto. destruct b; subst; eauto.
  - split; [tauto|]. split; [|tauto]. intros _ _. split; [eauto|]. split; [|split; [repeat split|]].
    + intros x _ _ Fx. simpl. apply fupd_cases; intros; subst; auto.
    + intros x N1 N2. simpl. apply fupd_other. auto.
  - split; [tauto|]. split; [|tauto]. intros _ _. split; [eauto|]. split; [|split].
    + intros x Hx Gx Fx. simpl. apply fupd_cases; intros Exi; [reflexivity|]. destruct Hx as [->| ->]; tauto.
    + destruct O as (O1 & O2 & O3 & O4 & O5 & O6 & O7). repeat split; auto; try apply O1.
    + intros x N1 N2. simpl. rewrite fupd_other by auto. rewrite X1. apply Nat.eqb_neq in N2. now rewrite N2.
  - split; [tauto|]. split; [tauto|]. intros _ _ _. eapply unfail_both; eauto.
Qed.
End Unfail.

(** ** C30 *)
Lemma round_trip E k s i j : env_ok E -> wf_net k s -> ends_agree k s -> In i (m_ifs s) -> sole_other_end s i j ->
  i_failed (h_if s i) = false -> ends_up s i ->
  ~ in_failed_srlg s (i_srlgs (h_if s i)) -> ~ in_failed_srlg s (i_srlgs (h_if s j)) ->
  exists s1, fail_interface (i_name (h_if s i)) (loc s i) s = (s1, Ok tt) /\
    i_failed (h_if s1 i) = true /\ i_failed (h_if s1 j) = true /\
    forall b s2 r, unfail_interface E k (i_name (h_if s i)) (loc s i) b s1 = (s2, r) ->
      same_sets s s2 /\ same_failures_all s s2.
Proof.
  intros HE W A Hi SJ Fi EU NFi NFj. assert (W' := W). destruct W' as (U & R & CS & L). assert (J := proj1 SJ). assert (Hj := proj1 J).
  destruct (fail_interface_total s i j U R Hi SJ) as (s1 & H1). exists s1. split; auto.
  assert (RV := other_rev k _ _ _ J). assert (Fj : i_failed (h_if s j) = false) by (rewrite <- (A i j); auto).
  destruct (fail_interface_exact _ _ _ _ _ H1) as [(e & X & _)|(_ & i' & j' & Hi' & Ki & J' & O & D & Else)]; [discriminate|].
  assert (i' = i) by (apply (NoDup_map_inj (if_key s) (m_ifs s)); auto; apply U). subst i'.
  assert (j' = j) by (apply SJ; apply J'). subst j'.
  split; [apply D; auto|]. split; [apply D; auto|]. intros b s2 r H2.
  assert (DD : forall x, same_if_data (h_if s x) (h_if s1 x) /\ i_cid (h_if s1 x) = i_cid (h_if s x)).
  { intros x. destruct (Nat.eq_dec x i) as [->|N1]; [|destruct (Nat.eq_dec x j) as [->|N2]].
    - destruct (D i) as (Q1 & Q2 & _); auto.
    - destruct (D j) as (Q1 & Q2 & _); auto.
    - rewrite Else by auto. split; auto using same_if_data_refl. }
  assert (O' := O). destruct O' as (Ss & Hn & Hs & Hd & Hl & _).
  assert (S : stat k s s1).
  { constructor; auto; intros; rewrite ?Hn, ?Hs, ?Hd, ?Hl; auto. destruct (DD i0) as [(A1&_&_&A2&A3&A4&_) A5]. auto. }
  assert (W1 := stat_wf _ _ _ S W).
  assert (SJ1 : sole_other_end s1 i j).
  { unfold sole_other_end, other_end. rewrite !(stat_ifs _ _ _ S), !(stat_loc _ _ _ S), !(stat_rem _ _ _ S).
    destruct (DD i) as [_ ->], (DD j) as [_ ->]. split; [exact J|]. intros x. rewrite (stat_loc _ _ _ S). destruct (DD x) as [_ ->]. apply SJ. }
  assert (K1 : i_name (h_if s1 i) = i_name (h_if s i) /\ loc s1 i = loc s i) by (split; [apply (DD i)|apply (stat_loc _ _ _ S)]).
  destruct K1 as [K1 K2]. rewrite <- K1, <- K2 in H2.
  assert (Gs : forall gs, in_failed_srlg s1 gs <-> in_failed_srlg s gs) by (intros gs; unfold in_failed_srlg; rewrite Hs; reflexivity).
  assert (EU1 : ends_up s1 i).
  { unfold ends_up in *. rewrite Hn. destruct (DD i) as [(_&_&_&->&->&_) _]. auto. }
  assert (Sr : forall x, i_srlgs (h_if s1 x) = i_srlgs (h_if s x)) by (intros x; apply (stat_srlgs _ _ _ S)).
  destruct W1 as (U1 & R1 & CS1 & L1).
  destruct (unfail_interface_run _ _ _ _ _ _ _ _ U1 R1 H2) as [(e & _ & _ & [X|(x & Hx & Kx & X)])|(i' & j' & Hi1 & Ki1 & Gr & J1 & X)].
  { exfalso. apply (X i); [now rewrite (stat_ifs _ _ _ S)|]. reflexivity. }
  { exfalso. assert (x = i). { apply (NoDup_map_inj (if_key s1) (m_ifs s1)); auto; [apply U1|now rewrite (stat_ifs _ _ _ S)]. } subst x.
    rewrite (get_remote_unique s1 i j) in X; [discriminate|now rewrite (stat_ifs _ _ _ S)|auto]. }
  assert (i' = i). { apply (NoDup_map_inj (if_key s1) (m_ifs s1)); auto; [apply U1|now rewrite (stat_ifs _ _ _ S)]. } subst i'.
  assert (j' = j) by (apply SJ1; apply J1). subst j'.
  destruct X as [NU _ _|_ Fj1 _ _|s3 _ _ Fi1 _ _ _ _|s3 _ _ _ O3 _ _ X3 V]; try tauto.
  { exfalso. rewrite Gs, Sr in Fj1. auto. }
  { exfalso. rewrite Gs, Sr in Fi1. auto. }
  assert (S3 : stat k s1 s3) by (apply only_ifs_stat; auto; intros x; rewrite X3; destruct (_ || _); auto).
  assert (F3 : forall x, i_failed (h_if s3 x) = i_failed (h_if s x)).
  { intros x. rewrite X3. destruct (Nat.eqb_spec x i) as [->|N1]; [simpl; auto|]. destruct (Nat.eqb_spec x j) as [->|N2]; [simpl; auto|].
    simpl. now rewrite Else. }
  assert (S03 := stat_trans _ _ _ _ S S3). assert (W3 := stat_wf _ _ _ S03 W).
  assert (A3 : ends_agree k s3).
  { intros x y Hx Hy Rx. rewrite !F3. rewrite (stat_ifs _ _ _ S03) in Hx, Hy. apply A; auto. now apply (stat_rev _ _ _ S03). }
  assert (CF := validate_agree E k s3 HE (wf_nodup _ _ W3) (proj1 (proj2 (proj2 W3))) A3). rewrite <- V in CF. cbn [fst] in CF.
  split; [eapply same_sets_trans; [apply S03|apply (st_sets _ _ _ (cframe_stat _ _ _ CF))]|].
  destruct O3 as (_ & Hn3 & Hs3 & _). split; [|split].
  - intros x _. destruct (cf_data _ _ _ CF x) as (_&_&_&_&_&_&->&_). apply F3.
  - intros n _. rewrite (cf_nd _ _ _ CF), Hn3, Hn. reflexivity.
  - intros g _. rewrite (cf_sr _ _ _ CF), Hs3, Hs. reflexivity.
Qed.
