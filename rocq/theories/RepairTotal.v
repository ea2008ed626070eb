(** RepairTotal.v - when unfail_node and unfail_srlg return, and the fail/unfail
    round trips of nodes and SRLGs (C63, C64). *)
From Verif Require Import Base Graph Objects Sim Api Spec SpecCkt SpecFail SpecRepair GraphProofs MonadProofs RoundProofs ResProofs Frames ApiFrames ObjProofs ApiProofs QueryProofs CircuitProofs ValidateProofs PathProofs FailProofs RepairProofs RepairCalls RepairAll RepairSrlg.

(** ** The verdict of validation does not depend on what is failed *)
Section Same.
Variables (E : env) (k : kind) (s s' : st).
Hypothesis HE : env_ok E.
Hypothesis W : wf_net k s.
Hypothesis S : stat k s s'.
Hypothesis Ls : h_ls s' = h_ls s.
Hypothesis Sc : forall n, n_shortcuts (h_nd s' n) = n_shortcuts (h_nd s n).
Hypothesis D : forall x, same_if_data (h_if s x) (h_if s' x).

Lemma same_sane : lsps_sane s -> lsps_sane s'.
Proof.
  intros X l. destruct (st_sets _ _ _ S) as (M1 & _ & _ & M4 & _). rewrite M4, Ls. intros Hl. specialize (X l Hl).
  destruct (l_path (h_ls s l)); auto. destruct X as [S1 S2]. split; auto. intros j Hj. rewrite (stat_key _ _ _ S), M1.
  rewrite (map_ext _ (if_key s)) by apply (stat_key _ _ _ S). auto.
Qed.
Lemma same_total rd i ls : lsp_total rd s' i ls = lsp_total rd s i ls.
Proof.
  induction ls as [|l ls IH]; simpl; auto. rewrite IH. f_equal. unfold lsp_amount. rewrite Ls.
  destruct (l_path _); auto. destruct (l_res _); auto. rewrite (filter_ext (same_key s' i) (same_key s i)); auto.
  intros j. unfold same_key. rewrite !(stat_loc _ _ _ S). destruct (D i) as (-> & _), (D j) as (-> & _). reflexivity.
Qed.

Hypothesis Rz : forall x, In x (m_ifs s) -> (i_res (h_if s' x) == i_res (h_if s x))%Q.

Lemma same_avail x : In x (m_ifs s) -> (available s' x <-> available s x).
Proof.
  intros Hx. rewrite !available_iff. assert (X : (reservable_bw s' x == reservable_bw s x)%Q).
  { unfold reservable_bw, reserved_bw. destruct (D x) as (_&_&->&_&_&_&->&->). destruct (i_rsvp (h_if s x)); [|reflexivity].
    apply round1_compat. rewrite (round1_compat _ _ (Rz x Hx)). reflexivity. }
  rewrite !Qleb_le, X. reflexivity.
Qed.

Lemma same_valid : lsps_sane s -> snd (validate_model E k s) = Ok tt -> snd (validate_model E k s') = Ok tt.
Proof.
  intros Sn V. assert (W' := stat_wf _ _ _ S W). assert (N := wf_nodup _ _ W). assert (N' := wf_nodup _ _ W').
  destruct (validate_model E k s) as [t r] eqn:V1. destruct (validate_model E k s') as [t' r'] eqn:V2. cbn [snd] in *. subst r.
  apply (validate_accepts_exactly E k s' t' r' round1 HE N' (same_sane Sn) (proj1 (proj2 (proj2 W'))) round1_ok V2).
  assert (X := proj1 (validate_accepts_exactly E k s t _ round1 HE N Sn (proj1 (proj2 (proj2 W))) round1_ok V1) eq_refl).
  destruct X as (X1 & X2 & X3 & X4 & X5). destruct (st_sets _ _ _ S) as (M1 & M2 & _ & M4 & _).
  split; [|split; [|split; [|split]]].
  - intros i. rewrite M1. intros Hi. rewrite (same_avail i Hi). intros A. rewrite ?M1. destruct (X1 i Hi A) as [(j & Hj & Aj & Y) Z]. split.
    + exists j. split; auto. rewrite (same_avail j Hj). rewrite !(stat_loc _ _ _ S), !(stat_rem _ _ _ S). auto.
    + intros Hk. assert (C : forall x, i_cid (h_if s' x) = i_cid (h_if s x)) by (intros x; destruct (st_if _ _ _ S x) as (_&_&_&_&Y'); auto).
      rewrite C. intros Nc. destruct (Z Hk Nc) as [Z1 Z2]. split.
      * eapply one_in_ext; [|exact Z1]. intros x _; cbv beta. rewrite !(stat_loc _ _ _ S), !(stat_rem _ _ _ S), C; reflexivity.
      * eapply one_in_ext; [|exact Z2]. intros x _; cbv beta. rewrite !(stat_loc _ _ _ S), !(stat_rem _ _ _ S), C; reflexivity.
  - intros i. rewrite M1, M4. intros Hi. destruct (X2 i Hi) as [Y1 Y2]. rewrite (round1_compat _ _ (Rz i Hi)), same_total.
    destruct (D i) as (_&_&->&_). auto.
  - intros i j. rewrite M1. intros Hi Hj. rewrite (same_avail i Hi), (stat_rev _ _ _ S). destruct (D i) as (_&_&->&_), (D j) as (_&_&->&_). auto.
  - rewrite M2. rewrite (map_ext _ (nd_name s)) by apply (stat_name _ _ _ S). exact X4.
  - intros Hk. destruct (X5 Hk) as [Y1 Y2]. rewrite M1, M2. split; [|intros n Hn; rewrite Sc; auto].
    rewrite (map_ext _ (fun i => ends_text (loc s i) (rem s i))); auto. intros i. now rewrite (stat_loc _ _ _ S), (stat_rem _ _ _ S).
Qed.
End Same.

Section Total.
Variables (E : env) (k : kind).
Hypothesis HE : env_ok E.

(** What is needed for a repair to go through *)
Definition good (t : st) : Prop :=
  wf_net k t /\ ends_agree k t /\ all_paired k t /\ lsps_sane t /\ snd (validate_model E k t) = Ok tt.

Lemma good_next t t' P N : good t -> restored k False t t' P N -> (forall x, P x -> (i_res (h_if t x) == 0)%Q) ->
  (forall g, sr_name (h_sr t' g) = sr_name (h_sr t g)) -> (forall n, n_shortcuts (h_nd t' n) = n_shortcuts (h_nd t n)) ->
  ends_agree k t' -> all_paired k t' -> good t'.
Proof.
  intros (W & A & Pa & Sn & V) R Z Hs Sc A' Pa'. assert (S := rs_stat _ _ _ _ _ _ R Hs).
  assert (D : forall x, same_if_data (h_if t x) (h_if t' x)) by apply (rs_data _ _ _ _ _ _ R).
  assert (Ls := rs_ls _ _ _ _ _ _ R).
  split; [eapply stat_wf; eauto|]. split; auto. split; auto. split; [eapply same_sane; eauto|].
  eapply same_valid; [exact HE|exact W|exact S|exact Ls|exact Sc|exact D| |exact Sn|exact V].
  intros x _. destruct (rs_ifs_else _ _ _ _ _ _ R x) as [[_ ->]|[(Px & _ & ->)|([] & _)]]; [reflexivity|]. symmetry. now apply Z.
Qed.

Lemma rs_shortcuts q t t' P N n : restored k q t t' P N -> n_shortcuts (h_nd t' n) = n_shortcuts (h_nd t n).
Proof. intros R. destruct (rs_nodes_else _ _ _ _ _ _ R n) as [->|[_ ->]]; auto. Qed.

Lemma unfail_if_total b t i j : good t -> In i (m_ifs t) -> sole_other_end t i j -> ends_up t i ->
  ~ in_failed_srlg t (i_srlgs (h_if t i)) -> ~ in_failed_srlg t (i_srlgs (h_if t j)) ->
  (i_res (h_if t i) == 0)%Q -> (i_res (h_if t j) == 0)%Q ->
  exists t', unfail_interface E k (i_name (h_if t i)) (loc t i) b t = (t', Ok tt) /\ good t' /\
    restored k False t t' (fun x => x = i \/ x = j) (fun _ => False) /\ h_nd t' = h_nd t /\ h_sr t' = h_sr t.
Proof.
  intros G Hi SJ EU NF1 NF2 Z1 Z2. assert (G' := G). destruct G' as (W & A & Pa & Sn & V). assert (W' := W). destruct W' as (U & R & CS & L).
  destruct (unfail_interface E k (i_name (h_if t i)) (loc t i) b t) as [t' r] eqn:H. exists t'.
  assert (Gj := get_remote_unique t i j Hi SJ).
  destruct (unfail_interface_run _ _ _ _ _ _ _ _ U R H) as [(e & _ & _ & [X|(x & Hx & Kx & X)])|(i' & j' & Hi' & Ki & Gr & J & X)].
  { exfalso. apply (X i Hi). reflexivity. }
  { exfalso. assert (x = i) by (apply (NoDup_map_inj (if_key t) (m_ifs t)); auto; apply U). subst x. congruence. }
  assert (i' = i) by (apply (NoDup_map_inj (if_key t) (m_ifs t)); auto; apply U). subst i'.
  assert (j' = j) by congruence. subst j'. assert (RV := other_rev k _ _ _ J). assert (Hj := proj1 J).
  destruct X as [NU _ _|_ Fj _ _|t1 _ _ Fi _ _ _ _|t1 _ _ _ O _ _ X1 V1]; try tauto.
  destruct (both_up_agree k t t1 i j W A Hi Hj RV O X1) as (S1 & W1 & A1).
  assert (B := both_up_rs k t t1 i j O X1).
  assert (D1 : forall x, same_if_data (h_if t x) (h_if t1 x)) by apply (rs_data _ _ _ _ _ _ B).
  assert (V1' : snd (validate_model E k t1) = Ok tt).
  { apply (same_valid E k t t1 HE W S1 (rs_ls _ _ _ _ _ _ B) (fun n => rs_shortcuts _ _ _ _ _ n B) D1); [|exact Sn|exact V].
    intros x _. rewrite X1. destruct (Nat.eqb_spec x i) as [->|]; [simpl; now symmetry|]. destruct (Nat.eqb_spec x j) as [->|]; [simpl; now symmetry|]. reflexivity. }
  rewrite <- V1 in V1'. cbn [snd] in V1'. subst r. split; auto.
  destruct (unfail_if_ok E k HE _ _ _ _ _ W A H) as (i2 & j2 & Hi2 & Ki2 & Hj2 & R2 & X).
  assert (i2 = i) by (apply (NoDup_map_inj (if_key t) (m_ifs t)); auto; apply U). subst i2.
  assert (j2 = j). { destruct (linked_pair _ _ _ _ L Hi Hj RV) as [Uj _]. auto. } subst j2.
  destruct X as [[X _]|(_ & _ & _ & Rs & En & Es & A')]; [tauto|].
  split; [|auto]. eapply good_next; [exact G|exact Rs| | | |exact A'|].
  - intros x [-> | ->]; auto.
  - intros g. now rewrite Es.
  - intros n. now rewrite En.
  - eapply paired_validate; [exact HE|exact W1|exact A1| |symmetry; exact V1].
    apply (paired_upd k t); auto; intros x; rewrite X1; destruct (_ || _); auto; repeat split.
Qed.

(** ** unfail_node *)
Lemma unfail_node_total s n : good s -> In n (m_nds s) -> ~ in_failed_srlg s (n_srlgs (h_nd s n)) ->
  (forall x, In x (m_ifs s) -> at_node s n x -> ~ in_failed_srlg s (i_srlgs (h_if s x)) /\ (i_res (h_if s x) == 0)%Q) ->
  exists s', unfail_node E k (nd_name s n) s = (s', Ok tt) /\ good s'.
Proof.
  intros G Hn NF Ok0. assert (G' := G). destruct G' as (W & A & Pa & Sn & V).
  unfold unfail_node. rewrite bind_reads. change (nd_name s n) with (n_name (h_nd s n)).
  rewrite get_node_ref; [|apply W|auto]. change (n_name (h_nd s n)) with (nd_name s n).
  unfold bind at 1. rewrite node_set_false_run. assert (Fn : infs s (n_srlgs (h_nd s n)) = false) by (now apply infs_false). rewrite Fn.
  set (s1 := upd_nd n (nd_failed false) s). rewrite bind_gets.
  assert (S1 : stat k s s1) by apply stat_upd_nd. assert (W1 := stat_wf _ _ _ S1 W).
  assert (B1 := node_up_rs k False n s). fold s1 in B1.
  assert (G1 : good s1).
  { eapply good_next; [exact G|exact B1|intros x []|auto|intros m; apply (rs_shortcuts _ _ _ _ _ m B1)| |].
    - intros i j Hi Hj R. apply (A i j); auto. now apply (stat_rev _ _ _ S1).
    - apply (paired_upd k s); auto; intros x; split; auto using same_if_data_refl. }
  assert (W1' := W1). destruct W1' as (U1 & (R1 & _) & _ & L1).
  assert (At : forall x, In x (m_ifs s) -> loc s1 x = nd_name s n \/ rem s1 x = nd_name s n -> ends_up s1 x -> at_node s n x).
  { intros x Hx. destruct (R1 x Hx) as [Ra Rb]. unfold at_node, ends_up, loc, rem. change (h_if s1) with (h_if s) in *.
    assert (Q : forall m, In m (m_nds s1) -> (n_name (h_nd s1 m) = nd_name s n <-> m = n) /\ (n_failed (h_nd s1 m) = false <-> m = n \/ n_failed (h_nd s m) = false)).
    { intros m Hm. split.
      - split; [intros X; apply (NoDup_map_inj (nd_name s) (m_nds s)); auto; [apply W|rewrite <- X; symmetry; apply (stat_name _ _ _ S1)]|intros ->; apply (stat_name _ _ _ S1)].
      - simpl. apply fupd_cases; intros D; subst; [simpl; tauto|]. split; auto. intros [X|X]; auto. congruence. }
    destruct (Q _ Ra) as [-> ->], (Q _ Rb) as [-> ->]. tauto. }
  (* what holds in the loop *)
  set (J := fun a => good a /\ stat k s1 a /\ h_nd a = h_nd s1 /\ h_sr a = h_sr s1 /\
     (forall x, (i_res (h_if s1 x) == 0)%Q -> (i_res (h_if a x) == 0)%Q)).
  assert (Step : forall a x, J a -> In x (m_ifs s) -> loc s1 x = nd_name s n \/ rem s1 x = nd_name s n -> ends_up s1 x ->
    exists b, unfail_interface E k (i_name (h_if a x)) (loc a x) false a = (b, Ok tt) /\ J b).
  { intros a x (Ga & Sa & En & Es & Za) Hx Tx EU. assert (Hxa : In x (m_ifs a)) by (rewrite (stat_ifs _ _ _ Sa); exact Hx).
    destruct (proj1 (proj1 (proj2 (proj2 Ga))) x Hxa) as (y & SJ). assert (Hy := proj1 (proj1 SJ)).
    assert (Ry : is_reverse k s1 x y) by (apply (stat_rev _ _ _ Sa); apply other_rev; apply SJ).
    rewrite (stat_ifs _ _ _ Sa) in Hy.
    assert (EUy : ends_up s1 y) by (apply (other_ends_up s1 x y); auto; [apply W1|apply Ry|apply Ry]).
    assert (Ty : loc s1 y = nd_name s n \/ rem s1 y = nd_name s n) by (destruct Ry as (<- & <- & _); tauto).
    destruct (Ok0 x Hx (At x Hx Tx EU)) as [F1 Z1]. destruct (Ok0 y Hy (At y Hy Ty EUy)) as [F2 Z2].
    assert (Gs : forall z, in_failed_srlg a (i_srlgs (h_if a z)) <-> in_failed_srlg s (i_srlgs (h_if s z))).
    { intros z. unfold in_failed_srlg. rewrite Es, (stat_srlgs _ _ _ Sa). reflexivity. }
    destruct (unfail_if_total false a x y) as (b & Hb & Gb & Rb & Nb & Sb); auto.
    - unfold ends_up. rewrite En. destruct (st_if _ _ _ Sa x) as (_&->&->&_). exact EU.
    - now rewrite Gs.
    - now rewrite Gs.
    - exists b. split; auto. split; auto. split.
      { eapply stat_trans; [exact Sa|]. apply (rs_stat _ _ _ _ _ _ Rb). now rewrite Sb. }
      split; [congruence|]. split; [congruence|]. intros z Hz. specialize (Za z Hz).
      destruct (rs_ifs_else _ _ _ _ _ _ Rb z) as [[_ ->]|[(_ & _ & ->)|([] & _)]]; auto. reflexivity. }
  assert (J1 : J s1) by (split; auto; split; [apply stat_refl|auto]).
  match goal with |- exists _, mfor ?l ?b _ = _ /\ _ => destruct (mfor_total l b J) with (s := s1) as (s' & H' & (Gf & _)); [|exact J1|exists s'; auto] end.
  intros i a Hi Ja. apply ifaces_of_name_In in Hi as [Hi Li]. assert (Ja' := Ja). destruct Ja' as (Ga & Sa & En & Es & Za).
  rewrite bind_gets. destruct (st_if _ _ _ Sa i) as (_ & _ & Ei & _). rewrite En, Ei.
  destruct (n_failed (h_nd s1 (i_rem (h_if s1 i)))) eqn:Fr; [exists a; split; auto|].
  assert (EU : ends_up s1 i).
  { split; auto. destruct (R1 i Hi) as [Ra _]. assert (En1 : i_node (h_if s1 i) = n).
    { apply (NoDup_map_inj (nd_name s) (m_nds s)); auto; [apply W|]. rewrite <- Li. reflexivity || (unfold loc; symmetry; apply (stat_name _ _ _ S1)). }
    rewrite En1. unfold s1. simpl. rewrite fupd_same. reflexivity. }
  rewrite bind_gets. destruct (Step a i Ja Hi (or_introl Li) EU) as (b & Hb & Jb).
  rewrite (stat_loc _ _ _ Sa), Li in Hb. rewrite (bind_run _ _ _ _ _ Hb). assert (Jb' := Jb). destruct Jb' as (Gb & Sb & _).
  assert (Hib : In i (m_ifs b)) by (rewrite (stat_ifs _ _ _ Sb); exact Hi).
  destruct (proj1 (proj1 (proj2 (proj2 Gb))) i Hib) as (j & SJ). rewrite bind_reads, (get_remote_unique b i j Hib SJ).
  rewrite bind_gets. assert (RV : is_reverse k s1 i j) by (apply (stat_rev _ _ _ Sb); apply other_rev; apply SJ).
  assert (Hj := proj1 (proj1 SJ)). rewrite (stat_ifs _ _ _ Sb) in Hj.
  apply (Step b j Jb); auto.
  - right. destruct RV as (<- & _). exact Li.
  - apply (other_ends_up s1 i j); auto; [apply W1|apply RV|apply RV].
Qed.
End Total.

(** ** unfail_srlg returns *)
Definition tame {A} (r : res A) : Prop := match r with Ok _ => True | Err e => is_model_exn e = true end.

Lemma ignore_tame m a b r : m a = (b, r) -> tame r -> ignore_model_exn m a = (b, Ok tt).
Proof. intros H T. unfold ignore_model_exn, try. rewrite H. destruct r as [[]|e]; auto. simpl in T. now rewrite T. Qed.

Section Returns.
Variables (E : env) (k : kind).
Hypothesis HE : env_ok E.

Lemma rs_sane q t t' P N : restored k q t t' P N -> h_sr t' = h_sr t -> lsps_sane t -> lsps_sane t'.
Proof.
  intros R Es Sn. eapply (same_sane k t t'); [|apply R|exact Sn]. apply (rs_stat _ _ _ _ _ _ R). now rewrite Es.
Qed.

Lemma unfail_if_tame t i t' r : inv k t -> all_paired k t -> lsps_sane t -> In i (m_ifs t) ->
  unfail_interface E k (i_name (h_if t i)) (loc t i) false t = (t', r) -> tame r /\ lsps_sane t'.
Proof.
  intros I Pa Sn Hi H. destruct (unfail_if_any E k HE _ _ _ _ _ _ I H) as (P & Rs & _ & Es & _).
  split; [|eapply rs_sane; eauto]. assert (I' := I). destruct I' as (W & So & C1 & A). assert (W' := W). destruct W' as (U & R & CS & L).
  destruct (proj1 Pa i Hi) as (j & SJ). assert (Gj := get_remote_unique t i j Hi SJ).
  destruct (unfail_interface_run _ _ _ _ _ _ _ _ U R H) as [(e & _ & _ & [X|(x & Hx & Kx & X)])|(i' & j' & Hi' & Ki & Gr & J & X)].
  { exfalso. apply (X i Hi). reflexivity. }
  { exfalso. assert (x = i) by (apply (NoDup_map_inj (if_key t) (m_ifs t)); auto; apply U). subst x. congruence. }
  destruct X as [NU _ ->|_ Fj _ (m & ->)|t1 _ _ Fi _ _ _ (m & ->)|t1 _ _ _ O _ _ X1 V1]; try reflexivity; try exact Logic.I.
  assert (RV := other_rev k _ _ _ J). assert (Hj := proj1 J).
  destruct (both_up_agree k t t1 i' j' W A Hi' Hj RV O X1) as (S1 & W1 & A1).
  assert (B := both_up_rs k t t1 i' j' O X1).
  assert (Sn1 : lsps_sane t1) by (eapply rs_sane; [exact B|apply O|exact Sn]).
  assert (V := validate_run E k t1 HE (wf_nodup _ _ W1) Sn1). rewrite <- V1 in V.
  destruct V as [(_ & (e & -> & X) & _)|(_ & s1 & errs & _ & _ & _ & _ & ->)]; [exact X|]. destruct errs; [exact Logic.I|reflexivity].
Qed.

Lemma unfail_node_tame t n t' r : inv k t -> all_paired k t -> lsps_sane t -> In n (m_nds t) ->
  unfail_node E k (nd_name t n) t = (t', r) -> tame r /\ lsps_sane t'.
Proof.
  intros I Pa Sn Hn H. split.
  2:{ destruct (unfail_node_any E k HE _ _ _ _ I H) as (_ & Es & _ & [(-> & _)|(m & _ & _ & [(_ & _ & -> & _)|(_ & P & Rs & _)])]); auto.
      - eapply (same_sane k t); [apply stat_upd_nd|reflexivity|exact Sn].
      - eapply rs_sane; eauto. }
  unfold unfail_node in H. rewrite bind_reads in H. change (nd_name t n) with (n_name (h_nd t n)) in H.
  rewrite get_node_ref in H; [|apply I|auto]. change (n_name (h_nd t n)) with (nd_name t n) in H.
  unfold bind at 1 in H. rewrite node_set_false_run in H. destruct (infs t (n_srlgs (h_nd t n))) eqn:Fn; [injection H as _ <-; reflexivity|].
  apply infs_false in Fn. set (s1 := upd_nd n (nd_failed false) t) in *. rewrite bind_gets in H. cbv beta in H.
  assert (I1 : inv k s1) by (apply inv_nd; auto; try discriminate; tauto).
  assert (S1 : stat k t s1) by apply stat_upd_nd.
  assert (Pa1 : all_paired k s1) by (apply (paired_upd k t); auto; intros x; split; auto using same_if_data_refl).
  set (J := fun a => keeps k s1 a /\ lsps_sane a).
  assert (Step : forall a x b r1, J a -> In x (m_ifs s1) -> unfail_interface E k (i_name (h_if a x)) (loc a x) false a = (b, r1) -> tame r1 /\ J b).
  { intros a x b r1 [Ka Sa] Hx Hb. assert (Ka' := Ka). destruct Ka' as (Ia & Ssa & _ & _ & Paa).
    assert (Hxa : In x (m_ifs a)) by (now rewrite (stat_ifs _ _ _ Ssa)).
    destruct (unfail_if_tame a x b r1 Ia (Paa Pa1) Sa Hxa Hb) as [T Sb]. split; auto. split; auto.
    apply (keeps_step E k HE _ _ _ _ _ _ _ Ka Hb). }
  assert (Lp : forall l a b r1, (forall x, In x l -> In x (ifaces_of_name s1 (nd_name t n))) -> J a ->
    mfor l (fun i => rf <- gets (fun s => n_failed (h_nd s (i_rem (h_if s i)))) ;;
        if rf : bool then ret tt
        else nm <- gets (fun s => i_name (h_if s i)) ;;
        unfail_interface E k nm (nd_name t n) false ;;;
        j <- reads (fun s => get_remote_interface s i) ;;
        kj <- gets (fun s => ikey s j) ;;
        unfail_interface E k (fst kj) (snd kj) false) a = (b, r1) -> tame r1).
  { induction l as [|i l IH]; intros a b r1 Hl Ja Hb; [injection Hb as _ <-; exact Logic.I|].
    assert (Hi := Hl i (or_introl eq_refl)). apply ifaces_of_name_In in Hi as [Hi Li].
    assert (Hl' : forall x, In x l -> In x (ifaces_of_name s1 (nd_name t n))) by (intros x Hx; apply Hl; now right).
    cbn [mfor] in Hb. apply bind_inv in Hb as [(a1 & [] & Hb & Hr)|(e & Hb & ->)].
    - rewrite bind_gets in Hb. cbv beta in Hb. destruct (n_failed _); [injection Hb as <-; eapply IH; eauto|].
      rewrite bind_gets in Hb. cbv beta in Hb. apply bind_ok in Hb as (a2 & [] & H2 & Hb).
      assert (La : loc a i = nd_name t n) by (destruct Ja as [(_ & Ssa & _) _]; now rewrite (stat_loc _ _ _ Ssa)).
      rewrite <- La in H2. destruct (Step _ _ _ _ Ja Hi H2) as [_ J2].
      rewrite bind_reads in Hb. destruct (get_remote_interface a2 i) as [j|] eqn:Gr; [|discriminate].
      rewrite bind_gets in Hb. cbv beta in Hb. destruct J2 as [K2 Sn2]. assert (S2 := proj1 (proj2 K2)).
      assert (Hi2 : In i (m_ifs a2)) by (now rewrite (stat_ifs _ _ _ S2)). assert (J' := get_remote_ok _ _ _ Hi2 Gr).
      assert (Hj := proj1 J'). rewrite (stat_ifs _ _ _ S2) in Hj.
      destruct (Step _ _ _ _ (conj K2 Sn2) Hj Hb) as [_ J3]. eapply IH; eauto.
    - simpl. rewrite bind_gets in Hb. cbv beta in Hb. destruct (n_failed _); [discriminate|].
      rewrite bind_gets in Hb. cbv beta in Hb.
      assert (La : loc a i = nd_name t n) by (destruct Ja as [(_ & Ssa & _) _]; now rewrite (stat_loc _ _ _ Ssa)).
      rewrite <- La in Hb. apply bind_inv in Hb as [(a2 & [] & H2 & Hb)|(e2 & H2 & X)].
      2:{ injection X as <-. exact (proj1 (Step _ _ _ _ Ja Hi H2)). }
      destruct (Step _ _ _ _ Ja Hi H2) as [_ [K2 Sn2]]. assert (S2 := proj1 (proj2 K2)). assert (Pa2 := proj2 (proj2 (proj2 (proj2 K2))) Pa1).
      assert (Hi2 : In i (m_ifs a2)) by (now rewrite (stat_ifs _ _ _ S2)).
      destruct (proj1 Pa2 i Hi2) as (j & SJ). rewrite bind_reads, (get_remote_unique a2 i j Hi2 SJ) in Hb.
      rewrite bind_gets in Hb. cbv beta in Hb. assert (Hj := proj1 (proj1 SJ)). rewrite (stat_ifs _ _ _ S2) in Hj.
      exact (proj1 (Step _ _ _ _ (conj K2 Sn2) Hj Hb)). }
  eapply Lp; [|split; [apply keeps_refl; exact I1|]|exact H]; auto.
  eapply rs_sane; [apply (node_up_rs k False n t)| |exact Sn]. reflexivity.
Qed.

Lemma get_srlg_ref s g : NoDup (map (srlg_name s) (m_srs s)) -> NoDup (m_srs s) -> In g (m_srs s) -> get_srlg s (srlg_name s g) = Ok g.
Proof.
  intros U N Hg. unfold get_srlg. destruct (filter (fun x => String.eqb (sr_name (h_sr s x)) (srlg_name s g)) (m_srs s)) as [|x [|y l]] eqn:F.
  - exfalso. assert (X : In g []) by (rewrite <- F; apply filter_In; split; auto; apply String.eqb_refl). destruct X.
  - assert (X : In x [x]) by (left; auto). rewrite <- F in X. apply filter_In in X as [X1 X2]. apply String.eqb_eq in X2.
    f_equal. apply (NoDup_map_inj (srlg_name s) (m_srs s)); auto.
  - exfalso. assert (M : forall z, In z (x :: y :: l) -> z = g).
    { intros z Hz. rewrite <- F in Hz. apply filter_In in Hz as [Z1 Z2]. apply String.eqb_eq in Z2. apply (NoDup_map_inj (srlg_name s) (m_srs s)); auto. }
    assert (N' : NoDup (x :: y :: l)) by (rewrite <- F; now apply NoDup_filter).
    rewrite (M x), (M y) in N' by (simpl; auto). inversion N' as [|? ? X _]. apply X. left; auto.
Qed.

Lemma unfail_srlg_total s g : inv k s -> all_paired k s -> lsps_sane s -> In g (m_srs s) ->
  exists s', unfail_srlg E k (srlg_name s g) s = (s', Ok tt).
Proof.
  intros I Pa Sn Hg. unfold unfail_srlg. assert (U5 : NoDup (map (srlg_name s) (m_srs s))) by apply I.
  rewrite bind_reads, get_srlg_ref; auto; [|eapply NoDup_map_inv; eauto].
  rewrite bind_modify. set (s0 := upd_sr g (sr_set false) s). rewrite bind_gets.
  assert (I0 : inv k s0) by (apply KI_sr_off; exact I).
  assert (S0 : stat k s s0) by apply stat_upd_sr.
  assert (Pa0 : all_paired k s0) by (apply (paired_upd k s); auto; intros x; split; auto using same_if_data_refl).
  set (J := fun a => inv k a /\ stat k s0 a /\ all_paired k a /\ lsps_sane a).
  assert (J0 : J s0) by (split; auto; split; [apply stat_refl|auto]).
  match goal with |- exists _, bind (mfor ?l ?b) _ _ = _ => destruct (mfor_total l b J) with (s := s0) as (s1 & H1 & J1); [|exact J0|] end.
  { intros n a Hn (Ia & Sa & Paa & Sna). rewrite bind_gets. destruct (mem_nd _ _ _); [|exists a; split; [reflexivity|split; auto]].
    rewrite bind_gets. change (n_name (h_nd a n)) with (nd_name a n). destruct (unfail_node E k (nd_name a n) a) as [b r] eqn:Hb.
    assert (Hna : In n (m_nds a)) by (now rewrite (stat_nds _ _ _ Sa)).
    destruct (unfail_node_tame a n b r Ia Paa Sna Hna Hb) as [T Snb]. exists b. split; [eapply ignore_tame; eauto|].
    destruct (unfail_node_any E k HE _ _ _ _ Ia Hb) as (Ib & Es & Pb & X). split; auto. split; [|auto].
    eapply stat_trans; [exact Sa|]. destruct X as [(-> & _)|(m & _ & _ & [(_ & _ & -> & _)|(_ & P & Rs & _)])]; [apply stat_refl|apply stat_upd_nd|].
    apply (rs_stat _ _ _ _ _ _ Rs). now rewrite Es. }
  rewrite (bind_run _ _ _ _ _ H1), bind_gets.
  match goal with |- exists _, mfor ?l ?b _ = _ => destruct (mfor_total l b J) with (s := s1) as (s2 & H2 & J2); [|exact J1|exists s2; exact H2] end.
  intros i a Hi (Ia & Sa & Paa & Sna). rewrite bind_gets. destruct (mem_if _ _ _); [|exists a; split; [reflexivity|split; auto]].
  rewrite bind_gets. cbn [fst snd ikey]. change (ilocal a i) with (loc a i). destruct (unfail_interface E k (i_name (h_if a i)) (loc a i) false a) as [b r] eqn:Hb.
  assert (Hia : In i (m_ifs a)) by (destruct J1 as (_ & S1 & _); rewrite (stat_ifs _ _ _ Sa); now rewrite <- (stat_ifs _ _ _ S1)).
  destruct (unfail_if_tame a i b r Ia Paa Sna Hia Hb) as [T Snb]. exists b. split; [eapply ignore_tame; eauto|].
  destruct (unfail_if_any E k HE _ _ _ _ _ _ Ia Hb) as (P & Rs & _ & Es & _).
  split; [assert (X := KI_unfail_interface E k (i_name (h_if a i)) (loc a i) false HE a Ia); rewrite Hb in X; exact X|].
  split; [eapply stat_trans; [exact Sa|]; apply (rs_stat _ _ _ _ _ _ Rs); now rewrite Es|]. split; auto.
  eapply paired_unfail; eauto.
Qed.
End Returns.

(** ** unfail_srlg brings up everything at its nodes, when no step fails *)
Section All.
Variables (E : env) (k : kind).
Hypothesis HE : env_ok E.

Lemma unfail_srlg_all s g s' : inv k s -> good E k s -> In g (m_srs s) ->
  (forall x, In x (m_ifs s) -> at_member s g x -> (i_res (h_if s x) == 0)%Q /\
     forall h, In h (i_srlgs (h_if s x)) -> sr_failed (h_sr s h) = true -> h = g) ->
  unfail_srlg E k (srlg_name s g) s = (s', Ok tt) ->
  forall x, In x (m_ifs s) -> at_member s g x -> (i_failed (h_if s' x) = false <-> ends_up s' x).
Proof.
  intros I G Hg Q H. assert (G0' := G). destruct G0' as (W & A & Pa & Sn & V).
  assert (If : inv k s'). { assert (X := KI_unfail_srlg E k (srlg_name s g) HE s I). rewrite H in X. exact X. }
  assert (Ifs : m_ifs s' = m_ifs s /\ (forall x, i_node (h_if s' x) = i_node (h_if s x) /\ i_rem (h_if s' x) = i_rem (h_if s x))).
  { destruct (unfail_srlg_ok E k HE _ _ _ I Pa H) as (g' & _ & _ & _ & _ & _ & _ & _ & P & Rs & _). split; [apply Rs|].
    intros x. destruct (rs_data _ _ _ _ _ _ Rs x) as ((_&_&_&X1&X2&_)&_). auto. }
  unfold unfail_srlg in H. assert (U5 : NoDup (map (srlg_name s) (m_srs s))) by apply W.
  rewrite bind_reads, get_srlg_ref in H; auto; [|eapply NoDup_map_inv; eauto].
  rewrite bind_modify in H. set (s0 := upd_sr g (sr_set false) s) in *. rewrite bind_gets in H. cbv beta in H.
  assert (I0 : inv k s0) by (apply KI_sr_off; exact I).
  assert (S0 : stat k s s0) by apply stat_upd_sr.
  assert (R0 : restored k False s s0 (fun _ => False) (fun _ => False)).
  { constructor; auto; try tauto; [repeat split|]. intros x. split; auto using same_if_data_refl. }
  assert (G0 : good E k s0).
  { eapply good_next; [exact HE|exact G|exact R0|intros x []|apply (st_sr _ _ _ S0)|auto|apply I0|].
    apply (paired_upd k s); auto; intros x; split; auto using same_if_data_refl. }
  assert (Q0 : forall x, In x (m_ifs s) -> at_member s g x -> ~ in_failed_srlg s0 (i_srlgs (h_if s x))).
  { intros x Hx Mx (h & Hh & Fh). revert Fh. unfold s0. simpl. apply fupd_cases; [discriminate|]. intros D F. apply D. apply (proj2 (Q x Hx Mx) h); auto. }
  apply bind_ok in H as (s1 & [] & H1 & H).
  (* the nodes *)
  set (J := fun (done : list nat) (a : st) => inv k a /\ good E k a /\ stat k s0 a /\ h_sr a = h_sr s0 /\
     (forall x, (i_res (h_if s0 x) == 0)%Q -> (i_res (h_if a x) == 0)%Q) /\
     (forall x n, In x (m_ifs s) -> In n done -> In g (n_srlgs (h_nd s n)) -> i_node (h_if s x) = n \/ i_rem (h_if s x) = n -> ends_up a x -> i_failed (h_if a x) = false)).
  assert (J1 : J (m_nds s0) s1).
  { match type of H1 with mfor ?l ?b _ = _ => refine (mfor_inv l b J _ s0 s1 tt _ H1) end.
    2:{ split; auto. split; auto. split; [apply stat_refl|]. split; auto. split; auto. intros x n _ []. }
    intros done n rest a b El (Ia & Ga & Sa & Es & Za & Ja) Hb. rewrite bind_gets in Hb. cbv beta in Hb.
    assert (Hn : In n (m_nds s0)) by (rewrite El; apply in_or_app; right; left; auto).
    assert (Hna : In n (m_nds a)) by (now rewrite (stat_nds _ _ _ Sa)).
    assert (Mm := mem_srlg_nodes a g n Hna). destruct (st_nd _ _ _ Sa n) as [En Eg]. rewrite Eg in Mm.
    destruct (mem_nd a n (srlg_nodes a g)).
    2:{ injection Hb as <-. split; auto. split; auto. split; auto. split; auto. split; auto. intros x m Hx Hm Gm Tx EU.
        apply in_app_or in Hm as [Hm|[<-|[]]]; [eapply Ja; eauto|]. exfalso. apply Mm in Gm. discriminate. }
    assert (Mg : In g (n_srlgs (h_nd s n))) by (apply Mm; auto). clear Mm.
    rewrite bind_gets in Hb. cbv beta in Hb. change (n_name (h_nd a n)) with (nd_name a n) in Hb.
    apply ignore_ok in Hb as (r & Hb).
    assert (Gs : forall gs, in_failed_srlg a gs <-> in_failed_srlg s0 gs) by (intros gs; unfold in_failed_srlg; now rewrite Es).
    assert (Ta : forall x, i_node (h_if a x) = i_node (h_if s x) /\ i_rem (h_if a x) = i_rem (h_if s x)).
    { intros x. destruct (st_if _ _ _ Sa x) as (_ & X1 & X2 & _). auto. }
    destruct (infs a (n_srlgs (h_nd a n))) eqn:Fn.
    - (* held by another failed SRLG *)
      apply infs_iff in Fn. destruct (unfail_node_any E k HE _ _ _ _ Ia Hb) as (Ib & Esb & Pb & [(_ & X & _)|(m & Hm & Nm & [(F1 & F2 & -> & _)|(F1 & _)])]).
      { exfalso. apply (X n Hna). reflexivity. }
      2:{ exfalso. assert (m = n) by (apply (NoDup_map_inj (nd_name a) (m_nds a)); auto; apply Ia). subst m. tauto. }
      assert (m = n) by (apply (NoDup_map_inj (nd_name a) (m_nds a)); auto; apply Ia). subst m.
      set (b := upd_nd n (nd_failed true) a) in *.
      assert (Sb : stat k a b) by apply stat_upd_nd.
      assert (Nb : forall m, h_nd b m = h_nd a m).
      { intros m. unfold b. simpl. apply fupd_cases; intros D; subst; auto. now apply nd_failed_id. }
      split; auto. split.
      { destruct Ga as (Wa & Aa & Paa & Sna & Va). split; [eapply stat_wf; eauto|]. split; [apply Ib|]. split; [auto|].
        split; [eapply (same_sane k a); eauto|].
        eapply (same_valid E k a b); [exact HE|exact Wa|exact Sb|reflexivity|intros m; now rewrite Nb|intros x; apply same_if_data_refl|reflexivity|exact Sna|exact Va]. }
      split; [eapply stat_trans; eauto|]. split; [exact Es|]. split; auto.
      intros x m Hx Hm' Gm Tx EU. assert (EUa : ends_up a x) by (unfold ends_up in *; rewrite !Nb in EU; exact EU).
      apply in_app_or in Hm' as [Hm'|[<-|[]]]; [exact (Ja x m Hx Hm' Gm Tx EUa)|]. exfalso.
      destruct (Ta x) as [T1 T2]. unfold ends_up in EUa. rewrite T1, T2 in EUa. destruct Tx as [X|X]; rewrite X in EUa; destruct EUa; congruence.
    - apply infs_false in Fn.
      destruct (unfail_node_total E k HE a n Ga Hna Fn) as (b' & Hb' & Gb).
      { intros x Hx At. rewrite (stat_ifs _ _ _ Sa) in Hx. assert (Mx : at_member s g x).
        { exists n. split; auto. split; auto. destruct At as [At _]. destruct (Ta x) as [<- <-]. exact At. }
        split; [rewrite Gs, (stat_srlgs _ _ _ Sa); apply Q0; auto|]. apply Za. apply (Q x Hx Mx). }
      rewrite Hb in Hb'. injection Hb' as <- ->.
      assert (Aa := proj1 (proj2 Ga)). destruct (unfail_node_ok E k HE _ _ _ (proj1 Ga) Aa Hb) as (m & Hm & Nm & _ & Esb & Rs & _ & Wb & Ab).
      assert (m = n) by (apply (NoDup_map_inj (nd_name a) (m_nds a)); auto; apply Ia). subst m.
      assert (Sb : stat k a b) by (apply (rs_stat _ _ _ _ _ _ Rs); now rewrite Esb).
      split; [assert (X := KI_unfail_node E k (nd_name a n) HE a Ia); rewrite Hb in X; exact X|].
      split; auto. split; [eapply stat_trans; eauto|]. split; [congruence|]. split.
      { intros x Hx. specialize (Za x Hx). destruct (rs_ifs_else _ _ _ _ _ _ Rs x) as [[_ ->]|[(_ & _ & ->)|([] & _)]]; auto. reflexivity. }
      assert (Ndb : forall y, n_failed (h_nd b y) = false -> y = n \/ n_failed (h_nd a y) = false).
      { intros y Hy. destruct (rs_nodes_else _ _ _ _ _ _ Rs y) as [X|[X _]]; [rewrite X in Hy|]; auto. }
      intros x m' Hx Hm' Gm Tx EU. destruct (Ta x) as [T1 T2].
      assert (Tb : i_node (h_if b x) = i_node (h_if a x) /\ i_rem (h_if b x) = i_rem (h_if a x)) by (destruct (st_if _ _ _ Sb x) as (_ & X1 & X2 & _); auto).
      destruct Tb as [Tb1 Tb2]. assert (Hxa : In x (m_ifs a)) by (rewrite (stat_ifs _ _ _ Sa); exact Hx).
      destruct EU as [EU1 EU2]. rewrite Tb1 in EU1. rewrite Tb2 in EU2. apply Ndb in EU1, EU2.
      destruct (Nat.eq_dec (i_node (h_if a x)) n) as [D1|D1]; [|destruct (Nat.eq_dec (i_rem (h_if a x)) n) as [D2|D2]].
      + apply (rs_ifs _ _ _ _ _ _ Rs). split; auto. split; auto.
      + apply (rs_ifs _ _ _ _ _ _ Rs). split; auto. split; auto.
      + apply (rs_up_stays _ _ _ _ _ _ Rs). apply in_app_or in Hm' as [Hm'|[<-|[]]].
        * apply (Ja x m'); auto. split; [destruct EU1|destruct EU2]; tauto.
        * exfalso. rewrite <- T1, <- T2 in Tx. tauto. }
  destruct J1 as (I1 & G1 & S1 & Es1 & _ & J1). rewrite bind_gets in H. cbv beta in H.
  (* the interfaces *)
  assert (M2 : keeps k s1 s' /\ h_sr s' = h_sr s1 /\ exists P N, restored k True s1 s' P N /\ (forall y, P y -> True) /\ (forall y : nat, N y -> False)).
  { match type of H with mfor ?l ?b _ = _ => refine (mfor_rs_any k True l b (keeps k s1) (fun _ => True) (fun _ => False) _ s1 s' (Ok tt) (keeps_refl k s1 I1) H) end.
    intros i a b r Hi K Hb. rewrite bind_gets in Hb. cbv beta in Hb. destruct (mem_if _ _ _).
    2:{ injection Hb as <- _. split; auto. split; auto. eexists _, _. split; [apply rs_refl|]. split; auto. }
    rewrite bind_gets in Hb. cbv beta in Hb.
    assert (X : exists r', unfail_interface E k (fst (ikey a i)) (snd (ikey a i)) false a = (b, r')).
    { unfold ignore_model_exn, try in Hb. destruct (unfail_interface E k _ _ false a) as [b' [u|e]]; [injection Hb as <- _; eauto|].
      destruct (is_model_exn e); injection Hb as <- _; eauto. }
    destruct X as (r' & X). destruct (keeps_step E k HE _ _ _ _ _ _ _ K X) as (Kb & Eb & P & Rs & _). split; auto. split; auto.
    exists P, (fun _ => False). auto. }
  destruct M2 as ((_ & S2 & En2 & _) & _ & P & N & Rs & _).
  intros x Hx Mx. split.
  - intros F. apply If; auto. rewrite (proj1 Ifs). exact Hx.
  - intros EU. apply (rs_up_stays _ _ _ _ _ _ Rs). destruct Mx as (n & Hn & Gn & Tx). apply (J1 x n); auto.
    unfold ends_up in *. rewrite <- En2. destruct (st_if _ _ _ S2 x) as (_ & <- & <- & _). exact EU.
Qed.

(** ** Round trips *)
Lemma bd_good s s1 P N : good E k s -> brought_down s s1 P N -> (forall g, sr_name (h_sr s1 g) = sr_name (h_sr s g)) ->
  (forall x, hit s P x -> (i_res (h_if s x) == 0)%Q) -> ends_agree k s1 -> stat k s s1 /\ good E k s1.
Proof.
  intros (W & A & Pa & Sn & V) B Hs Z A1.
  assert (S : stat k s s1).
  { constructor; auto.
    - apply B.
    - intros n. split; [apply (bd_name _ _ _ _ B)|apply (bd_nsrlgs _ _ _ _ B)].
    - intros d. now rewrite (bd_dm _ _ _ _ B).
    - intros d. now rewrite (bd_ls _ _ _ _ B).
    - intros i. destruct (bd_data _ _ _ _ B i) as [(X1&_&_&X2&X3&X4&_) X5]. auto. }
  split; auto.
  assert (D : forall x, same_if_data (h_if s x) (h_if s1 x)) by apply (bd_data _ _ _ _ B).
  assert (Rz : forall x, (i_res (h_if s1 x) == i_res (h_if s x))%Q).
  { intros x. destruct (bd_ifs_else _ _ _ _ B x) as [->|[Hx (_&_&_&_&_&->)]]; [reflexivity|]. symmetry. auto. }
  split; [eapply stat_wf; eauto|]. split; auto. split; [|split].
  - apply (paired_upd k s); auto; [apply (bd_data _ _ _ _ B)|]. intros x.
    destruct (bd_ifs_else _ _ _ _ B x) as [->|[Hx (_&_&_&_&_&->)]]; auto.
  - eapply (same_sane k s); [exact S|apply B|exact Sn].
  - eapply (same_valid E k s s1); [exact HE|exact W|exact S|apply B| |exact D|auto|exact Sn|exact V].
    intros n. destruct (bd_nodes_else _ _ _ _ B n) as [->|[_ ->]]; auto.
Qed.

Lemma node_hit s s1 n : wf_net k s -> In n (m_nds s) -> brought_down s s1 (fun i => loc s i = nd_name s n) (fun m => In m (m_nds s) /\ nd_name s m = nd_name s n) ->
  (forall x, hit s (fun i => loc s i = nd_name s n) x -> In x (m_ifs s) /\ touches s n x) /\
  (forall x, In x (m_ifs s) -> touches s n x -> i_failed (h_if s1 x) = true).
Proof.
  intros (U & R & CS & L) Hn B. assert (Nd : forall m, In m (m_nds s) -> nd_name s m = nd_name s n -> m = n).
  { intros m Hm Em. apply (NoDup_map_inj (nd_name s) (m_nds s)); auto. apply U. }
  split.
  - intros x (i & Hi & Li & X). destruct (proj1 R i Hi) as [Ra Rb]. assert (En := Nd _ Ra Li). destruct X as [->|(Hx & X1 & X2 & _)].
    + split; auto. left. exact En.
    + split; auto. right. destruct (proj1 R x Hx) as [_ Rx]. apply Nd; auto. unfold nd_name. change (n_name (h_nd s (i_rem (h_if s x)))) with (rem s x). rewrite X2. exact Li.
  - intros x Hx [T|T].
    + apply (bd_ifs _ _ _ _ B x Hx). unfold loc. now rewrite T.
    + destruct (L x Hx) as (y & Hy & Ry & Uy). assert (Ly : loc s y = nd_name s n) by (destruct Ry as (_ & <- & _); unfold rem; now rewrite T).
      destruct (bd_ifs _ _ _ _ B y Hy Ly) as (_ & z & Oz & Dz). assert (z = x).
      { destruct (L y Hy) as (w & _ & _ & Uw). rewrite (Uw x), (Uw z); auto; [apply Oz|now apply other_rev|now apply rev_sym]. }
      subst z. apply Dz.
Qed.

Lemma node_round_trip s n : inv k s -> good E k s -> In n (m_nds s) -> n_failed (h_nd s n) = false ->
  (forall x, In x (m_ifs s) -> touches s n x -> (i_res (h_if s x) == 0)%Q /\ (ends_up s x -> i_failed (h_if s x) = false)) ->
  exists s1 s2, fail_node (nd_name s n) s = (s1, Ok tt) /\ n_failed (h_nd s1 n) = true /\
    (forall x, In x (m_ifs s) -> touches s n x -> i_failed (h_if s1 x) = true) /\
    unfail_node E k (nd_name s n) s1 = (s2, Ok tt) /\ same_sets s s2 /\ same_failures_all s s2.
Proof.
  intros I G Hn Fn Q. assert (G' := G). destruct G' as (W & A & Pa & Sn & V). assert (W' := W). destruct W' as (U & R & CS & L).
  assert (I' := I). destruct I' as (_ & (So1 & So2 & So3) & C1 & _).
  destruct (fail_node_total s U R n Hn) as (s1 & H1); [intros; apply Pa; auto|].
  destruct (fail_node_bd _ _ _ (proj1 U) (proj1 (proj2 U)) H1) as (B & Es1 & _).
  destruct (node_hit s s1 n W Hn B) as [Hit Dn].
  assert (I1 : inv k s1). { assert (X := KI_fail_node k (nd_name s n) s I). rewrite H1 in X. exact X. }
  destruct (bd_good s s1 _ _ G B) as [S1 G1]; [intros g; now rewrite Es1|intros x Hx; destruct (Hit x Hx); now apply Q|apply I1|].
  assert (Nds : forall m, m <> n -> h_nd s1 m = h_nd s m).
  { intros m D. destruct (bd_nodes_else _ _ _ _ B m) as [X|[[Hm Nm] _]]; auto. exfalso. apply D.
    apply (NoDup_map_inj (nd_name s) (m_nds s)); auto. apply U. }
  assert (Hn1 : In n (m_nds s1)) by (now rewrite (stat_nds _ _ _ S1)).
  assert (Gs : forall gs, in_failed_srlg s1 gs <-> in_failed_srlg s gs) by (intros gs; unfold in_failed_srlg; now rewrite Es1).
  assert (T1 : forall x, i_node (h_if s1 x) = i_node (h_if s x) /\ i_rem (h_if s1 x) = i_rem (h_if s x)).
  { intros x. destruct (st_if _ _ _ S1 x) as (_ & X1 & X2 & _). auto. }
  assert (At : forall x, In x (m_ifs s) -> (at_node s1 n x <-> touches s n x /\ ends_up s x)).
  { intros x Hx. destruct (T1 x) as [X1 X2]. unfold at_node, touches, ends_up. rewrite X1, X2.
    assert (Y : forall m, (m = n \/ n_failed (h_nd s1 m) = false) <-> n_failed (h_nd s m) = false).
    { intros m. destruct (Nat.eq_dec m n) as [->|D]; [tauto|]. rewrite (Nds m D). tauto. }
    rewrite !Y. tauto. }
  destruct (unfail_node_total E k HE s1 n G1 Hn1) as (s2 & H2 & G2).
  - destruct (st_nd _ _ _ S1 n) as [_ ->]. rewrite Gs. intros X. rewrite (So2 n Hn X) in Fn. discriminate.
  - intros x. rewrite (stat_ifs _ _ _ S1). intros Hx Ax. apply At in Ax as [Tx EU]; auto. rewrite Gs, (stat_srlgs _ _ _ S1). split.
    + intros X. assert (Y0 := So1 x Hx X). destruct (Q x Hx Tx) as [_ Y]. specialize (Y EU). congruence.
    + destruct (Q x Hx Tx) as [Y _]. destruct (bd_ifs_else _ _ _ _ B x) as [->|[_ (_&_&_&_&_&->)]]; auto. reflexivity.
  - rewrite (stat_name _ _ _ S1) in H2. exists s1, s2. split; auto. split; [apply (bd_nodes _ _ _ _ B); auto|]. split; auto. split; auto.
    destruct (unfail_node_ok E k HE _ _ _ (proj1 G1) (proj1 (proj2 G1)) H2) as (m & Hm & Nm & _ & Es2 & Rs & _).
    rewrite (stat_nds _ _ _ S1) in Hm. rewrite (stat_name _ _ _ S1) in Nm.
    assert (m = n) by (apply (NoDup_map_inj (nd_name s) (m_nds s)); auto; apply U). subst m.
    split; [eapply same_sets_trans; [apply S1|apply Rs]|]. split; [|split].
    + intros x Hx. assert (Hx1 : In x (m_ifs s1)) by (now rewrite (stat_ifs _ _ _ S1)).
      destruct (Nat.eq_dec (i_node (h_if s x)) n) as [D1|D1]; [|destruct (Nat.eq_dec (i_rem (h_if s x)) n) as [D2|D2]].
      3:{ assert (NT : ~ touches s n x) by (unfold touches; tauto).
          destruct (rs_ifs_else _ _ _ _ _ _ Rs x) as [[-> _]|[((_ & X) & _)|([] & _)]].
          - destruct (bd_ifs_else _ _ _ _ B x) as [->|[X _]]; auto. exfalso. apply NT. now apply Hit.
          - exfalso. apply At in X; auto. tauto. }
      all: assert (Tx : touches s n x) by (unfold touches; auto); destruct (rs_ifs_else _ _ _ _ _ _ Rs x) as [[X Y]|[((_ & X) & Y & _)|([] & _)]].
      all: try (rewrite Y; symmetry; apply Q; auto; now apply At).
      all: rewrite X, (Dn x Hx Tx); destruct (i_failed (h_if s x)) eqn:Fx; auto.
      all: assert (X0 : i_failed (h_if s2 x) = false) by (apply (rs_ifs _ _ _ _ _ _ Rs); split; auto; apply At; auto).
      all: rewrite X0 in X; rewrite (Dn x Hx Tx) in X; discriminate.
    + intros m Hm'. destruct (Nat.eq_dec m n) as [->|D].
      * rewrite Fn. now apply (rs_nodes _ _ _ _ _ _ Rs).
      * destruct (rs_nodes_else _ _ _ _ _ _ Rs m) as [->|[X _]]; [now rewrite Nds|congruence].
    + intros g _. now rewrite Es2, Es1.
Qed.

Lemma srlg_hit s s1 g : inv k s -> In g (m_srs s) ->
  brought_down s s1 (fun i => In g (i_srlgs (h_if s i)) \/ on_failed s g i) (fun n => In n (m_nds s) /\ In g (n_srlgs (h_nd s n))) ->
  (forall x, hit s (fun i => In g (i_srlgs (h_if s i)) \/ on_failed s g i) x -> In x (m_ifs s) /\ (In g (i_srlgs (h_if s x)) \/ at_member s g x)) /\
  (forall x, In x (m_ifs s) -> In g (i_srlgs (h_if s x)) \/ at_member s g x -> i_failed (h_if s1 x) = true).
Proof.
  intros ((U & R & CS & L) & (_ & _ & So) & _) Hg B.
  assert (At : forall i, In i (m_ifs s) -> on_failed s g i -> In g (n_srlgs (h_nd s (i_node (h_if s i))))).
  { intros i Hi (n & Hn & Gn & En). destruct (proj1 R i Hi) as [Ra _]. assert (X : n = i_node (h_if s i)) by (apply (NoDup_map_inj (nd_name s) (m_nds s)); auto; apply U).
    now rewrite <- X. }
  assert (Nn : forall a b, In a (m_ifs s) -> In b (m_ifs s) -> loc s a = rem s b -> i_node (h_if s a) = i_rem (h_if s b)).
  { intros a b Ha Hb X. apply (NoDup_map_inj (nd_name s) (m_nds s)); auto; [apply U|apply (proj1 R a Ha)|apply (proj1 R b Hb)]. }
  split.
  - intros x (i & Hi & Pi & X). destruct (proj1 R i Hi) as [Ra Rb]. destruct X as [->|X].
    + split; auto. destruct Pi as [Pi|Pi]; auto. right. exists (i_node (h_if s i)). auto.
    + destruct X as (Hx & X1 & X2 & X3). split; auto. destruct Pi as [Pi|Pi].
      * left. destruct (L i Hi) as (j & Hj & Rj & Uj). assert (x = j); [|subst x; apply (So i j); auto].
        apply Uj; auto. apply other_rev. split; auto.
      * right. exists (i_node (h_if s i)). split; auto. split; auto. right. symmetry. apply Nn; auto.
  - intros x Hx T. assert (Pr : forall y, In y (m_ifs s) -> (In g (i_srlgs (h_if s y)) \/ on_failed s g y) -> i_failed (h_if s1 y) = true).
    { intros y Hy Py. now apply (bd_ifs _ _ _ _ B y Hy Py). }
    destruct T as [T|(n & Hn & Gn & [T|T])].
    + apply Pr; auto.
    + apply Pr; auto. right. exists n. split; auto. split; auto. unfold loc. now rewrite T.
    + destruct (L x Hx) as (y & Hy & Ry & Uy). assert (Py : on_failed s g y).
      { exists n. split; auto. split; auto. destruct Ry as (_ & X & _). rewrite <- X. unfold rem. now rewrite T. }
      destruct (bd_ifs _ _ _ _ B y Hy (or_intror Py)) as (_ & z & Oz & Dz). assert (z = x).
      { destruct (L y Hy) as (w & _ & _ & Uw). rewrite (Uw x), (Uw z); auto; [apply Oz|now apply other_rev|now apply rev_sym]. }
      subst z. apply Dz.
Qed.

Lemma srlg_round_trip s g : inv k s -> good E k s -> In g (m_srs s) -> sr_failed (h_sr s g) = false ->
  (forall n, In n (m_nds s) -> In g (n_srlgs (h_nd s n)) -> n_failed (h_nd s n) = false) ->
  (forall x, In x (m_ifs s) -> In g (i_srlgs (h_if s x)) \/ at_member s g x ->
     (i_res (h_if s x) == 0)%Q /\ (ends_up s x -> i_failed (h_if s x) = false) /\ ~ in_failed_srlg s (i_srlgs (h_if s x))) ->
  exists s1 s2, fail_srlg (srlg_name s g) s = (s1, Ok tt) /\
    (forall n, In n (m_nds s) -> In g (n_srlgs (h_nd s n)) -> n_failed (h_nd s1 n) = true) /\
    (forall x, In x (m_ifs s) -> In g (i_srlgs (h_if s x)) \/ at_member s g x -> i_failed (h_if s1 x) = true) /\
    unfail_srlg E k (srlg_name s g) s1 = (s2, Ok tt) /\ same_sets s s2 /\ same_failures_all s s2.
Proof.
  intros I G Hg Fg Mu Q. assert (G' := G). destruct G' as (W & A & Pa & Sn & V). assert (W' := W). destruct W' as (U & R & CS & L).
  assert (I' := I). destruct I' as (_ & (So1 & So2 & So3) & C1 & _).
  destruct (fail_srlg_total s U R g Hg) as (s1 & H1); [intros; apply Pa; auto|].
  destruct (fail_srlg_bd _ _ _ (proj1 U) (proj1 (proj2 U)) H1) as (g' & Hg' & Ng & B & Eg1 & Es1).
  assert (g' = g) by (apply (NoDup_map_inj (srlg_name s) (m_srs s)); auto; apply U). subst g'.
  destruct (srlg_hit s s1 g I Hg B) as [Hit Dn].
  assert (I1 : inv k s1). { assert (X := KI_fail_srlg k (srlg_name s g) s I). rewrite H1 in X. exact X. }
  assert (Nm1 : forall h, sr_name (h_sr s1 h) = sr_name (h_sr s h)).
  { intros h. destruct (Nat.eq_dec h g) as [->|D]; [now rewrite Eg1|now rewrite Es1]. }
  destruct (bd_good s s1 _ _ G B) as [S1 G1]; [exact Nm1|intros x Hx; destruct (Hit x Hx) as [X Y]; now apply (Q x X Y)|apply I1|].
  assert (Hg1 : In g (m_srs s1)) by (destruct (st_sets _ _ _ S1) as (_ &_ &_ &_ & X); congruence).
  destruct (unfail_srlg_total E k HE s1 g I1) as (s2 & H2); auto; try apply G1.
  assert (T1 : forall x, i_node (h_if s1 x) = i_node (h_if s x) /\ i_rem (h_if s1 x) = i_rem (h_if s x) /\ i_srlgs (h_if s1 x) = i_srlgs (h_if s x)).
  { intros x. destruct (st_if _ _ _ S1 x) as (_ & X1 & X2 & _). split; auto. split; auto. apply (stat_srlgs _ _ _ S1). }
  assert (Gn1 : forall n, n_srlgs (h_nd s1 n) = n_srlgs (h_nd s n)) by (intros n; apply (st_nd _ _ _ S1 n)).
  assert (Am : forall x, at_member s1 g x <-> at_member s g x).
  { intros x. destruct (T1 x) as (X1 & X2 & _). unfold at_member. rewrite X1, X2, (stat_nds _ _ _ S1).
    split; intros (n & a & b & c); exists n; [rewrite <- Gn1|rewrite Gn1]; auto. }
  assert (All : forall x, In x (m_ifs s1) -> at_member s1 g x -> i_failed (h_if s2 x) = false <-> ends_up s2 x).
  { apply (unfail_srlg_all s1 g s2); auto. intros x Hx Ax. rewrite (stat_ifs _ _ _ S1) in Hx. apply Am in Ax.
    destruct (Q x Hx (or_intror Ax)) as (Q1 & Q2 & Q3). split.
    - destruct (bd_ifs_else _ _ _ _ B x) as [->|[_ (_&_&_&_&_&->)]]; auto. reflexivity.
    - intros h Hh Fh. destruct (T1 x) as (_ & _ & X). rewrite X in Hh. destruct (Nat.eq_dec h g) as [|D]; auto. exfalso. apply Q3. exists h. split; auto.
      now rewrite <- (Es1 h D). }
  rewrite (st_sr _ _ _ S1) in H2 || (unfold srlg_name in H2; rewrite Nm1 in H2). change (sr_name (h_sr s g)) with (srlg_name s g) in H2.
  exists s1, s2. split; auto. split; [intros n Hn Gn; apply (bd_nodes _ _ _ _ B); auto|]. split; auto. split; auto.
  assert (I2 : inv k s2). { assert (X := KI_unfail_srlg E k (srlg_name s g) HE s1 I1). rewrite H2 in X. exact X. }
  destruct (unfail_srlg_ok E k HE _ _ _ I1 (proj1 (proj2 (proj2 G1))) H2) as (g' & Hg'' & Ng' & Eg2 & _ & Es2 & _ & _ & P & Rs & Pp & Pall).
  assert (g' = g). { apply (NoDup_map_inj (srlg_name s1) (m_srs s1)); auto; [apply I1|]. rewrite Ng'. symmetry. unfold srlg_name. now rewrite Nm1. } subst g'.
  assert (Fs2 : forall h, sr_failed (h_sr s2 h) = sr_failed (h_sr s h)).
  { intros h. destruct (Nat.eq_dec h g) as [->|D]; [congruence|]. now rewrite Es2, Es1. }
  assert (Gs2 : forall gs, in_failed_srlg s2 gs <-> in_failed_srlg s gs).
  { intros gs. unfold in_failed_srlg. split; intros (h & a & b); exists h; [rewrite <- Fs2|rewrite Fs2]; auto. }
  assert (Fn2 : forall n, In n (m_nds s) -> n_failed (h_nd s2 n) = n_failed (h_nd s n)).
  { intros n Hn. destruct (in_dec Nat.eq_dec g (n_srlgs (h_nd s n))) as [Gn|Gn].
    - rewrite (Mu n Hn Gn). apply (rs_nodes _ _ _ _ _ _ Rs). rewrite Gn1, (stat_nds _ _ _ S1). split; auto. split; auto. rewrite Gs2. intros X.
      assert (Y := So2 n Hn X). rewrite (Mu n Hn Gn) in Y. discriminate.
    - destruct (rs_nodes_else _ _ _ _ _ _ Rs n) as [->|[(_ & X & _) _]]; [|rewrite Gn1 in X; contradiction].
      destruct (bd_nodes_else _ _ _ _ B n) as [->|[[_ X] _]]; auto. contradiction. }
  assert (T2 : forall x, i_node (h_if s2 x) = i_node (h_if s x) /\ i_rem (h_if s2 x) = i_rem (h_if s x)).
  { intros x. destruct (rs_data _ _ _ _ _ _ Rs x) as ((_&_&_&X1&X2&_)&_). destruct (T1 x) as (<- & <- & _). auto. }
  assert (EU2 : forall x, In x (m_ifs s) -> (ends_up s2 x <-> ends_up s x)).
  { intros x Hx. destruct (T2 x) as [X1 X2]. destruct (proj1 R x Hx) as [Ra Rb]. unfold ends_up. rewrite X1, X2, !Fn2; auto. tauto. }
  split; [eapply same_sets_trans; [apply S1|apply Rs]|]. split; [|split]; auto.
  intros x Hx. assert (Hx1 : In x (m_ifs s1)) by (now rewrite (stat_ifs _ _ _ S1)).
  assert (Dec : (In g (i_srlgs (h_if s x)) \/ at_member s g x) \/ ~ (In g (i_srlgs (h_if s x)) \/ at_member s g x)).
  { destruct (proj1 R x Hx) as [Ra Rb]. destruct (in_dec Nat.eq_dec g (i_srlgs (h_if s x))); auto.
    destruct (in_dec Nat.eq_dec g (n_srlgs (h_nd s (i_node (h_if s x))))); [left; right; eexists; split; [exact Ra|auto]|].
    destruct (in_dec Nat.eq_dec g (n_srlgs (h_nd s (i_rem (h_if s x))))); [left; right; eexists; split; [exact Rb|auto]|].
    right. intros [X|(m & _ & Gm & [X|X])]; subst; contradiction. }
  destruct Dec as [T|T].
  - destruct (Q x Hx T) as (Q1 & Q2 & Q3).
    assert (X : i_failed (h_if s2 x) = false <-> ends_up s x).
    { split; [intros F; apply EU2; auto; apply I2; auto; rewrite (proj1 (rs_sets _ _ _ _ _ _ Rs)); auto|]. intros EU. apply EU2 in EU; auto. destruct T as [T|T].
      - apply (rs_ifs _ _ _ _ _ _ Rs). destruct (T1 x) as (_ & _ & Y). apply Pall; auto; rewrite Y; auto. now rewrite Gs2.
      - apply All; auto. now apply Am. }
    destruct (i_failed (h_if s2 x)) eqn:F2, (i_failed (h_if s x)) eqn:F; auto.
    + assert (EU := C1 x Hx F). apply X in EU. discriminate.
    + assert (EU : ends_up s x) by (apply X; auto). specialize (Q2 EU). congruence.
  - assert (E1 : h_if s1 x = h_if s x).
    { destruct (bd_ifs_else _ _ _ _ B x) as [|[X _]]; auto. exfalso. apply T. now apply Hit. }
    rewrite <- E1. destruct (rs_ifs_else _ _ _ _ _ _ Rs x) as [[-> _]|[(X & _)|(_ & _ & -> & -> & _)]]; auto.
    exfalso. apply T. destruct (Pp x X) as [_ [Y|Y]]; [left; now rewrite E1 in Y|right; now apply Am].
Qed.
End All.
