(** RepairSrlg.v - unfail_node in any outcome, unfail_srlg, and when they
    return (C63, C64). *)
From Verif Require Import Base Graph Objects Sim Api Spec SpecCkt SpecFail SpecRepair GraphProofs MonadProofs RoundProofs ResProofs Frames ApiFrames ObjProofs ApiProofs QueryProofs CircuitProofs ValidateProofs PathProofs FailProofs RepairProofs RepairCalls RepairAll.

(** ** all_paired is kept *)
Lemma sole_same s s' i j : m_ifs s' = m_ifs s -> (forall x, loc s' x = loc s x) -> (forall x, rem s' x = rem s x) ->
  (forall x, In x (m_ifs s) -> i_cid (h_if s' x) = i_cid (h_if s x)) -> In i (m_ifs s) -> sole_other_end s i j -> sole_other_end s' i j.
Proof.
  intros M L R C Hi ((J0 & J1 & J2 & J3) & U). unfold sole_other_end, other_end. rewrite M, !L, !R, (C i), (C j) by auto.
  split; [auto|]. intros x Hx. rewrite L, (C x) by auto. auto.
Qed.

Lemma round_nonneg x : (0 <= x)%Q -> (0 <= round1 x)%Q.
Proof.
  intros H. rewrite round1_roundd. assert (X := roundd_mono 10 0 x H). rewrite (roundd_id 10 0) in X; auto. apply multiple_0.
Qed.

Lemma avail_zero s s' i : (0 <= i_cap (h_if s i) * i_pct (h_if s i) / 100)%Q -> available s i ->
  same_if_data (h_if s i) (h_if s' i) -> i_res (h_if s' i) = i_res (h_if s i) \/ i_res (h_if s' i) = 0%Q -> available s' i.
Proof.
  intros C A (_&_&E1&_&_&_&E2&E3) R. assert (Rv : i_rsvp (h_if s i) = true).
  { apply available_iff in A. apply (reservable_rsvp s i 0); auto. apply Qle_refl. }
  apply available_iff. apply available_iff in A. rewrite Qleb_le in *. unfold reservable_bw, reserved_bw in *. rewrite E1, E2, E3, Rv in *.
  destruct R as [-> | ->]; auto. apply round_nonneg. assert (Z : (round1 0 == 0)%Q) by reflexivity. rewrite Z, cap_pct. unfold Qminus.
  rewrite Qplus_0_r. exact C.
Qed.

Section Pairs.
Variables (E : env) (k : kind).
Hypothesis HE : env_ok E.

Lemma paired_upd t t1 : all_paired k t -> stat k t t1 -> (forall x, same_if_data (h_if t x) (h_if t1 x) /\ i_cid (h_if t1 x) = i_cid (h_if t x)) ->
  (forall x, i_res (h_if t1 x) = i_res (h_if t x) \/ i_res (h_if t1 x) = 0%Q) -> all_paired k t1.
Proof.
  intros [Pa Av] S D R. split.
  - intros i. rewrite (stat_ifs _ _ _ S). intros Hi. destruct (Pa i Hi) as (j & SJ). exists j.
    apply (sole_same t); auto; [apply (stat_ifs _ _ _ S)|apply (stat_loc _ _ _ S)|apply (stat_rem _ _ _ S)|]. intros x _. apply D.
  - intros Hk i. rewrite (stat_ifs _ _ _ S). intros Hi. destruct (Av Hk i Hi) as [A1 A2]. destruct (D i) as [D1 _].
    split; [eapply avail_zero; eauto|]. destruct D1 as (_&_&->&_&_&_&_&->). exact A2.
Qed.

Lemma perf_pairs_up t : k = Perf -> linked k t -> all_paired k t -> pairs_up k t.
Proof.
  intros Hk L [_ Av] i Hi A. split; [|congruence]. destruct (L i Hi) as (j & Hj & (R1 & R2 & _) & _). exists j.
  split; auto. split; [apply Av; auto|]. auto.
Qed.

Lemma perf_sole t s1 t' : k = Perf -> linked k t -> all_paired k t -> circuits_ok k t s1 ->
  m_ifs t' = m_ifs t -> (forall x, loc t' x = loc t x) -> (forall x, rem t' x = rem t x) -> (forall x, i_cid (h_if t' x) = i_cid (h_if s1 x)) ->
  forall i, In i (m_ifs t) -> has_other_end t' i.
Proof.
  intros Hk L [_ Av] C Em El Er Ec i Hi.
  assert (CS : cids_set k t) by (intros X; congruence).
  (* every interface is an end of a circuit with its reverse *)
  assert (Cv : forall x, In x (m_ifs t) -> exists a b, In (a, b) (m_ckts s1) /\ (x = a \/ x = b)).
  { intros x Hx. destruct (cc_cover _ _ _ C CS x Hx (proj1 (Av Hk x Hx))) as (a & b & Hab & X).
    destruct (cc_ends _ _ _ C a b Hab) as (Ha & Hb & L1 & L2 & _). exists a, b. split; auto.
    destruct (L x Hx) as (y & Hy & (Ry1 & Ry2 & _) & _). destruct (L y Hy) as (z & _ & _ & Uz).
    assert (x = z) by (apply Uz; auto; repeat split; auto; congruence).
    destruct X as [(X1 & X2 & _)|(X1 & X2 & _)]; [left|right].
    - assert (a = z) by (apply Uz; auto; repeat split; auto; congruence). congruence.
    - assert (b = z) by (apply Uz; auto; repeat split; auto; congruence). congruence. }
  destruct (Cv i Hi) as (a & b & Hab & Xi). destruct (cc_ends _ _ _ C a b Hab) as (Ha & Hb & L1 & L2 & _).
  assert (X : exists j, In j (m_ifs t) /\ loc t j = rem t i /\ rem t j = loc t i /\ end_of (a, b) i /\ end_of (a, b) j /\ (forall y, end_of (a, b) y -> y = i \/ y = j)).
  { unfold end_of; simpl. destruct Xi; subst; [exists b|exists a]; repeat split; auto; tauto. }
  destruct X as (j & Hj & J1 & J2 & Ei & Ej & Only).
  apply In_nth_error in Hab as (n & Hn).
  assert (Ci := cc_cid _ _ _ C Hk n _ i Hn Ei). assert (Cj := cc_cid _ _ _ C Hk n _ j Hn Ej).
  exists j. split.
  - unfold other_end. rewrite Em, !El, !Er, !Ec, Ci, Cj. auto.
  - intros x. rewrite Em, El, Er, !Ec, Ci. intros Hx Lx Cx.
    destruct (Cv x Hx) as (a' & b' & Hab' & Xx). apply In_nth_error in Hab' as (n' & Hn').
    rewrite (cc_cid _ _ _ C Hk n' _ x Hn' Xx) in Cx. assert (n' = n) by (injection Cx; lia). subst n'.
    assert (Exy : (a', b') = (a, b)) by congruence. injection Exy as -> ->. destruct (Only x Xx) as [->|]; auto.
    (* x = i sits on a self-loop *)
    assert (R : is_reverse k t i i) by (repeat split; auto). assert (R' : is_reverse k t i j) by (repeat split; auto).
    destruct (L i Hi) as (y & _ & _ & Uy). rewrite (Uy i Hi R), (Uy j Hj R'). reflexivity.
Qed.

Lemma paired_validate t t' r : wf_net k t -> ends_agree k t -> all_paired k t -> validate_model E k t = (t', r) -> all_paired k t'.
Proof.
  intros W A Pa V. assert (N := wf_nodup _ _ W). assert (CS := proj1 (proj2 (proj2 W))).
  assert (CF := validate_agree E k t HE N CS A). rewrite V in CF. cbn [fst] in CF.
  assert (S := cframe_stat _ _ _ CF).
  destruct (kind_dec k) as [Hk|Hk].
  - split; [|intros; congruence]. intros i. rewrite (stat_ifs _ _ _ S). intros Hi. destruct (proj1 Pa i Hi) as (j & SJ). exists j.
    apply (sole_same t); auto; [apply (stat_ifs _ _ _ S)|apply (stat_loc _ _ _ S)|apply (stat_rem _ _ _ S)|]. intros x _. apply (cf_cid _ _ _ CF x Hk).
  - split.
    + intros i. rewrite (stat_ifs _ _ _ S). intros Hi. assert (V' := validate_mid E k t HE N). rewrite V in V'.
      assert (L := proj2 (proj2 (proj2 W))).
      destruct V' as [(NP & _)|(P & s1 & C & X)]; [exfalso; apply NP; apply perf_pairs_up; auto|].
      apply (perf_sole t s1); auto; [apply (stat_ifs _ _ _ S)|apply (stat_loc _ _ _ S)|apply (stat_rem _ _ _ S)|].
      intros x. destruct X as [[_ T]|[-> _]]; auto. rewrite T. destruct (mis _ _ _); reflexivity.
    + intros _ i. rewrite (stat_ifs _ _ _ S). intros Hi. destruct (proj2 Pa Hk i Hi) as [A1 A2].
      destruct (cf_if _ _ _ CF i) as (b & c & Ei & _).
      assert (D : same_if_data (h_if t i) (h_if t' i)) by (rewrite Ei; repeat split).
      split; [eapply avail_zero; eauto; rewrite Ei; auto|]. destruct D as (_&_&->&_&_&_&_&->). exact A2.
Qed.

Lemma paired_unfail b nm nn t t' r : inv k t -> all_paired k t -> unfail_interface E k nm nn b t = (t', r) -> all_paired k t'.
Proof.
  intros I Pa H. destruct I as (W & So & C1 & A). assert (W' := W). destruct W' as (U & R & CS & L).
  destruct (unfail_interface_run _ _ _ _ _ _ _ _ U R H) as [(e & _ & -> & X)|(i & j & Hi & Ki & Gr & J & X)]; auto.
  assert (RV := other_rev k _ _ _ J). assert (Hj := proj1 J). assert (SF := same_srlg_failed k t i j So Hi Hj RV).
  destruct X as [NU -> Hb|EU Fj -> (m & Hr)|t1 EU NFj Fi O X1 -> (m & Hr)|t1 EU NFj NFi O _ _ X1 V]; auto.
  - apply (paired_upd t); auto; [apply stat_down| |]; intros x; simpl; apply fupd_cases; intros; subst; auto; repeat split.
  - tauto.
  - destruct (both_up_agree k t t1 i j W A Hi Hj RV O X1) as (S1 & W1 & A1). symmetry in V.
    eapply paired_validate; [exact W1|exact A1| |exact V].
    apply (paired_upd t); auto; intros x; rewrite X1; destruct (_ || _); auto; repeat split.
Qed.
End Pairs.

(** ** unfail_node, any outcome, in a consistent state *)
Section NodeAny.
Variables (E : env) (k : kind).
Hypothesis HE : env_ok E.

Definition keeps (s1 a : st) : Prop := inv k a /\ stat k s1 a /\ h_nd a = h_nd s1 /\ h_sr a = h_sr s1 /\ (all_paired k s1 -> all_paired k a).

Lemma keeps_ends s1 a x : keeps s1 a -> (ends_up a x <-> ends_up s1 x).
Proof. intros (_ & S & En & _). unfold ends_up. rewrite En. destruct (st_if _ _ _ S x) as (_&->&->&_). reflexivity. Qed.
Lemma keeps_srlg s1 a x : keeps s1 a -> (in_failed_srlg a (i_srlgs (h_if a x)) <-> in_failed_srlg s1 (i_srlgs (h_if s1 x))).
Proof. intros (_ & S & _ & Es & _). unfold in_failed_srlg. rewrite Es, (stat_srlgs _ _ _ S). reflexivity. Qed.

Lemma keeps_step b nm nn s1 a a' r : keeps s1 a -> unfail_interface E k nm nn b a = (a', r) ->
  keeps s1 a' /\ h_sr a' = h_sr a /\
  exists P, restored k True a a' P (fun _ => False) /\
    (forall x, P x -> exists i, In i (m_ifs s1) /\ if_key s1 i = (nm, nn) /\ ends_up s1 i /\ In x (m_ifs s1) /\ (x = i \/ is_reverse k s1 i x)) /\
    (all_paired k s1 -> forall i, In i (m_ifs s1) -> if_key s1 i = (nm, nn) -> ends_up s1 i -> ~ in_failed_srlg s1 (i_srlgs (h_if s1 i)) -> P i).
Proof.
  intros K H. assert (K' := K). destruct K' as (I & S & En & Es & Pa).
  destruct (unfail_if_any E k HE _ _ _ _ _ _ I H) as (P & Rs & En' & Es' & Up & Low).
  assert (S' : stat k a a') by (apply (rs_stat _ _ _ _ _ _ Rs); now rewrite Es').
  assert (I' : inv k a'). { assert (X := KI_unfail_interface E k nm nn b HE a I). rewrite H in X. exact X. }
  split; [|split; [auto|]].
  - split; auto. split; [eapply stat_trans; eauto|]. split; [congruence|]. split; [congruence|]. intros X.
    eapply paired_unfail; [exact HE|exact I|apply Pa; exact X|exact H].
  - exists P. split; auto. split.
    + intros x Hx. destruct (Up x Hx) as (i & Hi & Ki & EU & Hx' & X). rewrite (stat_ifs _ _ _ S) in Hi, Hx'. rewrite (stat_key _ _ _ S) in Ki.
      exists i. split; auto. split; auto. split; [now apply (keeps_ends s1 a)|]. split; auto. destruct X as [X|X]; auto. right. now apply (stat_rev _ _ _ S).
    + intros Pa1 i Hi Ki EU NF. assert (Hi' : In i (m_ifs a)) by (now rewrite (stat_ifs _ _ _ S)).
      destruct (proj1 (Pa Pa1) i Hi') as (j & SJ).
      apply (Low i j); auto; [now rewrite (stat_key _ _ _ S)|now apply (keeps_ends s1 a)|now rewrite (keeps_srlg s1 a)].
Qed.

Lemma keeps_refl s1 : inv k s1 -> keeps s1 s1.
Proof. intros I. split; auto. split; [apply stat_refl|auto]. Qed.

Lemma unfail_node_any nname s s' r : inv k s -> unfail_node E k nname s = (s', r) ->
  inv k s' /\ h_sr s' = h_sr s /\ (all_paired k s -> all_paired k s') /\
  ((s' = s /\ (forall n, In n (m_nds s) -> nd_name s n <> nname) /\ exists e, r = Err e /\ is_model_exn e = true) \/
   exists n, In n (m_nds s) /\ nd_name s n = nname /\
     ((in_failed_srlg s (n_srlgs (h_nd s n)) /\ n_failed (h_nd s n) = true /\ s' = upd_nd n (nd_failed true) s /\ exists m, r = Err (ModelException m)) \/
      (~ in_failed_srlg s (n_srlgs (h_nd s n)) /\
       exists P, restored k True s s' P (eq n) /\ (forall x, P x -> In x (m_ifs s) /\ at_node s n x)))).
Proof.
  intros I H. assert (I' : inv k s'). { assert (X := KI_unfail_node E k nname HE s I). rewrite H in X. exact X. }
  split; auto. unfold unfail_node in H. rewrite bind_reads in H. assert (G := get_node_spec s nname).
  destruct (get_node s nname) as [n|e] eqn:Gn.
  2:{ injection H as <- <-. split; auto. split; auto. left. split; auto. destruct G as [Ge G]. split; auto. eauto. }
  destruct G as [Hn Nn]. assert (I0 := I). destruct I0 as (W & So & C1 & A).
  unfold bind at 1 in H. rewrite node_set_false_run in H. destruct (infs s (n_srlgs (h_nd s n))) eqn:Fn.
  { injection H as <- <-. split; auto. apply infs_iff in Fn. split; [|right; exists n; split; auto; split; auto; left; split; auto; split; [apply So; auto|split; eauto]].
    intros Pa. apply (paired_upd k s); auto using stat_upd_nd; intros x; split; auto using same_if_data_refl. }
  apply infs_false in Fn. set (s1 := upd_nd n (nd_failed false) s) in *. rewrite bind_gets in H. cbv beta in H.
  assert (I1 : inv k s1) by (apply inv_nd; auto; try discriminate; tauto).
  assert (S1 : stat k s s1) by apply stat_upd_nd. assert (W1 := stat_wf _ _ _ S1 W).
  assert (Nm : forall m, nd_name s1 m = nd_name s m) by apply (stat_name _ _ _ S1).
  assert (Nd : forall m, In m (m_nds s) -> nd_name s m = nname -> m = n).
  { intros m Hm E1. apply (NoDup_map_inj (nd_name s) (m_nds s)); auto; [apply W|congruence]. }
  assert (W1' := W1). destruct W1' as (U1 & (R1 & R1') & _ & L1). assert (RO := proj1 (proj2 W1)).
  assert (AT : forall x, In x (m_ifs s) -> (loc s1 x = nname \/ rem s1 x = nname) /\ ends_up s1 x -> at_node s n x).
  { intros x Hx. destruct (R1 x Hx) as [Ra Rb]. unfold at_node, ends_up, loc, rem. change (h_if s1) with (h_if s) in *.
    assert (Q : forall m, In m (m_nds s1) -> (n_name (h_nd s1 m) = nname <-> m = n) /\ (n_failed (h_nd s1 m) = false <-> m = n \/ n_failed (h_nd s m) = false)).
    { intros m Hm. split.
      - split; [intros X; apply Nd; auto; rewrite <- Nm; auto|intros ->; rewrite <- Nn; apply Nm].
      - simpl. apply fupd_cases; intros D; subst; [simpl; tauto|]. split; auto. intros [X|X]; auto. congruence. }
    destruct (Q _ Ra) as [-> ->], (Q _ Rb) as [-> ->]. tauto. }
  assert (M : keeps s1 s' /\ h_sr s' = h_sr s1 /\ exists P N, restored k True s1 s' P N /\
      (forall y, P y -> In y (m_ifs s1) /\ (loc s1 y = nname \/ rem s1 y = nname) /\ ends_up s1 y) /\ (forall y, N y -> False)).
  { match type of H with mfor ?l ?b _ = _ => refine (mfor_rs_any k True l b (keeps s1) _ _ _ s1 s' r (keeps_refl s1 I1) H) end.
    intros i a b r1 Hi K Hb. apply ifaces_of_name_In in Hi as [Hi Li]. assert (K0 := K). destruct K0 as (Ia & Sa & En & Es & Pa).
    rewrite bind_gets in Hb. cbv beta in Hb. destruct (n_failed (h_nd a (i_rem (h_if a i)))).
    { injection Hb as <- <-. split; auto. split; auto. eexists _, _. split; [apply rs_refl|]. split; intros y []. }
    rewrite bind_gets in Hb. cbv beta in Hb. destruct (st_if _ _ _ Sa i) as (Ki & _).
    destruct (unfail_interface E k (i_name (h_if a i)) nname false a) as [a1 [u|e]] eqn:H1.
    2:{ unfold bind at 1 in Hb. rewrite H1 in Hb. injection Hb as <- <-.
        destruct (keeps_step _ _ _ _ _ _ _ K H1) as (K1 & E1 & P & Rs & Up & _). split; auto. split; auto.
        exists P, (fun _ => False). split; auto. split; auto. intros y Hy. destruct (Up y Hy) as (i' & Hi' & Ki' & EU & Hy' & X).
        assert (loc s1 i' = nname) by (injection Ki'; auto). split; auto. destruct X as [->|X]; auto.
        split; [right; destruct X as (<- & _); auto|]. apply (other_ends_up s1 i' y); auto; apply X. }
    rewrite (bind_run _ _ _ _ _ H1) in Hb.
    destruct (keeps_step _ _ _ _ _ _ _ K H1) as (K1 & E1 & P & Rs & Up & _).
    assert (Up' : forall y, P y -> In y (m_ifs s1) /\ (loc s1 y = nname \/ rem s1 y = nname) /\ ends_up s1 y).
    { intros y Hy. destruct (Up y Hy) as (i' & Hi' & Ki' & EU & Hy' & X).
      assert (loc s1 i' = nname) by (injection Ki'; auto). split; auto. destruct X as [->|X]; auto.
      split; [right; destruct X as (<- & _); auto|]. apply (other_ends_up s1 i' y); auto; apply X. }
    rewrite bind_reads in Hb. destruct (get_remote_interface a1 i) as [j|e] eqn:Gr.
    2:{ injection Hb as <- <-. split; auto. split; auto. exists P, (fun _ => False). auto. }
    rewrite bind_gets in Hb. cbv beta in Hb.
    assert (K1' := K1). destruct K1' as (_ & Sa1 & _ & Es1 & _).
    assert (Hi1 : In i (m_ifs a1)) by (now rewrite (stat_ifs _ _ _ Sa1)).
    assert (J := get_remote_ok _ _ _ Hi1 Gr).
    destruct (keeps_step _ _ _ _ _ _ _ K1 Hb) as (K2 & E2 & P2 & Rs2 & Up2 & _).
    split; auto. split; [congruence|]. eexists _, _. split; [eapply rs_trans; [exact Rs|exact Rs2|]|split].
    - intros gs. unfold in_failed_srlg. rewrite E1. auto.
    - intros y [Hy|Hy]; auto. destruct (Up2 y Hy) as (i' & Hi' & Ki' & EU & Hy' & X).
      assert (Lr : rem s1 i' = nname).
      { rewrite <- (stat_key _ _ _ Sa1) in Ki'. assert (i' = j).
        { destruct K1 as (I1a & _). apply (NoDup_map_inj (if_key a1) (m_ifs a1)); auto; [apply I1a|now rewrite (stat_ifs _ _ _ Sa1)|apply J]. }
        subst i'. rewrite <- (stat_rem _ _ _ Sa1). destruct J as (_ & _ & -> & _). rewrite (stat_loc _ _ _ Sa1). exact Li. }
      split; auto. destruct X as [->|X]; auto.
      split; [left; destruct X as (_ & <- & _); auto|]. apply (other_ends_up s1 i' y); auto; apply X.
    - intros y [[]|[]]. }
  destruct M as (K & Es & P & N & Rs & Up & NN). split; [exact Es|]. split.
  { intros Pa. apply K. apply (paired_upd k s); auto. intros x. split; auto using same_if_data_refl. }
  right. exists n. split; auto. split; auto. right. split; auto. exists P. split.
  - eapply rs_ext; [eapply rs_trans; [apply (node_up_rs k True n s)|exact Rs|intros gs X; exact X]| |].
    + intros x; cbv beta; tauto.
    + intros x; cbv beta. split; [intros [X|X]; auto; destruct (NN x X)|auto].
  - intros x Hx. destruct (Up x Hx) as (Hx' & X). split; auto.
Qed.
End NodeAny.

(** ** unfail_srlg *)
Lemma mfor_mix {A} k q (l : list A) body (I : st -> Prop) (Pf Nf : A -> nat -> Prop) (PP : nat -> Prop) :
  (forall x a b, In x l -> I a -> body x a = (b, Ok tt) -> I b /\ h_sr b = h_sr a /\
     exists P, restored k q a b P (Nf x) /\ (forall y, P y -> PP y) /\ (forall y, Pf x y -> P y)) ->
  forall s s', I s -> mfor l body s = (s', Ok tt) ->
    I s' /\ h_sr s' = h_sr s /\ exists P, restored k q s s' P (fun y => exists x, In x l /\ Nf x y) /\ (forall y, P y -> PP y) /\
      (forall x y, In x l -> Pf x y -> P y).
Proof.
  induction l as [|x l IH]; intros Hb s s' Hs H.
  - injection H as <-. split; auto. split; auto. exists (fun _ => False). split; [|split; [tauto|intros x y []]].
    eapply rs_ext; [apply rs_refl|reflexivity|]; intros y; (split; [tauto|intros (z & [] & _)]).
  - apply mfor_cons_ok in H as (s1 & H1 & H2). destruct (Hb x s s1) as (I1 & E1 & P1 & R1 & U1 & L1); [left; auto|auto|auto|].
    destruct (IH (fun y a b Hy => Hb y a b (or_intror Hy)) s1 s' I1 H2) as (I2 & E2 & P2 & R2 & U2 & L2). split; auto. split; [congruence|].
    eexists. split; [|split].
    + eapply rs_ext; [eapply rs_trans; [exact R1|exact R2|unfold in_failed_srlg; now rewrite E1]|intros y; reflexivity|]. intros y; cbv beta; split.
      * intros [Hy|(z & Hz & Hy)]; [exists x|exists z]; split; auto; [left|right]; auto.
      * intros (z & [<-|Hz] & Hy); [left|right; exists z]; auto.
    + intros y [Hy|Hy]; auto.
    + intros z y [<-|Hz] Hy; [left|right]; eauto.
Qed.

Lemma ignore_ok m a b : ignore_model_exn m a = (b, Ok tt) -> exists r, m a = (b, r).
Proof.
  unfold ignore_model_exn, try. destruct (m a) as [b' [[]|e]]; intros H; [injection H as <-; eauto|].
  destruct (is_model_exn e); [|discriminate]. injection H as <-. eauto.
Qed.

Lemma nd_failed_id r : n_failed r = true -> nd_failed true r = r.
Proof. destruct r; simpl; intros ->; reflexivity. Qed.

Section Srlg.
Variables (E : env) (k : kind).
Hypothesis HE : env_ok E.

Definition keeps2 (s0 a : st) : Prop := inv k a /\ stat k s0 a /\ h_sr a = h_sr s0 /\ all_paired k a.

Lemma get_srlg_In s nm g : get_srlg s nm = Ok g -> In g (m_srs s) /\ srlg_name s g = nm.
Proof.
  unfold get_srlg. destruct (filter _ (m_srs s)) as [|x [|]] eqn:Fx; try discriminate. intros H. injection H as <-.
  assert (X : In x (filter (fun g => String.eqb (sr_name (h_sr s g)) nm) (m_srs s))) by (rewrite Fx; left; auto).
  apply filter_In in X as [X1 X2]. split; auto. now apply String.eqb_eq.
Qed.

Lemma unfail_srlg_ok nm s s' : inv k s -> all_paired k s -> unfail_srlg E k nm s = (s', Ok tt) ->
  exists g, In g (m_srs s) /\ srlg_name s g = nm /\
    sr_failed (h_sr s' g) = false /\ (forall x, srlg_name s' x = srlg_name s x) /\ (forall x, x <> g -> h_sr s' x = h_sr s x) /\
    inv k s' /\ all_paired k s' /\
    exists P, restored k True s s' P (fun n => In n (m_nds s) /\ In g (n_srlgs (h_nd s n)) /\ ~ in_failed_srlg s' (n_srlgs (h_nd s n))) /\
      (forall x, P x -> In x (m_ifs s) /\ (In g (i_srlgs (h_if s x)) \/ at_member s g x)) /\
      (forall x, In x (m_ifs s) -> In g (i_srlgs (h_if s x)) -> ends_up s' x -> ~ in_failed_srlg s' (i_srlgs (h_if s x)) -> P x).
Proof.
  intros I Pa H. unfold unfail_srlg in H. rewrite bind_reads in H. destruct (get_srlg s nm) as [g|e] eqn:Gg; [|discriminate].
  exists g. destruct (get_srlg_In _ _ _ Gg) as [Hg Ng]. split; auto. split; auto.
  rewrite bind_modify in H. set (s0 := upd_sr g (sr_set false) s) in *. rewrite bind_gets in H. cbv beta in H.
  assert (I0 : inv k s0) by (apply KI_sr_off; exact I).
  assert (S0 : stat k s s0) by apply stat_upd_sr.
  assert (Pa0 : all_paired k s0) by (apply (paired_upd k s); auto; intros x; split; auto using same_if_data_refl).
  assert (K0 : keeps2 s0 s0) by (split; auto; split; [apply stat_refl|auto]).
  set (Nf := fun n m : nat => In g (n_srlgs (h_nd s0 n)) /\ ~ in_failed_srlg s0 (n_srlgs (h_nd s0 n)) /\ n = m).
  apply bind_ok in H as (s1 & [] & H1 & H).
  (* the nodes *)
  assert (M1 : keeps2 s0 s1 /\ h_sr s1 = h_sr s0 /\ exists P, restored k True s0 s1 P (fun y => exists x, In x (m_nds s0) /\ Nf x y) /\
     (forall y, P y -> In y (m_ifs s0) /\ at_member s0 g y) /\ (forall x y : nat, In x (m_nds s0) -> False -> P y)).
  { match type of H1 with mfor ?l ?b _ = _ => refine (mfor_mix k True l b (keeps2 s0) (fun _ _ => False) Nf (fun y => In y (m_ifs s0) /\ at_member s0 g y) _ s0 s1 K0 H1) end.
    intros n a b Hn (Ia & Sa & Es & Paa) Hb. rewrite bind_gets in Hb. cbv beta in Hb.
    assert (Hna : In n (m_nds a)) by (now rewrite (stat_nds _ _ _ Sa)).
    assert (Mm := mem_srlg_nodes a g n Hna). destruct (st_nd _ _ _ Sa n) as [En Eg]. rewrite Eg in Mm.
    destruct (mem_nd a n (srlg_nodes a g)).
    2:{ injection Hb as <-. split; [split; auto|]. split; auto. exists (fun _ => False). split; [|split; [tauto|auto]].
        eapply rs_ext; [apply rs_refl|reflexivity|]. intros y. split; [tauto|]. intros (X & _). apply Mm in X. discriminate. }
    assert (Mg : In g (n_srlgs (h_nd s0 n))) by (apply Mm; auto). clear Mm.
    rewrite bind_gets in Hb. cbv beta in Hb. apply ignore_ok in Hb as (r & Hb).
    destruct (unfail_node_any E k HE _ _ _ _ Ia Hb) as (Ib & Eb & Pb & X).
    assert (Gs : forall gs, in_failed_srlg a gs <-> in_failed_srlg s0 gs) by (intros gs; unfold in_failed_srlg; now rewrite Es).
    assert (R : exists P, restored k True a b P (Nf n) /\ (forall y, P y -> In y (m_ifs s0) /\ at_member s0 g y) /\ (forall y : nat, False -> P y)).
    { destruct X as [(_ & X & _)|(m & Hm & Nm & X)]; [exfalso; apply (X n Hna); reflexivity|].
      assert (m = n). { apply (NoDup_map_inj (nd_name a) (m_nds a)); auto. apply Ia. } subst m.
      destruct X as [(F1 & F2 & -> & _)|(F1 & P & Rs & Up)].
      - exists (fun _ => False). split; [|split; [tauto|auto]]. rewrite Gs, Eg in F1.
        assert (EN : h_nd (upd_nd n (nd_failed true) a) n = h_nd a n) by (simpl; rewrite fupd_same; now apply nd_failed_id).
        constructor; auto; try tauto; [repeat split| | |].
        + unfold Nf. tauto.
        + intros m. left. destruct (Nat.eq_dec n m) as [<-|D]; auto. simpl. now rewrite fupd_other by auto.
        + intros x. split; auto using same_if_data_refl.
      - exists P. split; [|split; [|tauto]].
        + eapply rs_ext; [exact Rs|reflexivity|]. intros y. unfold Nf. rewrite Gs, Eg in F1. tauto.
        + intros y Hy. destruct (Up y Hy) as (Hy' & (At & _)). rewrite (stat_ifs _ _ _ Sa) in Hy'. split; auto.
          exists n. split; auto. split; auto. destruct (st_if _ _ _ Sa y) as (_ & <- & <- & _). exact At. }
    split; [|split; [exact Eb|exact R]]. split; auto. split; [|split; [congruence|auto]].
    eapply stat_trans; [exact Sa|]. destruct R as (P & Rs & _). apply (rs_stat _ _ _ _ _ _ Rs). now rewrite Eb. }
  destruct M1 as ((I1 & S1 & Es1 & Pa1) & _ & P1 & R1 & Up1 & _).
  rewrite bind_gets in H. cbv beta in H.
  (* the interfaces *)
  set (Pf := fun i y : nat => i = y /\ In g (i_srlgs (h_if s1 i)) /\ ends_up s1 i /\ ~ in_failed_srlg s1 (i_srlgs (h_if s1 i))).
  assert (M2 : keeps k s1 s' /\ h_sr s' = h_sr s1 /\ exists P, restored k True s1 s' P (fun y : nat => exists x, In x (m_ifs s1) /\ False) /\
     (forall y, P y -> In y (m_ifs s1) /\ In g (i_srlgs (h_if s1 y))) /\ (forall x y : nat, In x (m_ifs s1) -> Pf x y -> P y)).
  { match type of H with mfor ?l ?b _ = _ => refine (mfor_mix k True l b (keeps k s1) Pf (fun _ _ => False) (fun y => In y (m_ifs s1) /\ In g (i_srlgs (h_if s1 y))) _ s1 s' (keeps_refl k s1 I1) H) end.
    intros i a b Hi K Hb. rewrite bind_gets in Hb. cbv beta in Hb. assert (K' := K). destruct K' as (Ia & Sa & En & Es & _).
    assert (Hia : In i (m_ifs a)) by (now rewrite (stat_ifs _ _ _ Sa)).
    assert (Mm := mem_srlg_ifaces a g i (proj1 (proj1 (proj1 Ia))) Hia). rewrite (stat_srlgs _ _ _ Sa) in Mm.
    destruct (mem_if a i (srlg_ifaces a g)).
    2:{ injection Hb as <-. split; auto. split; auto. exists (fun _ => False). split; [apply rs_refl|]. split; [tauto|].
        intros y (_ & X & _). apply Mm in X. discriminate. }
    assert (Mg : In g (i_srlgs (h_if s1 i))) by (apply Mm; auto). clear Mm.
    rewrite bind_gets in Hb. cbv beta in Hb. apply ignore_ok in Hb as (r & Hb).
    destruct (keeps_step E k HE _ _ _ _ _ _ _ K Hb) as (Kb & Eb & P & Rs & Up & Low). split; auto. split; auto. exists P. split; auto.
    assert (Ky : if_key s1 i = (fst (ikey a i), snd (ikey a i))).
    { rewrite <- (stat_key _ _ _ Sa). reflexivity. }
    split.
    - intros y Hy. destruct (Up y Hy) as (i' & Hi' & Ki' & _ & Hy' & X). split; auto.
      assert (i' = i). { apply (NoDup_map_inj (if_key s1) (m_ifs s1)); auto; [apply I1|congruence]. } subst i'.
      destruct X as [->|X]; auto. destruct I1 as (_ & (_ & _ & So) & _). apply (So i y); auto.
    - intros y (<- & _ & EU & NF). apply Low; auto. }
  destruct M2 as ((I2 & S2 & En2 & Es2 & Pa2) & _ & P2 & R2 & Up2 & Low2).
  assert (Srs : h_sr s' = h_sr s0) by congruence.
  assert (Gn : forall gs, in_failed_srlg s' gs <-> in_failed_srlg s0 gs) by (intros gs; unfold in_failed_srlg; now rewrite Srs).
  assert (S02 := stat_trans _ _ _ _ S1 S2).
  split; [rewrite Srs; simpl; now rewrite fupd_same|]. split; [intros x; unfold srlg_name; rewrite Srs; simpl; apply fupd_cases; intros; subst; auto|].
  split; [intros x D; rewrite Srs; simpl; now rewrite fupd_other by auto|]. split; auto. split; [auto|].
  exists (fun x => P1 x \/ P2 x). split; [|split].
  - assert (R0 : restored k True s s0 (fun _ => False) (fun _ => False)).
    { constructor; auto; try tauto; [repeat split|]. intros x. split; auto using same_if_data_refl. }
    eapply rs_ext; [eapply rs_trans; [exact R0|eapply rs_trans; [exact R1|exact R2|]|]| |].
    + intros gs. unfold in_failed_srlg. now rewrite Es1.
    + intros gs (x & Hx & F). exists x. split; auto. revert F. simpl. apply fupd_cases; intros; subst; auto. discriminate.
    + intros x; cbv beta; tauto.
    + intros x; cbv beta. rewrite Gn. unfold Nf. split.
      * intros [[]|[(n & Hn & X1 & X2 & ->)|(z & _ & [])]]. auto.
      * intros (Hn & X1 & X2). right. left. exists x. auto.
  - intros x [Hx|Hx].
    + destruct (Up1 x Hx) as [X1 X2]. split; auto.
    + destruct (Up2 x Hx) as [X1 X2]. rewrite (stat_ifs _ _ _ S1) in X1. rewrite (stat_srlgs _ _ _ S1) in X2. split; auto.
  - intros x Hx Gx EU NF. right. apply (Low2 x x); [rewrite (stat_ifs _ _ _ S1); auto|]. split; auto.
    rewrite (stat_srlgs _ _ _ S1). split; auto. split.
    + unfold ends_up in *. rewrite <- En2. destruct (st_if _ _ _ S2 x) as (_ & <- & <- & _). exact EU.
    + rewrite Gn in NF. unfold in_failed_srlg in *. now rewrite Es1.
Qed.
End Srlg.
