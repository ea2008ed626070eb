(** SigUpdate.v - the signalling done by update_simulation. *)
From Verif Require Import Base Graph Objects Sim Spec SpecCkt SpecSim SpecSig GraphProofs MonadProofs RoundProofs ResProofs ObjProofs
  CircuitProofs ValidateProofs GroupProofs PathProofs QuietProofs RouteProofs LeastProofs SigProofs ResigProofs SigSeq IgpProofs.
From Coq Require Import Permutation Lqa.


Definition unr (s : st) (l : nat) : Prop := l_path (h_ls s l) = PUnrouted.
(** Routed and holding a number, or unrouted *)
Definition on (s : st) (l : nat) : Prop := exists p c b q, l_path (h_ls s l) = PRouted p c b /\ l_res (h_ls s l) = RNum q.
Definition settled (s : st) (l : nat) : Prop := on s l \/ (unr s l /\ l_res (h_ls s l) = RUnrouted).

Lemma on_not_unr s l : on s l -> ~ unr s l.
Proof. intros (p & c & b & q & H & _) U. unfold unr in U. congruence. Qed.
Lemma signalled_settled s l bw s' : signalled s l bw s' -> settled s' l.
Proof.
  intros [(p & S)|S].
  - left. destruct (so_path _ _ _ _ _ S) as (b & H & _). destruct (so_bw _ _ _ _ _ S) as [R _]. red. eauto 8.
  - right. split; [apply (sx_path _ _ _ _ S)|apply (sx_bw _ _ _ _ S)].
Qed.
Lemma signalling_settled s order s' : signalling s order s' -> forall l, In l (map fst order) -> settled s' l.
Proof.
  induction 1 as [s|s l bw tl s1 s' S Q IH]; simpl; [tauto|]. intros m Hm. destruct (in_dec Nat.eq_dec m (map fst tl)) as [I|I]; [auto|].
  destruct Hm as [<-|Hm]; [|tauto]. assert (H := signalled_settled _ _ _ _ S). unfold settled, on, unr in *. rewrite (signalling_other _ _ _ _ Q I). exact H.
Qed.

Section Group.
Variables (E : env) (k : kind).
Hypothesis HE : env_ok E.

Lemma optimize_on s l bw s' : on s l -> optimize_lsp E k bw l s = (s', Ok tt) ->
  only_signals s l s' /\ on s' l /\ (l_setup (h_ls s' l) = l_setup (h_ls s l) \/ 
    l_setup (h_ls s' l) = RNum (match l_cfg (h_ls s l) with Some c => if Qeq_bool c 0 then bw else c | None => bw end)).
Proof.
  intros (p & c & b & q & P & R) H. destruct (optimize_run E k s l bw p c b q P R s' H) as [[_ ->]|(p' & b' & _ & _ & O & P' & R' & S' & _)].
  - split; [eapply os_refl0|]. split; [red; eauto 8|auto].
  - split; auto. split; [red; eauto 8|auto].
Qed.

(** The loop of re-signalling *)
Lemma optimize_loop bw rs : forall s s', (forall l, In l rs -> on s l) -> mfor rs (optimize_lsp E k bw) s = (s', Ok tt) ->
  seq_frame s s' /\ (forall l, In l rs -> on s' l) /\ (forall l, ~ In l rs -> h_ls s' l = h_ls s l) /\
  (forall l, In l rs -> l_setup (h_ls s' l) = l_setup (h_ls s l) \/ 
    l_setup (h_ls s' l) = RNum (match l_cfg (h_ls s l) with Some c => if Qeq_bool c 0 then bw else c | None => bw end)).
Proof.
  induction rs as [|l rs IH]; intros s s' On H.
  - injection H as <-. split; [apply seq_refl|]. split; [intros l []|]. split; [auto|intros l []].
  - apply mfor_cons_ok in H as (s1 & H1 & H2). destruct (optimize_on s l bw s1 (On l (or_introl eq_refl)) H1) as (O & On1 & S1).
    assert (On' : forall m, In m rs -> on s1 m).
    { intros m Hm. destruct (Nat.eq_dec m l) as [->|N]; auto. unfold on. rewrite (os_ls _ _ _ O) by auto. apply On. simpl; auto. }
    destruct (IH s1 s' On' H2) as (A & B & C & D). split; [eapply seq_trans; [eapply only_seq; eauto|auto]|]. split; [|split].
    + intros m Hm. destruct (in_dec Nat.eq_dec m rs) as [I|I]; auto. destruct Hm as [<-|Hm]; [|tauto]. unfold on. rewrite (C _ I). exact On1.
    + intros m Hm. rewrite C by (simpl in Hm; tauto). apply (os_ls _ _ _ O). intros ->. apply Hm. simpl; auto.
    + intros m Hm. rewrite <- (os_cfg _ _ _ O m). destruct (Nat.eq_dec m l) as [->|N].
      * destruct (in_dec Nat.eq_dec l rs) as [I|I].
        -- destruct (D _ I) as [D1|D1]; auto. rewrite D1. rewrite (os_cfg _ _ _ O l). auto.
        -- rewrite (C _ I). rewrite (os_cfg _ _ _ O l). auto.
      * destruct Hm as [Hm|Hm]; [congruence|]. rewrite <- (os_ls _ _ _ O m N). auto.
Qed.

Definition each (total : Q) (n : nat) : Q := if Qltb 0 total then (total / inject_Z (Z.of_nat n))%Q else 0%Q.
Definition routed_of (s : st) (lsps : list nat) : list nat := filter (fun l => not_unrouted (l_path (h_ls s l))) lsps.

Lemma not_unrouted_iff s l : not_unrouted (l_path (h_ls s l)) = true <-> ~ unr s l.
Proof. unfold unr. destruct (l_path (h_ls s l)); simpl; split; intros; try congruence; try tauto; discriminate. Qed.

Lemma group_run dg key lsps s s' : good k s -> route_lsp_group E k dg (key, lsps) s = (s', Ok tt) ->
  let bw := each (group_traffic s dg key) (List.length lsps) in
  (forall l, In l lsps -> lsp_from s l <> lsp_to s l) /\
  exists s1, signalling s (map (fun l => (l, wanted s l bw)) lsps) s1 /\ seq_frame s s' /\
   (forall l, In l lsps -> settled s' l) /\ (forall l, ~ In l lsps -> h_ls s' l = h_ls s l) /\
   (forall l, unr s' l <-> unr s1 l) /\
   (s' = s1 \/ ((exists l, In l lsps /\ unr s1 l) /\ (exists l, In l lsps /\ ~ unr s1 l) /\ 
      mfor (routed_of s1 lsps) (optimize_lsp E k (group_traffic s dg key / inject_Z (Z.of_nat (List.length (routed_of s1 lsps))))%Q) s1 = (s', Ok tt))).
Proof.
  intros Gd H. unfold route_lsp_group in H. rewrite bind_gets in H. cbv zeta in H. fold (each (group_traffic s dg key) (List.length lsps)) in H.
  set (bw := each _ _) in *. apply bind_ok in H as (s1 & [] & H1 & H). destruct (determine_loop E k HE lsps bw s s1 Gd H1) as [Q Ne].
  rewrite bind_gets in H. fold (routed_of s1 lsps) in H.
  assert (M : map fst (map (fun l => (l, wanted s l bw)) lsps) = lsps) by (rewrite map_map; apply map_id).
  assert (St : forall l, In l lsps -> settled s1 l) by (intros l Hl; apply (signalling_settled _ _ _ Q); now rewrite M).
  assert (Ot : forall l, ~ In l lsps -> h_ls s1 l = h_ls s l) by (intros l Hl; apply (signalling_other _ _ _ _ Q); now rewrite M).
  assert (F := signalling_frame _ _ _ Q).
  split; [exact Ne|]. exists s1. split; [exact Q|].
  destruct (negb _ && negb _) eqn:B.
  2:{ injection H as <-. repeat (split; [tauto || assumption|]). auto. }
  apply andb_true_iff in B as [B1 B2]. apply negb_true_iff, Nat.eqb_neq in B1. apply negb_true_iff, Nat.eqb_neq in B2.
  assert (On : forall l, In l (routed_of s1 lsps) -> on s1 l).
  { intros l Hl. apply filter_In in Hl as [Hl Hn]. apply not_unrouted_iff in Hn. destruct (St l Hl) as [X|[X _]]; tauto. }
  destruct (optimize_loop _ _ _ _ On H) as (F2 & On2 & Ot2 & _).
  assert (U : forall l, unr s' l <-> unr s1 l).
  { intros l. destruct (in_dec Nat.eq_dec l (routed_of s1 lsps)) as [I|I].
    - split; intros X; exfalso; [exact (on_not_unr _ _ (On2 l I) X)|exact (on_not_unr _ _ (On l I) X)].
    - unfold unr. rewrite (Ot2 l I). reflexivity. }
  split; [eapply seq_trans; eauto|]. split; [|split; [|split; [exact U|]]].
  - intros l Hl. destruct (in_dec Nat.eq_dec l (routed_of s1 lsps)) as [I|I]; [left; auto|]. unfold settled, on, unr. rewrite (Ot2 l I). apply St, Hl.
  - intros l Hl. rewrite Ot2; [auto|]. intros X. apply filter_In in X. tauto.
  - right. split; [|split].
    + destruct (Forall_Exists_dec (fun l => not_unrouted (l_path (h_ls s1 l)) = true) (fun l => bool_dec _ _) lsps) as [A|A].
      * exfalso. apply B1. unfold routed_of. clear -A. induction A; simpl; auto. rewrite H. simpl. now f_equal.
      * apply Exists_exists in A as (l & Hl & A). exists l. split; auto. destruct (St l Hl) as [X|[X _]]; auto. exfalso. apply A. apply not_unrouted_iff. now apply on_not_unr.
    + destruct (routed_of s1 lsps) as [|l r] eqn:R; [simpl in B2; congruence|]. assert (Hl : In l (routed_of s1 lsps)) by (rewrite R; simpl; auto).
      apply filter_In in Hl as [Hl Hn]. exists l. split; auto. now apply not_unrouted_iff.
    + exact H.
Qed.

(** All groups, when each is routed entirely or not at all *)
Definition traffic_const (dg : list (string * list nat)) (s s' : st) : Prop := forall key, group_traffic s' dg key = group_traffic s dg key.
Lemma seq_traffic dg s s' : seq_frame s s' -> traffic_const dg s s'.
Proof. intros F key. unfold group_traffic. rewrite (qf_dm _ _ F). reflexivity. Qed.
Lemma seq_wanted s s' l x : seq_frame s s' -> wanted s' l x = wanted s l x.
Proof. intros F. unfold wanted. rewrite (qf_ls _ _ F l). reflexivity. Qed.

Definition group_order (dg : list (string * list nat)) (s : st) (g : string * list nat) : list (nat * Q) :=
  map (fun l => (l, wanted s l (each (group_traffic s dg (fst g)) (List.length (snd g))))) (snd g).

Lemma groups_frame dg gs : forall s s', good k s -> mfor gs (route_lsp_group E k dg) s = (s', Ok tt) ->
  seq_frame s s' /\ (forall l, ~ In l (flat_map snd gs) -> h_ls s' l = h_ls s l) /\ (forall l, In l (flat_map snd gs) -> settled s' l /\ lsp_from s l <> lsp_to s l).
Proof.
  induction gs as [|[key lsps] gs IH]; intros s s' Gd H.
  - injection H as <-. split; [apply seq_refl|]. split; [auto|intros l []].
  - apply mfor_cons_ok in H as (s1 & H1 & H2). destruct (group_run _ _ _ _ _ Gd H1) as (Ne & s0 & _ & F & St & Ot & _ & _).
    destruct (IH s1 s' (good_seq k _ _ F Gd) H2) as (F2 & Ot2 & St2).
    assert (FT : forall l, lsp_from s1 l = lsp_from s l /\ lsp_to s1 l = lsp_to s l).
    { intros l. unfold lsp_from, lsp_to. rewrite (qf_nd _ _ F), (qf_ls _ _ F l). auto. }
    split; [eapply seq_trans; eauto|]. cbn [flat_map snd]. split.
    + intros l Hl. rewrite in_app_iff in Hl. rewrite Ot2, Ot by tauto. reflexivity.
    + intros l Hl. rewrite in_app_iff in Hl. destruct (in_dec Nat.eq_dec l (flat_map snd gs)) as [I|I].
      * destruct (St2 l I) as [A B]. split; auto. destruct (FT l) as [-> ->] in B. exact B.
      * destruct Hl as [Hl|Hl]; [|tauto]. split; [|auto]. unfold settled, on, unr. rewrite (Ot2 l I). apply St, Hl.
Qed.

Lemma groups_whole dg gs : forall s s', good k s -> NoDup (flat_map snd gs) -> mfor gs (route_lsp_group E k dg) s = (s', Ok tt) ->
  (forall g l m, In g gs -> In l (snd g) -> In m (snd g) -> unr s' l -> unr s' m) ->
  signalling s (flat_map (group_order dg s) gs) s'.
Proof.
  induction gs as [|[key lsps] gs IH]; intros s s' Gd N H W.
  - injection H as <-. constructor.
  - apply mfor_cons_ok in H as (s1 & H1 & H2). destruct (group_run _ _ _ _ _ Gd H1) as (_ & s0 & Q & F & St & Ot & U & C).
    cbn [flat_map snd] in N. assert (Gd1 := good_seq k _ _ F Gd).
    destruct (groups_frame dg gs s1 s' Gd1 H2) as (F2 & Ot2 & _).
    assert (D : forall l, In l lsps -> ~ In l (flat_map snd gs)).
    { clear -N. induction lsps as [|x lsps IH]; simpl in *; [tauto|]. inversion N; subst. intros l [<-|Hl]; [|auto]. intros I. apply H1. apply in_or_app. auto. }
    assert (N2 : NoDup (flat_map snd gs)) by (clear -N; induction lsps; simpl in N; auto; inversion N; auto).
    assert (E1 : s1 = s0).
    { destruct C as [C|((l & Hl & Ul) & (m & Hm & Um) & _)]; auto. exfalso. apply Um. apply U. 
      assert (X : forall l, In l lsps -> (unr s' l <-> unr s1 l)) by (intros x Hx; unfold unr; rewrite (Ot2 x (D x Hx)); reflexivity).
      apply X; auto. apply (W (key, lsps) l m); simpl; auto. apply X; auto. now apply U. }
    subst s0. cbn [flat_map]. eapply signalling_app; [exact Q|].
    assert (Eo : flat_map (group_order dg s) gs = flat_map (group_order dg s1) gs).
    { clear -F. induction gs as [|g gs IH]; simpl; auto. rewrite IH. f_equal. unfold group_order. apply map_ext. intros l. 
      rewrite (seq_traffic dg _ _ F), (seq_wanted _ _ _ _ F). reflexivity. }
    rewrite Eo. apply IH; auto. intros g l m Hg. apply W. simpl; auto.
Qed.
End Group.

(** ** The groups are the LSPs with the same ends *)
Section Ends.
Variables (E : env) (s : st).
Hypothesis HE : env_ok E.
Hypothesis TD : texts_distinct s.
Let gs := build_groups E (lsrc s) (ldst s) (m_lsps s).
Let dg := parallel_demand_groups E s.

Lemma lsps_apart : keys_apart (lsrc s) (ldst s) (m_lsps s).
Proof. intros a a' b b' H1 H2 H3 H4. apply TD; unfold from_names, to_names; apply in_or_app; auto. Qed.
Lemma dmds_apart : keys_apart (dsrc s) (ddst s) (m_dms s).
Proof. intros a a' b b' H1 H2 H3 H4. apply TD; unfold from_names, to_names; apply in_or_app; auto. Qed.

Lemma group_lsps g l : In g gs -> In l (snd g) -> In l (m_lsps s) /\ fst g = ends_text (lsp_from s l) (lsp_to s l) /\ snd g = lsps_of s l.
Proof.
  destruct g as [key ls]. intros Hg Hl. apply groups_in in Hg as (a & b & -> & -> & _); auto; [|apply lsps_apart]. simpl in *.
  apply members_in in Hl as (Hl & A & B). simpl in A, B. subst a b. auto.
Qed.
Lemma groups_all l : In l (m_lsps s) <-> In l (flat_map snd gs).
Proof.
  rewrite in_flat_map. split.
  - intros Hl. exists (ends_text (lsrc s l) (ldst s l), members (lsrc s) (ldst s) (m_lsps s) (lsrc s l, ldst s l)). 
    assert (I : In l (members (lsrc s) (ldst s) (m_lsps s) (lsrc s l, ldst s l))) by (apply members_in; auto). split; auto.
    apply groups_in; auto; [apply lsps_apart|]. eexists _, _. split; [reflexivity|]. split; [reflexivity|]. intros X. rewrite X in I. destruct I.
  - intros (g & Hg & Hl). eapply group_lsps; eauto.
Qed.
Lemma groups_nodup : NoDup (m_lsps s) -> NoDup (flat_map snd gs).
Proof.
  intros N. apply NoDup_flat_map.
  - assert (X := groups_fst_nodup (lsrc s) (ldst s) (m_lsps s) E HE lsps_apart). fold gs in X. eapply NoDup_of_map; eauto.
  - intros [key ls] Hg. apply groups_in in Hg as (a & b & -> & -> & _); auto; [|apply lsps_apart]. simpl. now apply NoDup_filter.
  - intros g h l Hg Hh Lg Lh. destruct (group_lsps g l Hg Lg) as (_ & A & B), (group_lsps h l Hh Lh) as (_ & C & D). destruct g, h; simpl in *. congruence.
Qed.

Lemma group_total l : In l (m_lsps s) -> group_traffic s dg (ends_text (lsp_from s l) (lsp_to s l)) = traffic_of s l.
Proof.
  intros Hl. unfold group_traffic, dg, parallel_demand_groups. change (ends_text (lsp_from s l) (lsp_to s l)) with (pair_key (lsrc s l) (ldst s l)).
  rewrite group_get; auto; [|apply dmds_apart|].
  - unfold traffic_of. change (dmds_of s l) with (members (dsrc s) (ddst s) (m_dms s) (lsrc s l, ldst s l)).
    destruct (members (dsrc s) (ddst s) (m_dms s) (lsrc s l, ldst s l)); reflexivity.
  - intros a' b' Ha Hb. apply TD; unfold from_names, to_names; apply in_or_app; auto; left; [exact (in_map (lsrc s) _ _ Hl)|exact (in_map (ldst s) _ _ Hl)].
Qed.
End Ends.

Lemma each_share total n : (0 <= total)%Q -> (each total n == total / inject_Z (Z.of_nat n))%Q.
Proof.
  intros H. unfold each. destruct (Qltb 0 total) eqn:L; [reflexivity|].
  assert (Z : (total == 0)%Q). { unfold Qltb in L. apply negb_false_iff, Qle_bool_iff in L. lra. }
  rewrite Z. unfold Qdiv. rewrite Qmult_0_l. reflexivity.
Qed.

Lemma signalling_setup s order s' : signalling s order s' -> NoDup (map fst order) -> forall l bw, In (l, bw) order -> l_setup (h_ls s' l) = RNum bw.
Proof.
  induction 1 as [s|s m x tl s1 s' S Q IH]; simpl; intros N l bw; [tauto|]. inversion N as [|? ? N1 N2]; subst. intros [H|H]; [|auto].
  injection H as -> ->. rewrite (signalling_other _ _ _ _ Q N1). destruct S as [(p & S)|S]; [apply (so_bw _ _ _ _ _ S)|apply (sx_bw _ _ _ _ S)].
Qed.

(** The bandwidth after a group's routed members were signalled again *)
Definition retried (s : st) (l : nat) (bw : Q) : Q :=
  match l_cfg (h_ls s l) with Some c => if Qeq_bool c 0 then bw else c | None => bw end.
Lemma seq_retried s s' l x : seq_frame s s' -> retried s' l x = retried s l x.
Proof. intros F. unfold retried. rewrite (qf_ls _ _ F l). reflexivity. Qed.

Section Setup.
Variables (E : env) (k : kind).
Hypothesis HE : env_ok E.
Lemma groups_setup dg gs : forall s s', good k s -> NoDup (flat_map snd gs) -> mfor gs (route_lsp_group E k dg) s = (s', Ok tt) ->
  forall g l, In g gs -> In l (snd g) -> let T := group_traffic s dg (fst g) in
    exists b, l_setup (h_ls s' l) = RNum b /\
      (b = wanted s l (each T (List.length (snd g))) \/
       (~ unr s' l /\ (exists m, In m (snd g) /\ unr s' m) /\ b = retried s l (T / inject_Z (Z.of_nat (List.length (routed_of s' (snd g))))))).
Proof.
  induction gs as [|[key lsps] gs IH]; intros s s' Gd N H g l Hg Hl T; [destruct Hg|].
  apply mfor_cons_ok in H as (s1 & H1 & H2). destruct (group_run E k HE _ _ _ _ _ Gd H1) as (_ & s0 & Q & F & St & Ot & U & C).
  cbn [flat_map snd] in N. assert (Gd1 := good_seq k _ _ F Gd).
  destruct (groups_frame E k HE dg gs s1 s' Gd1 H2) as (F2 & Ot2 & _).
  assert (D : forall l, In l lsps -> ~ In l (flat_map snd gs)).
  { clear -N. induction lsps as [|x lsps IH]; simpl in *; [tauto|]. inversion N; subst. intros l [<-|Hl]; [|auto]. intros I. apply H1. apply in_or_app. auto. }
  assert (N2 : NoDup (flat_map snd gs)) by (clear -N; induction lsps; simpl in N; auto; inversion N; auto).
  assert (N1 : NoDup lsps). { clear -N. induction lsps as [|x lsps IH]; simpl in *; [constructor|]. inversion N; subst. constructor; auto. intros I. apply H1. apply in_or_app. auto. }
  destruct Hg as [<-|Hg].
  - cbn [fst snd] in *. rewrite (Ot2 l (D l Hl)).
    assert (M : map fst (map (fun l => (l, wanted s l (each T (List.length lsps)))) lsps) = lsps) by (rewrite map_map; apply map_id).
    assert (B0 : l_setup (h_ls s0 l) = RNum (wanted s l (each T (List.length lsps)))).
    { apply (signalling_setup _ _ _ Q); [now rewrite map_map, map_id|]. apply in_map_iff. eauto. }
    assert (X : forall l, In l lsps -> (unr s' l <-> unr s0 l)) by (intros x Hx; rewrite <- U; unfold unr; rewrite (Ot2 x (D x Hx)); reflexivity).
    destruct C as [->|((m & Hm & Um) & _ & C)]; [eauto|].
    assert (On : forall l, In l (routed_of s0 lsps) -> on s0 l).
    { intros x Hx. apply filter_In in Hx as [Hx Hn]. apply not_unrouted_iff in Hn. 
      destruct (signalling_settled _ _ _ Q x) as [Y|[Y _]]; auto; [now rewrite map_map, map_id|tauto]. }
    destruct (optimize_loop E k _ _ _ _ On C) as (_ & _ & Ot3 & S3).
    destruct (in_dec Nat.eq_dec l (routed_of s0 lsps)) as [I|I].
    + destruct (S3 l I) as [S4|S4]; rewrite S4; [eauto|]. eexists. split; [reflexivity|]. right. split; [|split].
      * rewrite X by auto. apply on_not_unr. auto.
      * exists m. split; auto. now apply X.
      * fold (retried s0 l (group_traffic s dg key / inject_Z (Z.of_nat (List.length (routed_of s0 lsps))))).
        rewrite (seq_retried s s0) by (eapply signalling_frame; eauto). f_equal. f_equal. f_equal. f_equal.
        assert (Ef : routed_of s' lsps = routed_of s0 lsps).
        { unfold routed_of. apply filter_ext_in. intros x Hx. specialize (X x Hx).
          destruct (not_unrouted (l_path (h_ls s' x))) eqn:A, (not_unrouted (l_path (h_ls s0 x))) eqn:B; auto.
          - exfalso. apply not_unrouted_iff in A. apply A. apply X. destruct (l_path (h_ls s0 x)) eqn:P; simpl in B; try discriminate. exact P.
          - exfalso. apply not_unrouted_iff in B. apply B. apply X. destruct (l_path (h_ls s' x)) eqn:P; simpl in A; try discriminate. exact P. }
        rewrite Ef. reflexivity.
    + rewrite Ot3 by auto. eauto.
  - destruct (IH s1 s' Gd1 N2 H2 g l Hg Hl) as (b & A & B). exists b. split; auto.
    rewrite (seq_traffic dg _ _ F), (seq_wanted _ _ _ _ F), (seq_retried _ _ _ _ F) in B. exact B.
Qed.
End Setup.

(** ** update_simulation *)
Section Update.
Variables (E : env) (k : kind).
Hypothesis HE : env_ok E.
Variables s s1 s2 s3 s4 s' : st.
Hypothesis Sm : simulated E k s s1 s2 s3 s4 s'.
Hypothesis N : NoDup (m_ifs s).
Hypothesis Cost : forall i, In i (m_ifs s) -> 1 <= i_cost (h_if s i).
Hypothesis TD : texts_distinct s.

Lemma sm_signals : exists s0, cleared s s0 /\ good k s0 /\ texts_distinct s0 /\
  mfor (build_groups E (lsrc s0) (ldst s0) (m_lsps s0)) (route_lsp_group E k (parallel_demand_groups E s0)) s0 = (s2, Ok tt).
Proof.
  pose proof (sm_lsps _ _ _ _ _ _ _ _ Sm) as R. pose proof (sm_prep _ _ _ _ _ _ _ _ Sm) as P.
  destruct (route_lsps_start E k s1) as (s0 & R0 & Z & A1 & A2 & A3 & A4 & A5 & A6 & A7 & A8 & A9 & A10 & A11 & A12 & A13 & A14).
  rewrite R0 in R.
  assert (I0 : m_ifs s0 = m_ifs s) by (rewrite A5; apply P). assert (N0 : h_nd s0 = h_nd s) by (rewrite A1; apply P).
  assert (HI : forall i, In i (m_ifs s) -> h_if s0 i = if_traffic (TNum 0) (if_res 0%Q (h_if s i))).
  { intros i Hi. rewrite (A13 i), (pr_if _ _ P i), Z, (pr_ifs _ _ P). replace (mem_nat i (m_ifs s)) with true by (symmetry; now apply mem_nat_In). reflexivity. }
  assert (HL : forall l, In l (m_lsps s) -> h_ls s0 l = ls_path PUnrouted (h_ls s l)).
  { intros l Hl. rewrite A4, (pr_ls _ _ P l). replace (mem_nat l (m_lsps s)) with true by (symmetry; now apply mem_nat_In). reflexivity. }
  assert (HD : forall d, same_dm_data (h_dm s d) (h_dm s0 d)).
  { intros d. rewrite A3, (pr_dm _ _ P d). destruct (mem_nat d (m_dms s)); repeat split. }
  assert (LF : forall i, In i (m_ifs s) -> loc s0 i = loc s i /\ rem s0 i = rem s i) by (intros i Hi; unfold loc, rem; rewrite N0, HI by auto; auto).
  exists s0. split; [|split; [|split]].
  - constructor; auto. repeat split; [exact I0|rewrite A6|rewrite A7|rewrite A8|rewrite A9]; apply P.
  - constructor; [now rewrite I0| |].
    + intros i Hi. rewrite I0 in Hi. rewrite HI by auto. apply Cost, Hi.
    + intros Hk i j Hi Hj L1 L2. rewrite I0 in Hi, Hj. destruct (sm_12 _ _ _ _ _ _ _ _ Sm) as (B1 & B2 & _ & _ & _ & X & _).
      assert (LF2 : forall i, loc s2 i = loc s i /\ rem s2 i = rem s i) by (intros x; unfold loc, rem; rewrite B1; destruct (X x) as (t & q & ->); auto).
      apply (sm_nopar E k HE _ _ _ _ _ _ Sm N Hk i j); rewrite ?B2; auto.
      * destruct (LF2 i) as [-> _], (LF2 j) as [-> _]. destruct (LF i Hi) as [<- _], (LF j Hj) as [<- _]. exact L1.
      * destruct (LF2 i) as [_ ->], (LF2 j) as [_ ->]. destruct (LF i Hi) as [_ <-], (LF j Hj) as [_ <-]. exact L2.
  - assert (FN : from_names s0 = from_names s /\ to_names s0 = to_names s).
    { unfold from_names, to_names. rewrite A8, A7, (pr_lsps _ _ P), (pr_dms _ _ P). split; f_equal; apply map_ext_in; intros x Hx.
      - unfold lsp_from. rewrite N0, HL by auto. reflexivity.
      - unfold dmd_from. rewrite N0. destruct (HD x) as (-> & _). reflexivity.
      - unfold lsp_to. rewrite N0, HL by auto. reflexivity.
      - unfold dmd_to. rewrite N0. destruct (HD x) as (_ & -> & _). reflexivity. }
    intros a a' b b'. destruct FN as [-> ->]. apply TD.
  - assert (EG : egroups E s1 = build_groups E (lsrc s0) (ldst s0) (m_lsps s0)).
    { rewrite <- A14. assert (B : m_groups s1 = []) by apply P. unfold egroups in A14. rewrite B in A14. unfold egroups. destruct (m_groups s0) eqn:G0; auto.
      rewrite A14. symmetry. apply build_ext; auto; intros m; [now rewrite A1|rewrite A4; auto]. }
    rewrite EG in R. assert (DG : parallel_demand_groups E s1 = parallel_demand_groups E s0).
    { unfold parallel_demand_groups. rewrite A7. unfold dsrc, ddst. rewrite A1, A3. reflexivity. }
    rewrite DG in R. exact R.
Qed.
End Update.

Lemma sm_lsp E k (HE : env_ok E) s s1 s2 s3 s4 s' (Sm : simulated E k s s1 s2 s3 s4 s') (N : NoDup (m_ifs s)) l :
  l_path (h_ls s' l) = l_path (h_ls s2 l) /\ l_res (h_ls s' l) = l_res (h_ls s2 l) /\ l_setup (h_ls s' l) = l_setup (h_ls s2 l) /\ l_cfg (h_ls s' l) = l_cfg (h_ls s2 l).
Proof.
  destruct (sm_rest _ _ _ _ _ _ _ _ Sm HE N) as (_ & _ & _ & HL & _). rewrite HL. destruct (sm_sig24 _ _ _ _ _ _ _ _ Sm l) as [-> ->].
  rewrite (rs_ls _ _ _ (sm_24 _ _ _ _ _ _ _ _ Sm) l). auto.
Qed.
Lemma sm_ires E k (HE : env_ok E) s s1 s2 s3 s4 s' (Sm : simulated E k s s1 s2 s3 s4 s') (N : NoDup (m_ifs s)) : same_failures s s' ->
  forall i, i_res (h_if s' i) = i_res (h_if s2 i).
Proof.
  intros St i. destruct (cf_data _ _ _ (sm_cframe _ _ _ _ _ _ _ _ Sm HE N St) i) as (_ & _ & _ & _ & _ & _ & _ & -> & _).
  rewrite (rs_if _ _ _ (sm_24 _ _ _ _ _ _ _ _ Sm) i). reflexivity.
Qed.

Section Result.
Variables (E : env) (k : kind).
Hypothesis HE : env_ok E.
Variables s s' : st.
Hypothesis WP : well_posed s.
Hypothesis R : update_simulation E k s = (s', Ok tt).

Lemma cl_ends s0 l : cleared s s0 -> In l (m_lsps s) -> lsp_from s0 l = lsp_from s l /\ lsp_to s0 l = lsp_to s l.
Proof. intros Cl Hl. unfold lsp_from, lsp_to. rewrite (cl_nd _ _ Cl), (cl_ls _ _ Cl l Hl). auto. Qed.
Lemma cl_share s0 l : cleared s s0 -> In l (m_lsps s) -> traffic_of s0 l = traffic_of s l /\ lsps_of s0 l = lsps_of s l.
Proof.
  intros Cl Hl. destruct (cl_sets _ _ Cl) as (_ & _ & Hd & HL & _). destruct (cl_ends s0 l Cl Hl) as [F T]. split.
  - unfold traffic_of, dmds_of. rewrite Hd, F, T.
    assert (X : forall d, dmd_from s0 d = dmd_from s d /\ dmd_to s0 d = dmd_to s d /\ d_traffic (h_dm s0 d) = d_traffic (h_dm s d)).
    { intros d. unfold dmd_from, dmd_to. rewrite (cl_nd _ _ Cl). destruct (cl_dm _ _ Cl d) as (-> & -> & -> & _). auto. }
    f_equal. erewrite filter_ext; [apply map_ext; intros d; apply X|]. intros d. destruct (X d) as (-> & -> & _). reflexivity.
  - unfold lsps_of. rewrite HL, F, T. apply filter_ext_in. intros m Hm. destruct (cl_ends s0 m Cl Hm) as [-> ->]. reflexivity.
Qed.

(** every LSP is routed with a number or entirely unrouted, and has different ends *)
Lemma update_settled l : In l (m_lsps s) -> settled s' l /\ lsp_from s l <> lsp_to s l.
Proof.
  intros Hl. destruct WP as (N & C & T). destruct (simulated_ex E k s s' R) as (s1 & s2 & s3 & s4 & Sm).
  destruct (sm_signals E k HE _ _ _ _ _ _ Sm N C T) as (s0 & Cl & Gd & T0 & R0).
  destruct (groups_frame E k HE _ _ _ _ Gd R0) as (F & _ & St).
  assert (Hl0 : In l (m_lsps s0)) by (destruct (cl_sets _ _ Cl) as (_ & _ & _ & -> & _); exact Hl).
  apply (groups_all E s0 HE T0) in Hl0. destruct (St l Hl0) as [A B]. split.
  - destruct (sm_lsp E k HE _ _ _ _ _ _ Sm N l) as (X1 & X2 & _). unfold settled, on, unr in *. now rewrite X1, X2.
  - destruct (cl_ends s0 l Cl Hl) as [X Y]. now rewrite X, Y in B.
Qed.

Lemma traffic_of_pos l : (forall d, In d (m_dms s) -> (0 <= d_traffic (h_dm s d))%Q) -> (0 <= traffic_of s l)%Q.
Proof.
  intros H. unfold traffic_of. assert (X : forall ds, (forall d, In d ds -> In d (m_dms s)) -> (0 <= Qsum (map (fun d => d_traffic (h_dm s d)) ds))%Q).
  { induction ds as [|d ds IH]; intros I; [simpl; lra|]. cbn [map Qsum fold_right]. fold (Qsum (map (fun d => d_traffic (h_dm s d)) ds)). 
    assert (A := H d (I d (or_introl eq_refl))). assert (B := IH (fun x Hx => I x (or_intror Hx))). lra. }
  apply X. intros d Hd. unfold dmds_of in Hd. apply filter_In in Hd. tauto.
Qed.

(** The setup bandwidth (C14) *)
Lemma update_setup l : NoDup (m_lsps s) -> (forall d, In d (m_dms s) -> (0 <= d_traffic (h_dm s d))%Q) -> In l (m_lsps s) ->
  exists b, l_setup (h_ls s' l) = RNum b /\
    ((b == wanted s l (equal_share s l))%Q \/
     (~ unr s' l /\ (exists m, In m (lsps_of s l) /\ unr s' m) /\
      (b == retried s l (traffic_of s l / inject_Z (Z.of_nat (List.length (routed_of s' (lsps_of s l))))))%Q)).
Proof.
  intros NL Tr Hl. destruct WP as (N & C & T). destruct (simulated_ex E k s s' R) as (s1 & s2 & s3 & s4 & Sm).
  destruct (sm_signals E k HE _ _ _ _ _ _ Sm N C T) as (s0 & Cl & Gd & T0 & R0).
  assert (EL : m_lsps s0 = m_lsps s) by apply (cl_sets _ _ Cl).
  assert (Hl0 : In l (m_lsps s0)) by (rewrite EL; exact Hl). assert (NG : NoDup (flat_map snd (build_groups E (lsrc s0) (ldst s0) (m_lsps s0)))) by (apply groups_nodup; auto; now rewrite EL).
  assert (Hg := Hl0). apply (groups_all E s0 HE T0), in_flat_map in Hg as (g & Hg & Hlg).
  destruct (groups_setup E k HE _ _ _ _ Gd NG R0 g l Hg Hlg) as (b & B1 & B2).
  destruct (group_lsps E s0 HE T0 g l Hg Hlg) as (_ & G1 & G2). rewrite G1, G2 in B2. rewrite (group_total E s0 HE T0 l Hl0) in B2.
  destruct (cl_share s0 l Cl Hl) as [S1 S2]. rewrite S1, S2 in B2.
  assert (U : forall m, unr s' m <-> unr s2 m) by (intros m; unfold unr; destruct (sm_lsp E k HE _ _ _ _ _ _ Sm N m) as (-> & _); reflexivity).
  assert (W : forall x, wanted s0 l x = wanted s l x) by (intros x; unfold wanted; rewrite (cl_ls _ _ Cl l Hl); reflexivity).
  assert (RT : forall x, retried s0 l x = retried s l x) by (intros x; unfold retried; rewrite (cl_ls _ _ Cl l Hl); reflexivity).
  exists b. destruct (sm_lsp E k HE _ _ _ _ _ _ Sm N l) as (_ & _ & X & _). split; [now rewrite X|].
  destruct B2 as [->|(A1 & (m & A2 & A3) & ->)].
  - left. rewrite W. unfold wanted. destruct (l_cfg (h_ls s l)); [reflexivity|]. unfold equal_share. apply each_share. now apply traffic_of_pos.
  - right. split; [now rewrite U|]. split; [exists m; split; auto; now rewrite U|]. rewrite RT.
    assert (Ef : routed_of s' (lsps_of s l) = routed_of s2 (lsps_of s l)).
    { unfold routed_of. apply filter_ext. intros x. destruct (sm_lsp E k HE _ _ _ _ _ _ Sm N x) as (-> & _). reflexivity. }
    rewrite Ef. reflexivity.
Qed.

(** When every group is routed entirely or not at all, update_simulation signals
    each LSP once. *)
Lemma update_signalling : NoDup (m_lsps s) -> (forall d, In d (m_dms s) -> (0 <= d_traffic (h_dm s d))%Q) -> all_or_none s' ->
  exists s0 order s2, cleared s s0 /\ signalling s0 order s2 /\ Permutation (map fst order) (m_lsps s) /\
    (forall l bw, In (l, bw) order -> (bw == wanted s l (equal_share s l))%Q) /\
    (forall l, l_path (h_ls s' l) = l_path (h_ls s2 l) /\ l_res (h_ls s' l) = l_res (h_ls s2 l) /\ l_setup (h_ls s' l) = l_setup (h_ls s2 l)) /\
    (same_failures s s' -> forall i, i_res (h_if s' i) = i_res (h_if s2 i)).
Proof.
  intros NL Tr AN. destruct WP as (N & C & T). destruct (simulated_ex E k s s' R) as (s1 & s2 & s3 & s4 & Sm).
  destruct (sm_signals E k HE _ _ _ _ _ _ Sm N C T) as (s0 & Cl & Gd & T0 & R0).
  assert (EL : m_lsps s0 = m_lsps s) by apply (cl_sets _ _ Cl).
  set (gs := build_groups E (lsrc s0) (ldst s0) (m_lsps s0)) in *. set (dg := parallel_demand_groups E s0) in *.
  assert (NG : NoDup (flat_map snd gs)) by (apply groups_nodup; auto; now rewrite EL).
  assert (GL : forall g l, In g gs -> In l (snd g) -> In l (m_lsps s) /\ fst g = ends_text (lsp_from s0 l) (lsp_to s0 l) /\ snd g = lsps_of s0 l).
  { intros g l Hg Hl. destruct (group_lsps E s0 HE T0 g l Hg Hl) as (A & B & D). now rewrite EL in A. }
  assert (L' : m_lsps s' = m_lsps s) by (destruct (sm_lsps' _ _ _ _ _ _ _ _ Sm HE N) as (-> & _); destruct (sm_12 _ _ _ _ _ _ _ _ Sm) as (_ & _ & _ & _ & -> & _); reflexivity).
  assert (FT : forall l, In l (m_lsps s) -> lsp_from s' l = lsp_from s l /\ lsp_to s' l = lsp_to s l).
  { intros l Hl. destruct (sm_12 _ _ _ _ _ _ _ _ Sm) as (B1 & _ & _ & _ & _ & _ & X & _).
    rewrite (sm_lfrom _ _ _ _ _ _ _ _ Sm l HE N), (sm_lto _ _ _ _ _ _ _ _ Sm l HE N). unfold lsrc, ldst, lsp_from, lsp_to. rewrite B1. destruct (X l) as (p & a & b & ->). auto. }
  assert (Q : signalling s0 (flat_map (group_order dg s0) gs) s2).
  { apply (groups_whole E k HE dg gs s0 s2 Gd NG R0). intros g l m Hg Hl Hm U.
    destruct (GL g l Hg Hl) as (Ll & _ & G2). assert (Hm' := Hm). rewrite G2 in Hm'. unfold lsps_of in Hm'. apply filter_In in Hm' as [Lm Em].
    rewrite EL in Lm. apply andb_true_iff in Em as [E1 E2]. apply String.eqb_eq in E1. apply String.eqb_eq in E2.
    destruct (cl_ends s0 l Cl Ll) as [F1 F2], (cl_ends s0 m Cl Lm) as [F3 F4]. rewrite F1, F3 in E1. rewrite F2, F4 in E2.
    assert (X : l_path (h_ls s' m) = PUnrouted).
    { apply (AN l m); rewrite ?L'; auto; [destruct (FT l Ll) as [-> _], (FT m Lm) as [-> _]; congruence|destruct (FT l Ll) as [_ ->], (FT m Lm) as [_ ->]; congruence|].
      destruct (sm_lsp E k HE _ _ _ _ _ _ Sm N l) as (-> & _). exact U. }
    destruct (sm_lsp E k HE _ _ _ _ _ _ Sm N m) as (Y & _). unfold unr. congruence. }
  exists s0, (flat_map (group_order dg s0) gs), s2. split; [exact Cl|]. split; [exact Q|].
  assert (MF : map fst (flat_map (group_order dg s0) gs) = flat_map snd gs).
  { clear. induction gs as [|g l IH]; simpl; auto. rewrite map_app, IH. f_equal. unfold group_order. rewrite map_map. apply map_id. }
  split; [|split; [|split]].
  - rewrite MF. apply NoDup_Permutation; auto. intros l. rewrite <- EL. symmetry. apply (groups_all E s0 HE T0).
  - intros l bw Hin. apply in_flat_map in Hin as (g & Hg & Hin). unfold group_order in Hin. apply in_map_iff in Hin as (m & Em & Hm). injection Em as -> <-.
    destruct (GL g l Hg Hm) as (Ll & G1 & G2). rewrite G1, G2. assert (Ll0 : In l (m_lsps s0)) by now rewrite EL.
    unfold dg. rewrite (group_total E s0 HE T0 l Ll0). destruct (cl_share s0 l Cl Ll) as [S1 S2]. rewrite S1, S2.
    unfold wanted. rewrite (cl_ls _ _ Cl l Ll). cbn [l_cfg ls_path]. destruct (l_cfg (h_ls s l)); [reflexivity|]. unfold equal_share. apply each_share. now apply traffic_of_pos.
  - intros l. destruct (sm_lsp E k HE _ _ _ _ _ _ Sm N l) as (A & B & D & _). auto.
  - apply (sm_ires E k HE _ _ _ _ _ _ Sm N).
Qed.
End Result.
