(** SigTotal.v - update_simulation on models with LSPs: signalling cannot fail
    unless a group is routed in part. *)
From Verif Require Import Base Graph Objects Sim Spec SpecCkt SpecSim SpecMetric SpecOrder SpecShort SpecTotal GraphProofs MonadProofs RoundProofs ResProofs ObjProofs CircuitProofs
  ValidateProofs GroupProofs PathProofs QuietProofs RouteProofs LeastProofs SpecSig SigProofs ResigProofs SigSeq SigUpdate.
From Coq Require Import Permutation Lqa.

Section Signal.
Variables (E : env) (k : kind).
Hypothesis HE : env_ok E.

Lemma determine_total lsps share : forall s, good k s ->
  (forall l, In l lsps -> lsp_from s l <> lsp_to s l /\ In (lsp_from s l) (node_names s) /\ (0 <= wanted s l share)%Q) ->
  exists s', mfor lsps (fun l => determine_lsp E k l share) s = (s', Ok tt).
Proof.
  induction lsps as [|l lsps IH]; intros s Gd H; [eexists; reflexivity|]. cbn [mfor].
  destruct (H l (or_introl eq_refl)) as (H1 & H2 & H3). destruct Gd as [A B C] eqn:GE.
  destruct (signal_cases E k HE s l share A B C) as [(_ & s1 & R & S)|(s1 & e & _ & [[X _]|[[X _]|[X _]]])]; [|lra|contradiction|contradiction].
  rewrite (bind_run _ _ _ _ _ R). assert (O := signalled_only _ _ _ _ S). apply IH.
  - eapply good_seq; [eapply only_seq; eauto|exact Gd].
  - intros m Hm. rewrite (os_from _ _ _ O m), (os_to _ _ _ O m), (os_names _ _ _ O), (os_wanted _ _ _ O). apply H. right; auto.
Qed.

Lemma routed_all_or_none s lsps : (forall l m, In l lsps -> In m lsps -> unr s l -> unr s m) ->
  negb (Nat.eqb (List.length (routed_of s lsps)) (List.length lsps)) && negb (Nat.eqb (List.length (routed_of s lsps)) 0) = false.
Proof.
  intros W. destruct (Forall_Exists_dec (fun l => not_unrouted (l_path (h_ls s l)) = true) (fun l => bool_dec _ _) lsps) as [A|A].
  - assert (L : List.length (routed_of s lsps) = List.length lsps) by (unfold routed_of; clear -A; induction A; simpl; auto; rewrite H; simpl; now f_equal).
    rewrite L, Nat.eqb_refl. reflexivity.
  - apply Exists_exists in A as (l & Hl & A). assert (Ul : unr s l) by (unfold unr; destruct (l_path (h_ls s l)); simpl in A; congruence).
    assert (L : routed_of s lsps = []).
    { unfold routed_of. assert (X : forall m, In m lsps -> unr s m) by (intros m Hm; eapply W; eauto). clear -X. induction lsps as [|m lsps IH]; auto. simpl.
      assert (Y := X m (or_introl eq_refl)). unfold unr in Y. rewrite Y. simpl. apply IH. intros; apply X; right; auto. }
    rewrite L. cbn [List.length]. rewrite Nat.eqb_refl. now rewrite andb_false_r.
Qed.

Lemma group_runs dg g s : good k s ->
  (forall l, In l (snd g) -> lsp_from s l <> lsp_to s l /\ In (lsp_from s l) (node_names s) /\ (0 <= wanted s l (each (group_traffic s dg (fst g)) (List.length (snd g))))%Q) ->
  (forall s1, signalling s (group_order dg s g) s1 -> forall l m, In l (snd g) -> In m (snd g) -> unr s1 l -> unr s1 m) ->
  exists s1, route_lsp_group E k dg g s = (s1, Ok tt) /\ signalling s (group_order dg s g) s1.
Proof.
  destruct g as [key lsps]. cbn [fst snd]. intros Gd H W. unfold route_lsp_group. rewrite bind_gets. cbv zeta. fold (each (group_traffic s dg key) (List.length lsps)).
  set (bw := each _ _) in *. destruct (determine_total lsps bw s Gd H) as (s1 & R). destruct (determine_loop E k HE lsps bw s s1 Gd R) as [Q _].
  rewrite (bind_run _ _ _ _ _ R), bind_gets. fold (routed_of s1 lsps). 
  rewrite (routed_all_or_none s1 lsps (W s1 Q)). exists s1. split; [reflexivity|exact Q].
Qed.

Lemma groups_run dg gs s : good k s ->
  (forall g l, In g gs -> In l (snd g) -> lsp_from s l <> lsp_to s l /\ In (lsp_from s l) (node_names s) /\ (0 <= wanted s l (each (group_traffic s dg (fst g)) (List.length (snd g))))%Q) ->
  (forall pre g post s1, gs = pre ++ g :: post -> signalling s (flat_map (group_order dg s) (pre ++ [g])) s1 -> forall l m, In l (snd g) -> In m (snd g) -> unr s1 l -> unr s1 m) ->
  exists s', mfor gs (route_lsp_group E k dg) s = (s', Ok tt) /\ signalling s (flat_map (group_order dg s) gs) s'.
Proof.
  intros Gd H W. 
  assert (X : forall post pre t, gs = pre ++ post -> signalling s (flat_map (group_order dg s) pre) t ->
    exists s', mfor post (route_lsp_group E k dg) t = (s', Ok tt) /\ signalling s (flat_map (group_order dg s) gs) s').
  { induction post as [|g post IH]; intros pre t Eg Q.
    - rewrite app_nil_r in Eg. subst pre. exists t. split; [reflexivity|exact Q].
    - assert (F := signalling_frame _ _ _ Q). 
      assert (EO : group_order dg t g = group_order dg s g).
      { unfold group_order. apply map_ext. intros l. rewrite (seq_traffic dg _ _ F), (seq_wanted _ _ _ _ F). reflexivity. }
      assert (Nm : node_names t = node_names s) by (unfold node_names; rewrite (qf_nd _ _ F); destruct (qf_sets _ _ F) as (_ & -> & _); reflexivity).
      assert (FT : forall l, lsp_from t l = lsp_from s l /\ lsp_to t l = lsp_to s l) by (intros l; unfold lsp_from, lsp_to; rewrite (qf_nd _ _ F), (qf_ls _ _ F l); auto).
      destruct (group_runs dg g t (good_seq k _ _ F Gd)) as (t1 & R & Q1).
      + intros l Hl. destruct (FT l) as [-> ->]. rewrite Nm, (seq_wanted _ _ _ _ F), (seq_traffic dg _ _ F). apply H; auto. rewrite Eg. apply in_or_app. right. left. reflexivity.
      + intros t1 Q1 l m Hl Hm. rewrite EO in Q1. apply (W pre g post t1 Eg); auto. rewrite flat_map_app. cbn [flat_map]. rewrite app_nil_r. eapply signalling_app; eauto.
      + cbn [mfor]. rewrite (bind_run _ _ _ _ _ R). apply (IH (pre ++ [g])); [rewrite Eg, <- app_assoc; reflexivity|].
        rewrite flat_map_app. cbn [flat_map]. rewrite app_nil_r. rewrite EO in Q1. eapply signalling_app; eauto. }
  apply (X gs [] s); [reflexivity|constructor].
Qed.
End Signal.

(** ** What signalling leaves *)
Lemma seq_road s s' l p : seq_frame s s' -> road s l p -> road s' l p.
Proof.
  intros F. unfold road, rsvp_up.
  assert (FT : lsp_from s' l = lsp_from s l /\ lsp_to s' l = lsp_to s l) by (unfold lsp_from, lsp_to; rewrite (qf_nd _ _ F), (qf_ls _ _ F l); auto). destruct FT as [-> ->].
  induction 1 as [n|i p v Hi [A B] R IH]; [constructor|].
  assert (L : loc s' i = loc s i /\ rem s' i = rem s i) by (unfold loc, rem; rewrite (qf_nd _ _ F), (qf_if _ _ F i); auto). destruct L as [L1 L2]. rewrite <- L1. constructor.
  - destruct (qf_sets _ _ F) as (-> & _). exact Hi.
  - rewrite (qf_if _ _ F i). simpl. auto.
  - rewrite L2. exact IH.
Qed.
Lemma seq_sym_road s s' l p : seq_frame s s' -> road s' l p -> road s l p.
Proof.
  intros F. unfold road, rsvp_up.
  assert (FT : lsp_from s' l = lsp_from s l /\ lsp_to s' l = lsp_to s l) by (unfold lsp_from, lsp_to; rewrite (qf_nd _ _ F), (qf_ls _ _ F l); auto). destruct FT as [-> ->].
  induction 1 as [n|i p v Hi [A B] R IH]; [constructor|].
  assert (L : loc s' i = loc s i /\ rem s' i = rem s i) by (unfold loc, rem; rewrite (qf_nd _ _ F), (qf_if _ _ F i); auto). destruct L as [L1 L2]. rewrite L1. constructor.
  - destruct (qf_sets _ _ F) as (X & _). now rewrite <- X.
  - rewrite (qf_if _ _ F i) in A, B. simpl in A, B. auto.
  - rewrite <- L2. exact IH.
Qed.
Lemma route_weaken s (P Q : nat -> Prop) u p v : (forall i, In i (m_ifs s) -> P i -> Q i) -> route s P u p v -> route s Q u p v.
Proof. intros H. induction 1; constructor; auto. Qed.

Lemma signalling_roads k s order s' : good k s -> signalling s order s' -> NoDup (map fst order) -> forall l, In l (map fst order) ->
  unr s' l \/ exists p c b q, l_path (h_ls s' l) = PRouted p c b /\ l_res (h_ls s' l) = RNum q /\ In (l, q) order /\ road s l p /\ NoDup p.
Proof.
  intros Gd Q. revert Gd. induction Q as [s|s m bw tl s1 s' S Q IH]; intros Gd N l Hl; [destruct Hl|]. simpl in N. inversion N as [|? ? N1 Nt]; subst.
  assert (F := only_seq _ _ _ (signalled_only _ _ _ _ S)).
  destruct (in_dec Nat.eq_dec l (map fst tl)) as [I|I].
  - destruct (IH (good_seq k _ _ F Gd) Nt l I) as [U|(p & c & b & q & A & B & C & D & G)]; [auto|]. right. exists p, c, b, q. repeat split; auto; [right; auto|]. eapply seq_sym_road; eauto.
  - destruct Hl as [<-|Hl]; [|contradiction]. cbn [fst] in *. unfold unr. rewrite (signalling_other _ _ _ _ Q N1). destruct S as [(p & S)|S].
    + right. destruct (so_path _ _ _ _ _ S) as (b & P & _). destruct (so_bw _ _ _ _ _ S) as [R _]. destruct (so_best _ _ _ _ _ S) as [L _].
      exists p, (route_cost s p), b, bw. repeat split; auto; [left; auto| |].
      * eapply route_weaken; [|apply L]. intros i _ (A & B & _). split; auto.
      * eapply least_nodup; [apply (gd_cost _ _ Gd)|exact L].
    + left. apply (sx_path _ _ _ _ S).
Qed.

Lemma signalling_off s order s' : signalling s order s' -> NoDup (map fst order) -> forall l, In l (map fst order) -> unr s' l -> l_res (h_ls s' l) = RUnrouted.
Proof.
  induction 1 as [s|s m bw tl s1 s' S Q IH]; intros N l Hl U; [destruct Hl|]. simpl in N. inversion N as [|? ? N1 Nt]; subst.
  destruct (in_dec Nat.eq_dec l (map fst tl)) as [I|I]; [now apply IH|]. destruct Hl as [<-|Hl]; [|contradiction]. cbn [fst] in *.
  unfold unr in U. rewrite (signalling_other _ _ _ _ Q N1) in *. destruct S as [(p & S)|S]; [|apply (sx_bw _ _ _ _ S)].
  destruct (so_path _ _ _ _ _ S) as (b & P & _). congruence.
Qed.
