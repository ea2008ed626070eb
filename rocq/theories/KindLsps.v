(** KindLsps.v - the two classes on one model with LSPs (C94), scaling (C95), and
    what failures and repairs leave behind (C96), with room for all LSPs. *)
From Verif Require Import Base Graph Objects Sim Api Spec SpecCkt SpecSim SpecMetric SpecFlow SpecOrder SpecShort SpecTotal SpecWhatIf SpecSame SpecHist SpecFail SpecMore SpecData GraphProofs MonadProofs RoundProofs ResProofs ObjProofs CircuitProofs
  ValidateProofs GroupProofs PathProofs QuietProofs RouteProofs LeastProofs OrderProofs DemandProofs MetricProofs IgpProofs Ecmp TrafficProofs ShareProofs FlowProofs UtilProofs RepairProofs WhatIf WhatIfApi OwnProofs OwnApi SpecSig SigProofs SigSeq SigEnd LspTotal SigTotal LspSucceeds LspExact
  OrderLsps PropertiesApi PropertiesRoute PropertiesTraffic PropertiesSignal ShortLsp MoreLsps DownLsps GrownLsps MatchLsps.
From Coq Require Import Permutation Lqa.

Definition same (x : nat) : nat := x.
Lemma map_same p : map same p = p. Proof. apply map_id. Qed.
Lemma items_same p : map (item_to same same) p = p.
Proof. rewrite (map_ext _ (fun x => x)); [apply map_id|]. intros [i|l]; reflexivity. Qed.
Lemma paths_same a b : paths_to same same a b -> same_paths a b.
Proof.
  destruct a as [|ps], b as [|qs]; simpl; auto. intros [A B] p. split.
  - intros Hp. apply A in Hp. now rewrite items_same in Hp.
  - intros Hp. destruct (B p Hp) as (x & Hx & ->). now rewrite items_same.
Qed.

Lemma same_matched s t : (forall i, In i (m_ifs t) <-> In i (m_ifs s)) -> (forall i, In i (m_dms t) <-> In i (m_dms s)) -> (forall i, In i (m_lsps t) <-> In i (m_lsps s)) ->
  NoDup (m_ifs s) -> NoDup (m_ifs t) -> NoDup (m_dms s) -> NoDup (m_dms t) -> NoDup (m_lsps s) -> NoDup (m_lsps t) -> forall z c,
  (forall i, In i (m_ifs s) -> loc t i = loc s i /\ rem t i = rem s i /\ i_cost (h_if t i) = z * i_cost (h_if s i) /\ i_failed (h_if t i) = i_failed (h_if s i) /\ i_rsvp (h_if t i) = i_rsvp (h_if s i)) ->
  (forall d, In d (m_dms s) -> dmd_from t d = dmd_from s d /\ dmd_to t d = dmd_to s d /\ (d_traffic (h_dm t d) == c * d_traffic (h_dm s d))%Q) ->
  (forall l, In l (m_lsps s) -> lsp_from t l = lsp_from s l /\ lsp_to t l = lsp_to s l /\ cfg_times c (l_cfg (h_ls s l)) (l_cfg (h_ls t l)) /\ forall m, omm (h_ls s l) = Ok m -> omm (h_ls t l) = Ok (times z m)) ->
  matched z c same same same s t.
Proof.
  intros A B C NA NA' NB NB' NC NC' z c X Y Z. constructor; auto; rewrite map_same; apply NoDup_Permutation; auto; intros x; symmetry; auto.
Qed.

(** ** The two classes *)
Lemma kinds_matched s : matched 1 1 same same same s s.
Proof.
  constructor; [rewrite map_same; reflexivity|rewrite map_same; reflexivity|rewrite map_same; reflexivity| | |].
  - intros i _. repeat split; auto. unfold same. lia.
  - intros d _. repeat split; auto. unfold same. ring.
  - intros l _. repeat split; auto.
    + unfold cfg_times, same. destruct (l_cfg (h_ls s l)); auto. ring.
    + intros m O. unfold same. rewrite O. f_equal. destruct m; auto. simpl. f_equal. now destruct z.
Qed.
Section Kinds.
Variables (E E' : env).
Hypothesis HE : env_ok E.
Hypothesis HE' : env_ok E'.
Variables s s' t' : st.
Hypothesis Rf : with_room Flex s.
Hypothesis Rp : with_room Perf s.
Hypothesis Up : update_simulation E Flex s = (s', Ok tt).
Hypothesis Up' : update_simulation E' Perf s = (t', Ok tt).
Let M := kinds_matched s.
Lemma kl_lsps l : In l (m_lsps s) ->
  same_fate (l_path (h_ls s' l)) (l_path (h_ls t' l)) /\ same_amount (l_res (h_ls s' l)) (l_res (h_ls t' l)) /\ same_amount (l_setup (h_ls s' l)) (l_setup (h_ls t' l)) /\
  (sole_road s l -> same_way (l_path (h_ls s' l)) (l_path (h_ls t' l))).
Proof.
  intros Hl. assert (X := mt_lsp E E' Flex Perf 1 1 same same same HE HE' s s s' t' ltac:(lia) M Rf Rp Up Up' l Hl). assert (Y := mt_setup E E' Flex Perf 1 1 same same same HE HE' s s s' t' M Rf Rp Up Up' l Hl).
  unfold same in X, Y. destruct Y as (b & b' & -> & -> & Y). destruct X as [(p & p' & b1 & b1' & q & q' & -> & -> & B & B' & -> & -> & X)|(-> & -> & -> & ->)]; cbn [same_fate same_amount same_way].
  - split; [destruct (route_cost s p); reflexivity|]. split; [rewrite X; ring|]. split; [rewrite Y; ring|]. intros So. rewrite (So p' p B' B), map_id. split; [auto|destruct (route_cost s p); reflexivity].
  - split; [auto|]. split; [auto|]. split; [rewrite Y; ring|auto].
Qed.
Lemma kl_paths d : In d (m_dms s) -> same_paths (d_path (h_dm s' d)) (d_path (h_dm t' d)).
Proof. intros Hd. apply paths_same. exact (mt_paths E E' Flex Perf 1 1 same same same HE HE' s s s' t' ltac:(lia) M Rf Rp Up Up' (rm_off _ _ Rf) (rm_off _ _ Rp) d Hd). Qed.
Lemma kl_adds d i x y : In d (m_dms s) -> In i (m_ifs s) -> (forall l, preferred s' d l -> sole_road s l) -> adds Flex s' d i x -> adds Perf t' d i y ->
  (Qabs (x - y) <= slack s' d)%Q /\ ((exists l, lsp_of s' d l /\ routed_lsp s' l) -> (x == y)%Q).
Proof.
  intros Hd Hi So. exact (mt_close E E' Flex Perf 1 1 same same same HE HE' s s s' t' ltac:(lia) M Rf Rp Up Up' (rm_off _ _ Rf) (rm_off _ _ Rp) d Hd i x y eq_refl eq_refl ltac:(reflexivity) Hi So).
Qed.
Lemma kl_traffic i : In i (m_ifs s) -> (forall d l, In d (m_dms s) -> preferred s' d l -> sole_road s l) ->
  if i_failed (h_if s i) then i_traffic (h_if s' i) = TDown /\ i_traffic (h_if t' i) = TDown
  else exists q r, i_traffic (h_if s' i) = TNum q /\ i_traffic (h_if t' i) = TNum r /\ (Qabs (q - r) <= Qsum (map (slack s') (m_dms s)))%Q.
Proof. intros Hi So. exact (mt_near E E' Flex Perf 1 1 same same same HE HE' s s s' t' ltac:(lia) M Rf Rp Up Up' (rm_off _ _ Rf) (rm_off _ _ Rp) i eq_refl eq_refl ltac:(reflexivity) Hi So). Qed.
Lemma kl_exact i : In i (m_ifs s) -> (forall d l, In d (m_dms s) -> preferred s' d l -> sole_road s l) -> (forall d, In d (m_dms s) -> exists l, lsp_of s' d l /\ routed_lsp s' l) ->
  same_traffic (i_traffic (h_if s' i)) (i_traffic (h_if t' i)).
Proof.
  intros Hi So Ri. assert (H := mt_sum E E' Flex Perf 1 1 same same same HE HE' s s s' t' M Rf Rp Up Up' (rm_off _ _ Rf) (rm_off _ _ Rp) (fun _ x y => (x == y)%Q) i Hi (fun d x y Hd A B => proj2 (kl_adds d i x y Hd Hi (fun l => So d l Hd) A B) (Ri d Hd))).
  unfold same in H. destruct (i_failed (h_if s i)); [destruct H as [-> ->]; exact Logic.I|]. destruct H as (q & r & f & g & -> & -> & A & B & C). simpl. rewrite A, B. now apply sumq_ext.
Qed.
End Kinds.

(** ** Scaling *)
Lemma metric_omm_times z a b : 0 < z -> (forall e, omm a <> Err e) -> times_metric z (snd (mstep (mstate_of a) MRead)) (snd (mstep (mstate_of b) MRead)) -> forall m, omm a = Ok m -> omm b = Ok (times z m).
Proof.
  unfold omm, mstate_of. intros Hz H. destruct (l_imm a) as [x|], (l_imm b) as [y|];
  repeat match goal with |- context [Z.eqb ?w 0] => destruct (Z.eqb w 0) end; simpl;
  repeat match goal with |- context [Z.ltb 0 ?w] => destruct (Z.ltb 0 w) end; simpl; intros X m; try contradiction; try discriminate; intros [= <-]; simpl in *;
  repeat match goal with |- context [l_mm ?r] => destruct (l_mm r) end; simpl in *; try contradiction; try reflexivity; try congruence.
  all: repeat match goal with H : context [match l_mm ?r with _ => _ end] |- _ => destruct (l_mm r) end; simpl in *; try contradiction; try congruence.
Qed.
Section Scale.
Variables (E E' : env) (k : kind) (z : Z) (c : Q).
Hypothesis HE : env_ok E.
Hypothesis HE' : env_ok E'.
Variables s t s' t' : st.
Hypothesis Hz : 0 < z.
Hypothesis Mu : multiplied z c s t.
Hypothesis Nd : NoDup (m_dms s).
Hypothesis Nd' : NoDup (m_dms t).
Hypothesis Rs : usual_room k s.
Hypothesis Rt : usual_room k t.
Hypothesis Up : update_simulation E k s = (s', Ok tt).
Hypothesis Up' : update_simulation E' k t = (t', Ok tt).
Lemma sc_matched : matched z c same same same s t.
Proof.
  apply (same_matched s t (mu_ifs _ _ _ _ Mu) (mu_dms _ _ _ _ Mu) (mu_lsps _ _ _ _ Mu) (proj1 (ur_posed _ _ Rs)) (proj1 (ur_posed _ _ Rt)) Nd Nd' (lu_once _ _ (ur_usual _ _ Rs)) (lu_once _ _ (ur_usual _ _ Rt)) z c
    (mu_if _ _ _ _ Mu) (mu_dm _ _ _ _ Mu)).
  intros l Hl. destruct (mu_ls _ _ _ _ Mu l Hl) as (A & B & C & D). split; [exact A|]. split; [exact B|]. split; [exact C|].
    exact (metric_omm_times z _ _ Hz (usual_omm k s l (ur_usual _ _ Rs) Hl) D).
Qed.
Let M := sc_matched.
Lemma sl_lsps l : In l (m_lsps s) ->
  times_fate z (l_path (h_ls s' l)) (l_path (h_ls t' l)) /\ times_amount c (l_res (h_ls s' l)) (l_res (h_ls t' l)) /\ times_amount c (l_setup (h_ls s' l)) (l_setup (h_ls t' l)) /\
  (sole_road s l -> same_hops (l_path (h_ls s' l)) (l_path (h_ls t' l))).
Proof.
  intros Hl. assert (X := mt_lsp E E' k k z c same same same HE HE' s t s' t' Hz M Rs Rt Up Up' l Hl). assert (Y := mt_setup E E' k k z c same same same HE HE' s t s' t' M Rs Rt Up Up' l Hl).
  unfold same in X, Y. destruct Y as (b & b' & -> & -> & Y). destruct X as [(p & p' & b1 & b1' & q & q' & -> & -> & B & B' & -> & -> & X)|(-> & -> & -> & ->)]; cbn [times_fate times_amount same_hops].
  - split; [auto|]. split; [exact X|]. split; [exact Y|]. intros So. rewrite (So p' p B' B), map_id. reflexivity.
  - auto.
Qed.
Hypothesis Offs : shortcuts_off s.
Hypothesis Offt : shortcuts_off t.
Lemma sl_paths d : In d (m_dms s) -> same_paths (d_path (h_dm s' d)) (d_path (h_dm t' d)).
Proof. intros Hd. apply paths_same. exact (mt_paths E E' k k z c same same same HE HE' s t s' t' Hz M Rs Rt Up Up' Offs Offt d Hd). Qed.
Lemma sl_traffic i : k = Flex \/ (c == 1)%Q -> In i (m_ifs s) -> (forall d l, In d (m_dms s) -> preferred s' d l -> sole_road s l) ->
  if i_failed (h_if s i) then i_traffic (h_if s' i) = TDown /\ i_traffic (h_if t' i) = TDown
  else exists q r, i_traffic (h_if s' i) = TNum q /\ i_traffic (h_if t' i) = TNum r /\ (r == c * q)%Q.
Proof. intros Kc Hi So. exact (mt_traffic E E' k k z c same same same HE HE' s t s' t' Hz M Rs Rt Up Up' Offs Offt i eq_refl Kc Hi So). Qed.
End Scale.

(** ** Failures and repairs *)
Section Past.
Variables (k : kind) (s t : st).
Hypothesis C : same_config k s t.
Hypothesis Me : forall l, In l (m_lsps s) -> same_metric_read s t l.
Hypothesis R : usual_room k s.
Hypothesis AR : always_room s.
(** [s] with all interfaces up *)
Definition lifted : st := mkSt (fun i => if_failed false (h_if s i)) (h_nd s) (h_sr s) (h_dm s) (h_ls s) (m_ifs s) (m_nds s) (m_dms s) (m_lsps s) (m_srs s) (m_ckts s) (m_groups s) (s_next s) (s_rng s).
Lemma lifted_room : usual_room k lifted.
Proof.
  constructor; [exact (ur_posed _ _ R)|exact (ur_known _ _ R)|exact (ur_cids _ _ R)| |intros i Hi _ Ri; exact (AR i Hi Ri)|intros i j _ _ _; reflexivity].
  destruct (ur_usual _ _ R). constructor; assumption.
Qed.
Lemma lifted_worse : worse k lifted t.
Proof.
  constructor; [|intros i _ F; discriminate F|exact Me]. destruct C as [A B D F G]. constructor; assumption.
Qed.
Lemma past_room : ends_agree k t -> usual_room k t.
Proof. intros EA. exact (wo_usual k lifted t lifted_worse EA lifted_room). Qed.
End Past.

Section History.
Variables (E : env) (k : kind) (s : st) (l1 l2 : list op).
Hypothesis HE : env_ok E.
Hypothesis R : usual_room k s.
Hypothesis AR : always_room s.
Hypothesis Wf : wf_net k s.
Hypothesis Sr : srlg_sound k s.
Hypothesis Co : consistent k s.
Hypothesis H1 : forall o, In o l1 -> outage_op s o.
Hypothesis H2 : forall o, In o l2 -> outage_op s o.
Lemma past_metric l : (forall o, In o l -> outage_op s o) -> forall x, same_metric_read s (run_ops E k l s) x.
Proof. intros H x. apply read_omm. exact (sy_mm _ _ (steady_history E k s l s H (steady_refl s)) x). Qed.
Lemma past_usual l : (forall o, In o l -> outage_op s o) -> usual_room k (run_ops E k l s).
Proof.
  intros H. refine (past_room k s _ (config_history E k l s H) (fun x _ => past_metric l H x) R AR _).
  assert (I := history_inv E k HE l s (fun o Ho => outage_failure s o (H o Ho)) (conj Wf (conj Sr Co))). apply I.
Qed.
Lemma past_off l : (forall o, In o l -> outage_op s o) -> shortcuts_off s -> shortcuts_off (run_ops E k l s).
Proof. intros H O n Hn. assert (C := config_history E k l s H). rewrite (cf_nds _ _ _ C) in Hn. destruct (SpecWhatIf.cf_nd _ _ _ C n) as (_&_&->). exact (O n Hn). Qed.
Lemma past_with_room l : (forall o, In o l -> outage_op s o) -> shortcuts_off s -> with_room k (run_ops E k l s).
Proof. intros H O. exact (room_with _ _ (past_usual l H) (past_off l H O)). Qed.
Lemma past_succeeds l : (forall o, In o l -> outage_op s o) -> ((exists s', update_simulation E k s = (s', Ok tt)) <-> exists t', update_simulation E k (run_ops E k l s) = (t', Ok tt)).
Proof.
  intros H. assert (R' := past_usual l H). assert (C := config_history E k l s H). assert (C' := config_sym _ _ _ C).
  assert (F : forall x, lsp_from (run_ops E k l s) x = lsp_from s x). { intros x. unfold lsp_from. destruct (SpecWhatIf.cf_ls _ _ _ C x) as (->&_). apply (cf_name _ _ _ C). }
  assert (T : forall x, lsp_to (run_ops E k l s) x = lsp_to s x). { intros x. unfold lsp_to. destruct (SpecWhatIf.cf_ls _ _ _ C x) as (_&->&_). apply (cf_name _ _ _ C). }
  rewrite (succeeds_ample E k s HE (ur_posed _ _ R) (ur_known _ _ R) (ur_cids _ _ R) (ur_usual _ _ R) (ur_ample _ _ R)),
          (succeeds_ample E k _ HE (ur_posed _ _ R') (ur_known _ _ R') (ur_cids _ _ R') (ur_usual _ _ R') (ur_ample _ _ R')).
  split; intros (A & B & D).
  - split; [exact (WhatIf.cf_fine _ _ _ C A)|]. split; [|exact (config_fit _ _ _ C D)]. intros x Hx. rewrite (WhatIf.cf_lsps _ _ _ C) in Hx. rewrite F, T, (WhatIf.cf_names _ _ _ C). exact (B x Hx).
  - split; [exact (WhatIf.cf_fine _ _ _ C' A)|]. split; [|exact (config_fit _ _ _ C' D)]. intros x Hx. rewrite <- F, <- T, <- (WhatIf.cf_names _ _ _ C). apply B. now rewrite (WhatIf.cf_lsps _ _ _ C).
Qed.
Hypothesis Sf : forall i, In i (m_ifs s) -> i_failed (h_if (run_ops E k l2 s) i) = i_failed (h_if (run_ops E k l1 s) i).
Variables (E1 E2 : env) (t1 t2 : st).
Hypothesis HE1 : env_ok E1.
Hypothesis HE2 : env_ok E2.
Hypothesis U1 : update_simulation E1 k (run_ops E k l1 s) = (t1, Ok tt).
Hypothesis U2 : update_simulation E2 k (run_ops E k l2 s) = (t2, Ok tt).
Let a := run_ops E k l1 s.
Let b := run_ops E k l2 s.
Let Ra : usual_room k a := past_usual l1 H1.
Let Rb : usual_room k b := past_usual l2 H2.
Lemma past_matched : matched 1 1 same same same a b.
Proof.
  assert (C1 := config_history E k l1 s H1). assert (C2 := config_history E k l2 s H2). fold a in C1. fold b in C2.
  assert (S1 := SpecWhatIf.cf_sets _ _ _ C1). assert (S2 := SpecWhatIf.cf_sets _ _ _ C2). destruct S1 as (A1&A2&A3&A4&A5), S2 as (B1&B2&B3&B4&B5).
  constructor; try (rewrite map_same; match goal with |- Permutation ?x ?y => replace y with x by congruence; reflexivity end).
  - intros i Hi. rewrite A1 in Hi. unfold same. rewrite (cf_loc _ _ _ C1), (cf_loc _ _ _ C2), (cf_rem _ _ _ C1), (cf_rem _ _ _ C2).
    destruct (SpecWhatIf.cf_if _ _ _ C1 i) as [(_&->&_&_&_&_&->&_) _], (SpecWhatIf.cf_if _ _ _ C2 i) as [(_&->&_&_&_&_&->&_) _]. repeat split; auto. lia.
  - intros d Hd. unfold same. rewrite (cf_from _ _ _ C1), (cf_from _ _ _ C2), (cf_to _ _ _ C1), (cf_to _ _ _ C2). destruct (SpecWhatIf.cf_dm _ _ _ C1 d) as (_&_&->&_), (SpecWhatIf.cf_dm _ _ _ C2 d) as (_&_&->&_). repeat split; auto. ring.
  - intros l Hl. rewrite A4 in Hl. unfold same. destruct (SpecWhatIf.cf_ls _ _ _ C1 l) as (X1&X2&_&X4), (SpecWhatIf.cf_ls _ _ _ C2 l) as (Y1&Y2&_&Y4). rewrite X4, Y4.
    split; [unfold lsp_from; rewrite X1, Y1; etransitivity; [apply (cf_name _ _ _ C2)|symmetry; apply (cf_name _ _ _ C1)]|].
    split; [unfold lsp_to; rewrite X2, Y2; etransitivity; [apply (cf_name _ _ _ C2)|symmetry; apply (cf_name _ _ _ C1)]|]. split; [unfold cfg_times; destruct (l_cfg (h_ls s l)); auto; ring|].
    intros m O. assert (Ua := usual_omm k a l (ur_usual _ _ Ra)). rewrite A4 in Ua. rewrite (omm_read (h_ls a l) (h_ls b l) (Ua Hl)).
    + rewrite O. f_equal. destruct m as [m|]; auto. simpl. f_equal. now destruct m.
    + transitivity (snd (mstep (mstate_of (h_ls s l)) MRead)); [exact (past_metric l2 H2 l)|symmetry; exact (past_metric l1 H1 l)].
Qed.
Let M := past_matched.
Let Il x : In x (m_lsps s) -> In x (m_lsps a). Proof. unfold a. now rewrite (cf_lsps _ _ _ (config_history E k l1 s H1)). Qed.
Let Id x : In x (m_dms s) -> In x (m_dms a). Proof. unfold a. now rewrite (cf_dms _ _ _ (config_history E k l1 s H1)). Qed.
Let Ii x : In x (m_ifs s) -> In x (m_ifs a). Proof. unfold a. now rewrite (cf_ifs _ _ _ (config_history E k l1 s H1)). Qed.
Lemma past_lsps l : In l (m_lsps s) ->
  same_fate (l_path (h_ls t1 l)) (l_path (h_ls t2 l)) /\ same_amount (l_res (h_ls t1 l)) (l_res (h_ls t2 l)) /\ same_amount (l_setup (h_ls t1 l)) (l_setup (h_ls t2 l)) /\
  (sole_road a l -> same_way (l_path (h_ls t1 l)) (l_path (h_ls t2 l))).
Proof.
  intros Hl. apply Il in Hl. assert (X := mt_lsp E1 E2 k k 1 1 same same same HE1 HE2 a b t1 t2 ltac:(lia) M Ra Rb U1 U2 l Hl). assert (Y := mt_setup E1 E2 k k 1 1 same same same HE1 HE2 a b t1 t2 M Ra Rb U1 U2 l Hl).
  unfold same in X, Y. destruct Y as (x & x' & -> & -> & Y). destruct X as [(p & p' & b1 & b1' & q & q' & -> & -> & B & B' & -> & -> & X)|(-> & -> & -> & ->)]; cbn [same_fate same_amount same_way].
  - split; [destruct (route_cost a p); reflexivity|]. split; [rewrite X; ring|]. split; [rewrite Y; ring|]. intros So. rewrite (So p' p B' B), map_id. split; [auto|destruct (route_cost a p); reflexivity].
  - split; [auto|]. split; [auto|]. split; [rewrite Y; ring|auto].
Qed.
Hypothesis Off : shortcuts_off s.
Lemma past_paths d : In d (m_dms s) -> same_paths (d_path (h_dm t1 d)) (d_path (h_dm t2 d)).
Proof. intros Hd. apply Id in Hd. apply paths_same. exact (mt_paths E1 E2 k k 1 1 same same same HE1 HE2 a b t1 t2 ltac:(lia) M Ra Rb U1 U2 (past_off l1 H1 Off) (past_off l2 H2 Off) d Hd). Qed.
Lemma past_traffic i : In i (m_ifs s) -> (forall d l, In d (m_dms s) -> preferred t1 d l -> sole_road a l) -> same_traffic (i_traffic (h_if t1 i)) (i_traffic (h_if t2 i)).
Proof.
  intros Hi So. apply Ii in Hi. assert (So' : forall d l, In d (m_dms a) -> preferred t1 d l -> sole_road a l). { intros d l Hd. unfold a in Hd. rewrite (cf_dms _ _ _ (config_history E k l1 s H1)) in Hd. now apply So. }
  assert (X := mt_traffic E1 E2 k k 1 1 same same same HE1 HE2 a b t1 t2 ltac:(lia) M Ra Rb U1 U2 (past_off l1 H1 Off) (past_off l2 H2 Off) i eq_refl ltac:(right; reflexivity) Hi So').
  unfold same in X. destruct (i_failed (h_if a i)); [destruct X as [-> ->]; exact Logic.I|]. destruct X as (q & r & -> & -> & X). simpl. rewrite X. ring.
Qed.
End History.
