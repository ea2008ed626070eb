(** MatchLsps.v - two models with room for all LSPs whose objects correspond, with
    traffic multiplied by [c] and costs and metrics by [z]. *)
From Verif Require Import Base Graph Objects Sim Api Spec SpecCkt SpecSim SpecMetric SpecFlow SpecOrder SpecShort SpecTotal SpecWhatIf SpecSame SpecHist SpecFail SpecMore GraphProofs MonadProofs RoundProofs ResProofs ObjProofs CircuitProofs
  ValidateProofs GroupProofs PathProofs QuietProofs RouteProofs LeastProofs OrderProofs DemandProofs MetricProofs IgpProofs Ecmp TrafficProofs ShareProofs FlowProofs UtilProofs RepairProofs WhatIf OwnProofs OwnApi SpecSig SigProofs SigSeq SigEnd LspTotal SigTotal LspSucceeds LspExact
  OrderLsps PropertiesApi PropertiesRoute PropertiesTraffic PropertiesSignal ShortLsp MoreLsps.
From Coq Require Import Permutation Lqa.

Definition times (z : Z) (m : option Z) : option Z := option_map (Z.mul z) m.
Definition cfg_times (c : Q) (a b : option Q) : Prop :=
  match a, b with None, None => True | Some x, Some y => (y == c * x)%Q | _, _ => False end.

Record matched (z : Z) (c : Q) (fi fd fl : nat -> nat) (s t : st) : Prop := {
  mt_ifs : Permutation (map fi (m_ifs s)) (m_ifs t);
  mt_dms : Permutation (map fd (m_dms s)) (m_dms t);
  mt_lsps : Permutation (map fl (m_lsps s)) (m_lsps t);
  mt_if : forall i, In i (m_ifs s) -> loc t (fi i) = loc s i /\ rem t (fi i) = rem s i /\ i_cost (h_if t (fi i)) = z * i_cost (h_if s i) /\
                    i_failed (h_if t (fi i)) = i_failed (h_if s i) /\ i_rsvp (h_if t (fi i)) = i_rsvp (h_if s i);
  mt_dm : forall d, In d (m_dms s) -> dmd_from t (fd d) = dmd_from s d /\ dmd_to t (fd d) = dmd_to s d /\ (d_traffic (h_dm t (fd d)) == c * d_traffic (h_dm s d))%Q;
  mt_ls : forall l, In l (m_lsps s) -> lsp_from t (fl l) = lsp_from s l /\ lsp_to t (fl l) = lsp_to s l /\ cfg_times c (l_cfg (h_ls s l)) (l_cfg (h_ls t (fl l))) /\
                    forall m, omm (h_ls s l) = Ok m -> omm (h_ls t (fl l)) = Ok (times z m) }.

Lemma filter_map {A B} (f : A -> B) (g : B -> bool) l : filter g (map f l) = map f (filter (fun x => g (f x)) l).
Proof. induction l as [|x l IH]; simpl; [reflexivity|]. rewrite IH. now destruct (g (f x)). Qed.
Lemma nodup_map_inj {A B} (f : A -> B) l : NoDup (map f l) -> forall x y, In x l -> In y l -> f x = f y -> x = y.
Proof.
  induction l as [|a l IH]; simpl; [tauto|]. intros N x y Hx Hy E. apply NoDup_cons_iff in N as [N1 N2]. destruct Hx as [->|Hx], Hy as [->|Hy]; auto.
  - destruct N1. rewrite E. now apply in_map.
  - destruct N1. rewrite <- E. now apply in_map.
Qed.
Lemma map_inj_on {A B} (f : A -> B) (P : A -> Prop) : (forall x y, P x -> P y -> f x = f y -> x = y) ->
  forall p q, (forall x, In x p -> P x) -> (forall x, In x q -> P x) -> map f p = map f q -> p = q.
Proof.
  intros H p. induction p as [|x p IH]; intros [|y q] Hp Hq E; try discriminate; [reflexivity|]. injection E as E1 E2. f_equal.
  - apply H; auto; [apply Hp|apply Hq]; left; auto.
  - apply IH; auto; intros; [apply Hp|apply Hq]; right; auto.
Qed.
Lemma count_map (f : nat -> nat) (P : nat -> Prop) i : (forall x y, P x -> P y -> f x = f y -> x = y) -> P i ->
  forall p, (forall x, In x p -> P x) -> count_occ Nat.eq_dec (map f p) (f i) = count_occ Nat.eq_dec p i.
Proof.
  intros H Hi p. induction p as [|x p IH]; intros Hp; [reflexivity|]. simpl. rewrite IH by (intros; apply Hp; right; auto).
  destruct (Nat.eq_dec (f x) (f i)) as [e|e], (Nat.eq_dec x i) as [e'|e']; auto.
  - destruct e'. apply H; auto. apply Hp. left; auto.
  - subst. contradiction.
Qed.
Lemma nodup_map {A B} (f : A -> B) l : NoDup l -> (forall x y, In x l -> In y l -> f x = f y -> x = y) -> NoDup (map f l).
Proof.
  induction 1 as [|x l N1 N IH]; intros H; simpl; constructor.
  - intros X. apply in_map_iff in X as (y & E & Hy). apply H in E; [subst; auto|right; auto|left; auto].
  - apply IH. intros; apply H; auto; right; auto.
Qed.

Section Ways.
Variables (z : Z) (c : Q) (fi fd fl : nat -> nat) (s t : st).
Hypothesis Hz : 0 < z.
Hypothesis M : matched z c fi fd fl s t.
Hypothesis ND : NoDup (m_ifs t).
Lemma mt_in i : In i (m_ifs s) -> In (fi i) (m_ifs t).
Proof. intros H. apply (Permutation_in _ (mt_ifs _ _ _ _ _ _ _ M)). now apply in_map. Qed.
Lemma mt_of j : In j (m_ifs t) -> exists i, In i (m_ifs s) /\ j = fi i.
Proof. intros H. apply (Permutation_in _ (Permutation_sym (mt_ifs _ _ _ _ _ _ _ M))) in H. apply in_map_iff in H as (i & <- & H). eauto. Qed.
Lemma mt_inj i j : In i (m_ifs s) -> In j (m_ifs s) -> fi i = fi j -> i = j.
Proof. apply (nodup_map_inj fi (m_ifs s)). exact (Permutation_NoDup (Permutation_sym (mt_ifs _ _ _ _ _ _ _ M)) ND). Qed.
Lemma mt_din d : In d (m_dms s) -> In (fd d) (m_dms t).
Proof. intros H. apply (Permutation_in _ (mt_dms _ _ _ _ _ _ _ M)). now apply in_map. Qed.
Lemma mt_lin l : In l (m_lsps s) -> In (fl l) (m_lsps t).
Proof. intros H. apply (Permutation_in _ (mt_lsps _ _ _ _ _ _ _ M)). now apply in_map. Qed.
Lemma mt_lof j : In j (m_lsps t) -> exists i, In i (m_lsps s) /\ j = fl i.
Proof. intros H. apply (Permutation_in _ (Permutation_sym (mt_lsps _ _ _ _ _ _ _ M))) in H. apply in_map_iff in H as (i & <- & H). eauto. Qed.
Lemma mt_up i : In i (m_ifs s) -> (rsvp_up t (fi i) <-> rsvp_up s i).
Proof. intros H. unfold rsvp_up. destruct (mt_if _ _ _ _ _ _ _ M i H) as (_&_&_&->&->). tauto. Qed.
Lemma mt_route u p v : route s (rsvp_up s) u p v -> route t (rsvp_up t) u (map fi p) v.
Proof.
  induction 1 as [|i p v Hi U R IH]; [constructor|]. destruct (mt_if _ _ _ _ _ _ _ M i Hi) as (<-&Re&_). simpl. constructor; [now apply mt_in|now apply mt_up|now rewrite Re].
Qed.
Lemma mt_back u q v : route t (rsvp_up t) u q v -> exists p, q = map fi p /\ route s (rsvp_up s) u p v.
Proof.
  induction 1 as [|j q v Hj U R (p & -> & IH)]; [exists []; split; [reflexivity|constructor]|]. apply mt_of in Hj as (i & Hi & ->). destruct (mt_if _ _ _ _ _ _ _ M i Hi) as (->&Re&_).
  exists (i :: p). split; [reflexivity|]. constructor; [exact Hi|now apply mt_up|now rewrite <- Re].
Qed.
Lemma mt_cost u p v : route s (rsvp_up s) u p v -> route_cost t (map fi p) = z * route_cost s p.
Proof. induction 1 as [|i p v Hi U R IH]; [simpl; lia|]. cbn [map route_cost]. rewrite IH. destruct (mt_if _ _ _ _ _ _ _ M i Hi) as (_&_&->&_). lia. Qed.
Lemma mt_least u p v : least_cost s (rsvp_up s) u p v -> least_cost t (rsvp_up t) u (map fi p) v.
Proof.
  intros [A B]. split; [now apply mt_route|]. intros q Hq. apply mt_back in Hq as (r & -> & Hr). rewrite (mt_cost _ _ _ A), (mt_cost _ _ _ Hr). assert (X := B r Hr). nia.
Qed.
Lemma mt_least_back u q v : least_cost t (rsvp_up t) u q v -> exists p, q = map fi p /\ least_cost s (rsvp_up s) u p v.
Proof.
  intros [A B]. apply mt_back in A as (p & -> & A). exists p. split; [reflexivity|]. split; [exact A|]. intros r Hr. assert (X := B _ (mt_route _ _ _ Hr)). rewrite (mt_cost _ _ _ A), (mt_cost _ _ _ Hr) in X. nia.
Qed.
Lemma mt_best_back l q : In l (m_lsps s) -> best_road t (fl l) q -> exists p, q = map fi p /\ best_road s l p.
Proof.
  intros Hl [A B]. unfold best_road. destruct (mt_ls _ _ _ _ _ _ _ M l Hl) as (F&T&_). rewrite F, T in A, B. apply mt_least_back in A as (p & -> & A). exists p. split; [reflexivity|]. split; [exact A|].
  intros r Hr. assert (X := B _ (mt_least _ _ _ Hr)). now rewrite !map_length in X.
Qed.
Lemma mt_on u p v : route s (rsvp_up s) u p v -> forall i, In i p -> In i (m_ifs s).
Proof. intros R i Hi. now destruct (route_all _ _ _ _ _ i R Hi). Qed.
Lemma mt_wanted l : In l (m_lsps s) -> (wanted t (fl l) (equal_share t (fl l)) == c * wanted s l (equal_share s l))%Q.
Proof.
  intros Hl. destruct (mt_ls _ _ _ _ _ _ _ M l Hl) as (F&T&Cf&_). unfold wanted. destruct (l_cfg (h_ls s l)), (l_cfg (h_ls t (fl l))); simpl in Cf; try tauto.
  unfold equal_share, traffic_of, lsps_of, dmds_of. rewrite F, T.
  assert (A : Permutation (filter (fun d => String.eqb (dmd_from t d) (lsp_from s l) && String.eqb (dmd_to t d) (lsp_to s l)) (m_dms t))
                          (map fd (filter (fun d => String.eqb (dmd_from s d) (lsp_from s l) && String.eqb (dmd_to s d) (lsp_to s l)) (m_dms s)))).
  { eapply perm_trans; [apply filter_perm, Permutation_sym, (mt_dms _ _ _ _ _ _ _ M)|]. rewrite filter_map. erewrite filter_ext_in; [apply Permutation_refl|].
    intros d Hd. cbv beta. destruct (mt_dm _ _ _ _ _ _ _ M d Hd) as (->&->&_). reflexivity. }
  assert (B : Permutation (filter (fun d => String.eqb (lsp_from t d) (lsp_from s l) && String.eqb (lsp_to t d) (lsp_to s l)) (m_lsps t))
                          (map fl (filter (fun d => String.eqb (lsp_from s d) (lsp_from s l) && String.eqb (lsp_to s d) (lsp_to s l)) (m_lsps s)))).
  { eapply perm_trans; [apply filter_perm, Permutation_sym, (mt_lsps _ _ _ _ _ _ _ M)|]. rewrite filter_map. erewrite filter_ext_in; [apply Permutation_refl|].
    intros d Hd. cbv beta. destruct (mt_ls _ _ _ _ _ _ _ M d Hd) as (->&->&_). reflexivity. }
  rewrite (Permutation_length B), map_length. rewrite (Qsum_perm _ _ (Permutation_map (fun d => d_traffic (h_dm t d)) A)). rewrite map_map.
  assert (Z : (Qsum (map (fun d => d_traffic (h_dm t (fd d))) (filter (fun d => String.eqb (dmd_from s d) (lsp_from s l) && String.eqb (dmd_to s d) (lsp_to s l)) (m_dms s))) ==
              c * Qsum (map (fun d => d_traffic (h_dm s d)) (filter (fun d => String.eqb (dmd_from s d) (lsp_from s l) && String.eqb (dmd_to s d) (lsp_to s l)) (m_dms s))))%Q).
  { assert (X : forall ds, incl ds (m_dms s) -> (Qsum (map (fun d => d_traffic (h_dm t (fd d))) ds) == c * Qsum (map (fun d => d_traffic (h_dm s d)) ds))%Q).
    { induction ds as [|d ds IH]; intros I; [simpl; ring|]. cbn [map Qsum fold_right]. change (fold_right Qplus 0%Q) with Qsum. rewrite (IH (fun x H => I x (or_intror H))).
      destruct (mt_dm _ _ _ _ _ _ _ M d (I d (or_introl eq_refl))) as (_&_&->). ring. }
    apply X. intros d Hd. now apply filter_In in Hd. }
  rewrite Z. unfold Qdiv. ring.
Qed.
End Ways.

(** ** The two simulations *)
Section Match.
Variables (E E' : env) (k1 k2 : kind) (z : Z) (c : Q) (fi fd fl : nat -> nat).
Hypothesis HE : env_ok E.
Hypothesis HE' : env_ok E'.
Variables s t s' t' : st.
Hypothesis Hz : 0 < z.
Hypothesis M : matched z c fi fd fl s t.
Hypothesis Rs : usual_room k1 s.
Hypothesis Rt : usual_room k2 t.
Hypothesis Up : update_simulation E k1 s = (s', Ok tt).
Hypothesis Up' : update_simulation E' k2 t = (t', Ok tt).
Hypothesis Off : shortcuts_off s.
Hypothesis Offt : shortcuts_off t.
Let WP := ur_posed _ _ Rs. Let EK := ur_known _ _ Rs. Let CS := ur_cids _ _ Rs. Let LU := ur_usual _ _ Rs. Let Am := ur_ample _ _ Rs. Let EA := ur_agree _ _ Rs.
Let WPt := ur_posed _ _ Rt. Let EKt := ur_known _ _ Rt. Let CSt := ur_cids _ _ Rt. Let LUt := ur_usual _ _ Rt. Let Amt := ur_ample _ _ Rt. Let EAt := ur_agree _ _ Rt.
Let Fs := fin_fail E k1 HE s s' WP CS EA Up.
Let Ft := fin_fail E' k2 HE' t t' WPt CSt EAt Up'.
Let KUs : if_keys_unique s := lu_ifs _ _ LU.
Let KUt : if_keys_unique t := lu_ifs _ _ LUt.
Let Ls := fin_like E k1 HE s s' WP EK CS LU Am EA Up.
Let Lt := fin_like E' k2 HE' t t' WPt EKt CSt LUt Amt EAt Up'.
Let NDt : NoDup (m_ifs t) := proj1 WPt.
Let inj := mt_inj z c fi fd fl s t M NDt.

Lemma mt_lsp l : In l (m_lsps s) ->
  (exists p p' b b' q q', l_path (h_ls s' l) = PRouted p (route_cost s p) b /\ l_path (h_ls t' (fl l)) = PRouted (map fi p') (z * route_cost s p) b' /\
     best_road s l p /\ best_road s l p' /\ l_res (h_ls s' l) = RNum q /\ l_res (h_ls t' (fl l)) = RNum q' /\ (q' == c * q)%Q) \/
  (l_path (h_ls s' l) = PUnrouted /\ l_path (h_ls t' (fl l)) = PUnrouted /\ l_res (h_ls s' l) = RUnrouted /\ l_res (h_ls t' (fl l)) = RUnrouted).
Proof.
  intros Hl. assert (Hl' := mt_lin z c fi fd fl s t M l Hl). destruct (mt_ls _ _ _ _ _ _ _ M l Hl) as (F&T&_).
  destruct (placed E k1 HE s s' WP LU EK Up l Am Hl) as [(p & b & q & P & B & Q & W)|(P & Q & N)];
  destruct (placed E' k2 HE' t t' WPt LUt EKt Up' (fl l) Amt Hl') as [(p' & b' & q' & P' & B' & Q' & W')|(P' & Q' & N')].
  - left. apply (mt_best_back z c fi fd fl s t Hz M l) in B' as (r & -> & B'); auto. exists p, r, b, b', q, q'. split; [exact P|]. split.
    + rewrite P'. f_equal. rewrite (mt_cost z c fi fd fl s t M _ _ _ (proj1 (proj1 B'))). f_equal. exact (least_unique _ _ _ _ _ _ (proj1 B') (proj1 B)).
    + do 4 (split; [assumption|]). rewrite W, W'. now apply (mt_wanted z c fi fd fl).
  - exfalso. apply (N' (map fi p)). unfold road. rewrite F, T. apply (mt_route z c fi fd fl s t M). apply B.
  - exfalso. destruct B' as [[B' _] _]. rewrite F, T in B'. apply (mt_back z c fi fd fl s t M) in B' as (r & _ & Hr). exact (N r Hr).
  - right. auto.
Qed.
Lemma mt_setup l : In l (m_lsps s) -> exists b b', l_setup (h_ls s' l) = RNum b /\ l_setup (h_ls t' (fl l)) = RNum b' /\ (b' == c * b)%Q.
Proof.
  intros Hl. destruct (fin_setup E k1 HE s s' WP EK LU Am Up l Hl) as (b & A & B), (fin_setup E' k2 HE' t t' WPt EKt LUt Amt Up' (fl l) (mt_lin z c fi fd fl s t M l Hl)) as (b' & A' & B').
  exists b, b'. split; [exact A|]. split; [exact A'|]. rewrite B, B'. now apply (mt_wanted z c fi fd fl).
Qed.
Lemma mt_routed l : In l (m_lsps s) -> (routed_lsp s' l <-> routed_lsp t' (fl l)).
Proof.
  intros Hl. unfold routed_lsp. destruct (mt_lsp l Hl) as [(p & p' & b & b' & q & q' & A & B & _)|(A & B & _)]; split; intros (x & y & w & X); eauto; congruence.
Qed.

(** metrics *)
Lemma mt_omm l : In l (m_lsps s) -> exists m, omm (h_ls s' l) = Ok m /\ omm (h_ls t' (fl l)) = Ok (times z m).
Proof.
  intros Hl. rewrite (fin_omm E k1 s s' Up), (fin_omm E' k2 t t' Up'). assert (Ne := usual_omm k1 s l LU Hl). destruct (omm (h_ls s l)) as [m|e] eqn:O; [|destruct (Ne e eq_refl)].
  exists m. split; [reflexivity|]. destruct (mt_ls _ _ _ _ _ _ _ M l Hl) as (_&_&_&X). auto.
Qed.
Lemma mt_metric l m : In l (m_lsps s) -> metric s' l m -> metric t' (fl l) (times z m).
Proof.
  intros Hl. destruct (mt_omm l Hl) as (o & O & O'). destruct (mt_ls _ _ _ _ _ _ _ M l Hl) as (F&T&_). rewrite (metric_omm s' l m), (metric_omm t' (fl l)) by congruence. rewrite O, O'.
  destruct o as [x|]; [intros ->; reflexivity|]. cbn [times option_map]. destruct (fin_ls E k1 s s' Up l) as [-> ->], (fin_ls E' k2 t t' Up' (fl l)) as [-> ->]. rewrite F, T. destruct m as [y|]; cbn [times option_map].
  - intros (p & A & ->). apply (like_least _ _ _ _ _ _ _ Ls) in A. exists (map fi p). split.
    + apply (like_least _ _ _ _ _ _ _ Lt). now apply (mt_least z c fi fd fl s t Hz M).
    + rewrite (like_cost _ _ _ _ _ _ _ Ls (proj1 A)), (like_cost _ _ _ _ _ _ _ Lt (mt_route z c fi fd fl s t M _ _ _ (proj1 A))). symmetry. exact (mt_cost z c fi fd fl s t M _ _ _ (proj1 A)).
  - intros N q Hq. apply (like_route _ _ _ _ _ _ _ (like_sym _ _ _ _ Lt)) in Hq. apply (mt_back z c fi fd fl s t M) in Hq as (p & _ & Hp). apply (N p). exact (like_route _ _ _ _ _ _ _ Ls Hp).
Qed.
Lemma times_le m m' : metric_le (times z m) (times z m') <-> metric_le m m'.
Proof. destruct m, m'; simpl; try tauto. nia. Qed.
Lemma mt_metric_back l m' : In l (m_lsps s) -> routed_lsp s' l -> metric t' (fl l) m' -> exists m, m' = times z m /\ metric s' l m.
Proof.
  intros Hl Rl H. destruct (routed_has_metric E k1 HE s s' WP EK CS LU Am EA Up l Hl Rl) as (m & Hm). exists m. split; [|exact Hm]. exact (metric_unique _ _ _ _ H (mt_metric l m Hl Hm)).
Qed.

Section Demand.
Variable d : nat.
Hypothesis Hd : In d (m_dms s).
Let Hd' := mt_din z c fi fd fl s t M d Hd.
Lemma mt_ends : dmd_from t' (fd d) = dmd_from s' d /\ dmd_to t' (fd d) = dmd_to s' d /\ (d_traffic (h_dm t' (fd d)) == c * d_traffic (h_dm s' d))%Q.
Proof. destruct (fin_dm E k1 s s' Up d) as (->&->&->), (fin_dm E' k2 t t' Up' (fd d)) as (->&->&->). exact (mt_dm _ _ _ _ _ _ _ M d Hd). Qed.
Lemma mt_lsp_of l : In l (m_lsps s) -> (lsp_of s' d l <-> lsp_of t' (fd d) (fl l)).
Proof.
  intros Hl. unfold lsp_of. destruct mt_ends as (->&->&_). destruct (fin_ls E k1 s s' Up l) as [-> ->], (fin_ls E' k2 t t' Up' (fl l)) as [-> ->].
  destruct (fin_sets E k1 s s' Up) as (_&_&_&->), (fin_sets E' k2 t t' Up') as (_&_&_&->). destruct (mt_ls _ _ _ _ _ _ _ M l Hl) as (->&->&_). assert (X := mt_lin z c fi fd fl s t M l Hl). tauto.
Qed.
Lemma mt_lsp_of_back l' : lsp_of t' (fd d) l' -> exists l, l' = fl l /\ In l (m_lsps s) /\ lsp_of s' d l.
Proof.
  intros H. assert (I := in_lsp E' k2 t t' Up' (fd d) l' H). apply (mt_lof z c fi fd fl s t M) in I as (l & Hl & ->). exists l. split; [reflexivity|]. split; [exact Hl|]. now apply mt_lsp_of.
Qed.
Lemma mt_preferred l : In l (m_lsps s) -> (preferred s' d l <-> preferred t' (fd d) (fl l)).
Proof.
  intros Hl. unfold preferred. rewrite (mt_lsp_of l Hl), (mt_routed l Hl). split; intros (A & B & m & Mm & D); (split; [exact A|]; split; [exact B|]).
  - exists (times z m). split; [now apply mt_metric|]. intros l' A' B'. apply mt_lsp_of_back in A' as (x & -> & Hx & A'). apply mt_routed in B'; auto. destruct (D x A' B') as (m' & X & Y).
    exists (times z m'). split; [now apply mt_metric|]. now apply times_le.
  - apply mt_metric_back in Mm as (n & -> & Mm); auto; [|now apply mt_routed]. exists n. split; [exact Mm|]. intros l' A' B'. assert (Hl' := in_lsp E k1 s s' Up d l' A').
    destruct (D (fl l')) as (m' & X & Y); [now apply mt_lsp_of|now apply mt_routed|]. apply mt_metric_back in X as (n' & -> & X); auto. exists n'. split; [exact X|]. now apply times_le.
Qed.
Lemma mt_preferred_back l' : preferred t' (fd d) l' -> exists l, l' = fl l /\ In l (m_lsps s) /\ preferred s' d l.
Proof. intros H. destruct (mt_lsp_of_back l' (proj1 H)) as (l & -> & Hl & _). exists l. split; [reflexivity|]. split; [exact Hl|]. now apply mt_preferred. Qed.
Lemma mt_none : no_lsp_for s' d <-> no_lsp_for t' (fd d).
Proof.
  split; intros N l Hl.
  - apply mt_lsp_of_back in Hl as (x & -> & Hx & A). destruct (mt_lsp x Hx) as [(p & p' & b & b' & q & q' & P & _)|(_ & P & _)]; [|exact P]. assert (X := N x A). congruence.
  - assert (I := in_lsp E k1 s s' Up d l Hl). apply mt_lsp_of in Hl; auto. destruct (mt_lsp l I) as [(p & p' & b & b' & q & q' & _ & P & _)|(P & _)]; [|exact P]. assert (X := N _ Hl). congruence.
Qed.
Lemma mt_some : (exists l, lsp_of s' d l /\ routed_lsp s' l) -> exists l, lsp_of t' (fd d) l /\ routed_lsp t' l.
Proof. intros (l & A & B). assert (I := in_lsp E k1 s s' Up d l A). exists (fl l). split; [now apply mt_lsp_of|now apply mt_routed]. Qed.
Lemma mt_fleast p : least_cost s' (usable s') (dmd_from s' d) p (dmd_to s' d) -> least_cost t' (usable t') (dmd_from t' (fd d)) (map fi p) (dmd_to t' (fd d)).
Proof. destruct mt_ends as (->&->&_). intros H. apply (like_least _ _ _ _ _ _ _ Lt). apply (mt_least z c fi fd fl s t Hz M). now apply (like_least _ _ _ _ _ _ _ Ls). Qed.
Lemma mt_fleast_back q : least_cost t' (usable t') (dmd_from t' (fd d)) q (dmd_to t' (fd d)) -> exists p, q = map fi p /\ least_cost s' (usable s') (dmd_from s' d) p (dmd_to s' d).
Proof.
  destruct mt_ends as (->&->&_). intros H. apply (like_least _ _ _ _ _ _ _ Lt) in H. apply (mt_least_back z c fi fd fl s t Hz M) in H as (p & -> & H). exists p. split; [reflexivity|]. now apply (like_least _ _ _ _ _ _ _ Ls).
Qed.
Definition item_to (x : item) : item := match x with IIf i => IIf (fi i) | ILsp l => ILsp (fl l) end.
Lemma if_path_to p : if_path (map fi p) = map item_to (if_path p).
Proof. unfold if_path. rewrite !map_map. reflexivity. Qed.
Definition paths_to (a b : dpath) : Prop :=
  match a, b with
  | DUnrouted, DUnrouted => True
  | DPaths ps, DPaths qs => (forall x, In x ps -> In (map item_to x) qs) /\ (forall y, In y qs -> exists x, In x ps /\ y = map item_to x)
  | _, _ => False
  end.
Lemma mt_paths : paths_to (d_path (h_dm s' d)) (d_path (h_dm t' (fd d))).
Proof.
  destruct (routed_or E k1 HE s s' WP EK LU Am Up d) as [H|N].
  - assert (H' := mt_some H).
    destruct (C07_ride E k1 s s' d HE WP (lu_once _ _ LU) Up Fs Hd H) as (ls & es & _ & _ & X & -> & _).
    destruct (C07_ride E' k2 t t' (fd d) HE' WPt (lu_once _ _ LUt) Up' Ft Hd' H') as (ls' & es' & _ & _ & X' & -> & _). simpl. split.
    + intros x Hx. apply in_map_iff in Hx as (l & <- & Hl). apply X in Hl. assert (I := in_lsp E k1 s s' Up d l (proj1 Hl)). apply in_map_iff. exists (fl l). split; [reflexivity|]. apply X'. now apply mt_preferred.
    + intros y Hy. apply in_map_iff in Hy as (l' & <- & Hl). apply X' in Hl. apply mt_preferred_back in Hl as (l & -> & _ & Hl). exists [ILsp l]. split; [|reflexivity]. apply in_map_iff. exists l. split; [reflexivity|]. now apply X.
  - assert (N' := proj1 mt_none N).
    assert (A := C01_igp_paths E k1 s s' d HE WP Up Fs Hd N (off_s E k1 s s' Up Off d)). assert (B := C01_igp_paths E' k2 t t' (fd d) HE' WPt Up' Ft Hd' N' (off_s E' k2 t t' Up' Offt (fd d))).
    destruct (d_path (h_dm s' d)) as [|ps], (d_path (h_dm t' (fd d))) as [|qs]; simpl; auto.
    + destruct B as (L & _ & Ne & _ & I). destruct L as [|p L]; [contradiction|]. assert (X := proj1 (I p) (or_introl eq_refl)). apply mt_fleast_back in X as (r & _ & Hr). exact (A r Hr).
    + destruct A as (L & _ & Ne & _ & I). destruct L as [|p L]; [contradiction|]. assert (X := proj1 (I p) (or_introl eq_refl)). apply mt_fleast in X. exact (B _ X).
    + destruct A as (L & -> & _ & _ & I), B as (L' & -> & _ & _ & I'). split.
      * intros x Hx. apply in_map_iff in Hx as (p & <- & Hp). rewrite <- if_path_to. apply in_map. apply I', mt_fleast, I, Hp.
      * intros y Hy. apply in_map_iff in Hy as (q & <- & Hq). apply I', mt_fleast_back in Hq as (p & -> & Hp). exists (if_path p). split; [|apply if_path_to]. apply in_map. now apply I.
Qed.

(** what the demand puts on an interface: with weights of the least-cost ways *)
Definition loaded (k : kind) (T : Q) (W : list nat -> Q) (L : list (list nat)) (i : nat) (x : Q) : Prop :=
  match k with
  | Flex => (x == sumq (fun p => inject_Z (Z.of_nat (count_occ Nat.eq_dec p i)) * (T * W p)) L)%Q
  | Perf => rounds 10 (sumq (fun p => inject_Z (Z.of_nat (count_occ Nat.eq_dec p i)) * roundd 10000 (T * W p)) L)%Q x
  end.
Lemma crossings_count a i p : crossings a i (if_path p) = count_occ Nat.eq_dec p i.
Proof.
  unfold crossings, if_path. induction p as [|j p IH]; [reflexivity|]. cbn [map list_sum fold_right count_occ] in *. change (fold_right Init.Nat.add 0%nat) with list_sum. rewrite IH. unfold item_crossings.
  destruct (Nat.eqb_spec j i) as [->|n]; destruct (Nat.eq_dec _ _); try congruence; reflexivity.
Qed.
Lemma mt_igp i x y : In i (m_ifs s) -> no_lsp_for s' d -> adds k1 s' d i x -> adds k2 t' (fd d) (fi i) y ->
  (d_path (h_dm s' d) = DUnrouted /\ (x == 0)%Q /\ (y == 0)%Q) \/
  exists W L, d_path (h_dm s' d) = DPaths (map if_path L) /\ (forall p, In p L -> NoDup p) /\
    loaded k1 (d_traffic (h_dm s' d)) W L i x /\ loaded k2 (d_traffic (h_dm t' (fd d))) W L i y.
Proof.
  intros Hi N A B. assert (N' := proj1 mt_none N). assert (A2 := off_s E k1 s s' Up Off d). assert (B2 := off_s E' k2 t t' Up' Offt (fd d)).
  assert (A' := adds_igp k1 E s s' d i x HE WP KUs Up Fs Hd N A2 A). assert (B' := adds_igp k2 E' t t' (fd d) (fi i) y HE' WPt KUt Up' Ft Hd' N' B2 B).
  assert (SP := mt_paths). destruct (d_path (h_dm s' d)) as [|ps] eqn:P, (d_path (h_dm t' (fd d))) as [|qs] eqn:Q; try contradiction; [left; auto|]. right.
  destruct A' as (fs & F & X), B' as (gs & G & Y).
  destruct (igp_shares E k1 HE s s' WP Up Fs KUs d ps Hd N A2 P) as (L & e1 & o1 & -> & _ & N1 & I1 & _ & D1 & O1 & X1 & S1 & _).
  destruct (igp_shares E' k2 HE' t t' WPt Up' Ft KUt (fd d) qs Hd' N' B2 Q) as (L' & e2 & o2 & -> & _ & N2 & I2 & _ & D2 & O2 & X2 & S2 & _).
  assert (e1 = fs) by congruence. assert (e2 = gs) by congruence. subst e1 e2.
  assert (On : forall p, In p L -> forall j, In j p -> In j (m_ifs s)).
  { intros p Hp j Hj. apply I1 in Hp as [Rr _]. destruct (route_all _ _ _ _ _ j Rr Hj) as [H _]. now rewrite (proj1 (fin_sets E k1 s s' Up)) in H. }
  assert (PM : Permutation L' (map (map fi) L)).
  { apply NoDup_Permutation; auto.
    - apply nodup_map; auto. intros p q Hp Hq. apply (map_inj_on fi (fun j => In j (m_ifs s))); [exact inj|exact (On p Hp)|exact (On q Hq)].
    - intros q. split.
      + intros Hq. apply I2, mt_fleast_back in Hq as (p & -> & Hp). apply in_map. now apply I1.
      + intros Hq. apply in_map_iff in Hq as (p & <- & Hp). apply I2, mt_fleast, I1, Hp. }
  assert (Lc : forall j, In j (m_ifs s) -> loc t' (fi j) = loc s' j).
  { intros j Hj. destruct (fin_loc E k1 s s' Up j) as [-> _], (fin_loc E' k2 t t' Up' (fi j)) as [-> _]. apply (mt_if _ _ _ _ _ _ _ M j Hj). }
  assert (OO : forall n, List.length (o2 n) = List.length (o1 n)).
  { intros n. rewrite <- (map_length fi (o1 n)). apply same_count; auto.
    - apply nodup_map; auto. intros a b Ha Hb. apply X1 in Ha as [_ (p & Hp & Ha)]. apply X1 in Hb as [_ (q & Hq & Hb)]. apply inj; [exact (On p Hp a Ha)|exact (On q Hq b Hb)].
    - intros j. rewrite X2, in_map_iff. split.
      + intros [H (q & Hq & Hj)]. apply (Permutation_in _ PM) in Hq. apply in_map_iff in Hq as (p & <- & Hp). apply in_map_iff in Hj as (a & <- & Ha). exists a. split; [reflexivity|].
        apply X1. split; [now rewrite <- Lc by exact (On p Hp a Ha)|eauto].
      + intros (a & <- & Ha). apply X1 in Ha as [H (p & Hp & Ha)]. split; [now rewrite Lc by exact (On p Hp a Ha)|]. exists (map fi p). split; [|now apply in_map]. apply (Permutation_in _ (Permutation_sym PM)). now apply in_map. }
  assert (WW : forall p, In p L -> w (loc t') o2 (map fi p) = w (loc s') o1 p).
  { intros p Hp. assert (Op := On p Hp). clear -Op OO Lc. induction p as [|j p IH]; [reflexivity|]. cbn [map w]. rewrite IH by (intros; apply Op; right; auto). unfold deg. rewrite Lc, OO by (apply Op; left; auto). reflexivity. }
  exists (w (loc s') o1), L. split; [reflexivity|]. split.
  { intros p Hp. apply I1 in Hp. apply (like_least _ _ _ _ _ _ _ Ls) in Hp. assert (W : well_posed s) by exact WP. destruct W as (_ & Co & _). exact (least_nodup s (rsvp_up s) Co _ _ _ Hp). }
  assert (CA := carried_shares k1 s' _ _ _ _ i S1). assert (CB := carried_shares k2 t' _ _ _ _ (fi i) S2).
  rewrite (sumq_perm _ _ _ PM) in CB.
  assert (CB' : (carried t' (fi i) gs == sumq (fun p => inject_Z (Z.of_nat (count_occ Nat.eq_dec p i)) * shown k2 (d_traffic (h_dm t' (fd d)) * w (loc s') o1 p)) L)%Q).
  { rewrite CB. unfold sumq. rewrite map_map. change (sumq (fun p => inject_Z (Z.of_nat (crossings t' (fi i) (if_path (map fi p)))) * shown k2 (d_traffic (h_dm t' (fd d)) * w (loc t') o2 (map fi p))) L ==
      sumq (fun p => inject_Z (Z.of_nat (count_occ Nat.eq_dec p i)) * shown k2 (d_traffic (h_dm t' (fd d)) * w (loc s') o1 p)) L)%Q.
    apply sumq_ext. intros p Hp. rewrite crossings_count, (count_map fi (fun j => In j (m_ifs s)) i inj Hi p (On p Hp)), (WW p Hp). reflexivity. }
  assert (CA' : (carried s' i fs == sumq (fun p => inject_Z (Z.of_nat (count_occ Nat.eq_dec p i)) * shown k1 (d_traffic (h_dm s' d) * w (loc s') o1 p)) L)%Q).
  { rewrite CA. apply sumq_ext. intros p Hp. rewrite crossings_count. reflexivity. }
  clear -X Y CA' CB'. unfold loaded. split.
  - destruct k1; [now rewrite X|]. exact (rounds_compat _ _ _ _ _ CA' (Qeq_refl _) X).
  - destruct k2; [now rewrite Y|]. exact (rounds_compat _ _ _ _ _ CB' (Qeq_refl _) Y).
Qed.
Lemma mt_ride i x y : In i (m_ifs s) -> (forall l, preferred s' d l -> sole_road s l) -> (exists l, lsp_of s' d l /\ routed_lsp s' l) -> adds k1 s' d i x -> adds k2 t' (fd d) (fi i) y -> (y == c * x)%Q.
Proof.
  intros Hi So H A B. assert (H' := mt_some H).
  destruct (adds_ride k1 E s s' d i x HE WP (lu_once _ _ LU) Up Fs Hd H A) as (ls & N1 & I1 & ->).
  destruct (adds_ride k2 E' t t' (fd d) (fi i) y HE' WPt (lu_once _ _ LUt) Up' Ft Hd' H' B) as (ls' & N2 & I2 & ->).
  assert (Il : forall l, In l ls -> In l (m_lsps s)). { intros l Hl. apply I1 in Hl. exact (in_lsp E k1 s s' Up d l (proj1 Hl)). }
  assert (PM : Permutation ls' (map fl ls)).
  { apply NoDup_Permutation; auto.
    - apply nodup_map; auto. intros a b Ha Hb. apply (nodup_map_inj fl (m_lsps s)); auto. exact (Permutation_NoDup (Permutation_sym (mt_lsps _ _ _ _ _ _ _ M)) (lu_once _ _ LUt)).
    - intros l'. rewrite in_map_iff, I2. split.
      + intros Hp. apply mt_preferred_back in Hp as (l & -> & _ & Hp). exists l. split; [reflexivity|]. now apply I1.
      + intros (l & <- & Hl). apply mt_preferred; auto. now apply I1. }
  unfold ridden. rewrite (Qsum_perm _ _ (Permutation_map _ PM)). unfold count. rewrite (Permutation_length PM), map_length, map_map. destruct mt_ends as (_&_&T).
  change (sumq (fun l => d_traffic (h_dm t' (fd d)) / inject_Z (Z.of_nat (List.length ls)) * inject_Z (Z.of_nat (crossings t' (fi i) [ILsp (fl l)])))%Q ls ==
          c * sumq (fun l => d_traffic (h_dm s' d) / inject_Z (Z.of_nat (List.length ls)) * inject_Z (Z.of_nat (crossings s' i [ILsp l])))%Q ls)%Q.
  rewrite <- sumq_scale. apply sumq_ext. intros l Hl. rewrite T.
  assert (C : crossings t' (fi i) [ILsp (fl l)] = crossings s' i [ILsp l]).
  { destruct (mt_lsp l (Il l Hl)) as [(p & p' & b & b' & q & q' & P & P' & Bp & Bp' & _)|(P & P' & _)].
    - rewrite (crossings_lsp _ _ _ _ _ _ P), (crossings_lsp _ _ _ _ _ _ P'). assert (e : p' = p) by (apply (So l); auto; now apply I1). subst p'.
      apply (count_map fi (fun j => In j (m_ifs s))); auto. intros j Hj. exact (mt_on s _ _ _ (proj1 (proj1 Bp)) j Hj).
    - unfold crossings. simpl. now rewrite P, P'. }
  rewrite C. unfold Qdiv. ring.
Qed.
(** amounts of a demand *)
Lemma mt_adds i x y : k1 = k2 -> k1 = Flex \/ (c == 1)%Q -> In i (m_ifs s) -> (forall l, preferred s' d l -> sole_road s l) ->
  adds k1 s' d i x -> adds k2 t' (fd d) (fi i) y -> (y == c * x)%Q.
Proof.
  intros Ek Kc Hi So A B. destruct (routed_or E k1 HE s s' WP EK LU Am Up d) as [H|N]; [exact (mt_ride i x y Hi So H A B)|].
  destruct (mt_igp i x y Hi N A B) as [(_ & X & Y)|(W & L & _ & _ & X & Y)]; [rewrite X, Y; ring|]. destruct mt_ends as (_&_&T). rewrite <- Ek in Y. clear -X Y T Kc. destruct k1.
  - simpl in X, Y. rewrite X, Y, <- sumq_scale. apply sumq_ext. intros p _. rewrite T. ring.
  - destruct Kc as [Kc|Kc]; [discriminate|]. simpl in X, Y. rewrite Kc, Qmult_1_l. rewrite Kc, Qmult_1_l in T. apply rounds_unique in X. refine (Qeq_trans _ _ _ (rounds_unique 10 _ y _) (Qeq_sym _ _ X)).
    refine (rounds_compat _ _ _ _ _ _ (Qeq_refl _) Y). apply sumq_ext. intros p _. assert (Z : (d_traffic (h_dm t' (fd d)) * W p == d_traffic (h_dm s' d) * W p)%Q) by now rewrite T.
    now rewrite (roundd_compat 10000 _ _ Z).
Qed.
Lemma mt_close i x y : k1 = Flex -> k2 = Perf -> (c == 1)%Q -> In i (m_ifs s) -> (forall l, preferred s' d l -> sole_road s l) ->
  adds k1 s' d i x -> adds k2 t' (fd d) (fi i) y ->
  (Qabs (x - y) <= slack s' d)%Q /\ ((exists l, lsp_of s' d l /\ routed_lsp s' l) -> (x == y)%Q).
Proof.
  intros K1 K2 Kc Hi So A B. assert (R : (exists l, lsp_of s' d l /\ routed_lsp s' l) -> (x == y)%Q). { intros H. rewrite (mt_ride i x y Hi So H A B), Kc. ring. }
  split; [|exact R]. destruct (routed_or E k1 HE s s' WP EK LU Am Up d) as [H|N].
  - specialize (R H). unfold slack. destruct (C07_ride E k1 s s' d HE WP (lu_once _ _ LU) Up Fs Hd H) as (ls & es & _ & _ & _ & -> & _). rewrite map_length. rewrite R.
    setoid_replace (y - y)%Q with 0%Q by ring. assert (0 <= inject_Z (Z.of_nat (List.length ls)))%Q by (rewrite <- Zle_Qle with (x := 0); lia). change (Qabs 0) with 0%Q. lra.
  - destruct (mt_igp i x y Hi N A B) as [(P & X & Y)|(W & L & P & ND & X & Y)]; unfold slack; rewrite P.
    + rewrite X, Y. discriminate.
    + rewrite map_length. destruct mt_ends as (_&_&T). rewrite Kc, Qmult_1_l in T. rewrite K1 in X. rewrite K2 in Y. simpl in X, Y. rewrite X. destruct Y as (v & _ & Y & _).
      set (T1 := d_traffic (h_dm s' d)) in *. set (T2 := d_traffic (h_dm t' (fd d))) in *. clearbody T1 T2.
      assert (Z : (Qabs (sumq (fun p => inject_Z (Z.of_nat (count_occ Nat.eq_dec p i)) * (T1 * W p)) L - sumq (fun p => inject_Z (Z.of_nat (count_occ Nat.eq_dec p i)) * roundd 10000 (T2 * W p)) L) <= sumq (fun _ => 1 # 20000) L)%Q).
      { apply sumq_close. intros p Hp. assert (C : (count_occ Nat.eq_dec p i <= 1)%nat) by (apply (NoDup_count_occ Nat.eq_dec); auto).
        assert (Q : (Qabs (T2 * W p - roundd 10000 (T2 * W p)) <= 1 # 20000)%Q) by (destruct (roundd_rounds 10000 (T2 * W p)) as (u & _ & V & _); exact V).
        revert Q. generalize (roundd 10000 (T2 * W p)). intros r Q. assert (C' : count_occ Nat.eq_dec p i = 0%nat \/ count_occ Nat.eq_dec p i = 1%nat) by lia. destruct C' as [-> | ->].
        - change (inject_Z (Z.of_nat 0)) with 0%Q. setoid_replace (0 * (T1 * W p) - 0 * r)%Q with 0%Q by ring. discriminate.
        - change (inject_Z (Z.of_nat 1)) with 1%Q. setoid_replace (1 * (T1 * W p) - 1 * r)%Q with (T2 * W p - r)%Q by (rewrite T; ring). exact Q. }
      rewrite sumq_const in Z. revert Y Z. generalize (inject_Z (Z.of_nat (List.length L))). intros n. match goal with |- context [(Qabs (?a - ?b) <= n * _)%Q] => generalize a b end. clear. intros a b Y Z.
      change (Qabs (b - y) <= 1 # 20)%Q in Y. revert Y Z. apply Qabs_case; intros ? ?; apply Qabs_case; intros ? ?; apply Qabs_case; intros ?; lra.
Qed.
End Demand.

(** interface traffic *)
Lemma mt_sum (R : nat -> Q -> Q -> Prop) i : In i (m_ifs s) -> (forall d x y, In d (m_dms s) -> adds k1 s' d i x -> adds k2 t' (fd d) (fi i) y -> R d x y) ->
  if i_failed (h_if s i) then i_traffic (h_if s' i) = TDown /\ i_traffic (h_if t' (fi i)) = TDown
  else exists q r f g, i_traffic (h_if s' i) = TNum q /\ i_traffic (h_if t' (fi i)) = TNum r /\ (q == sumq f (m_dms s))%Q /\ (r == sumq g (m_dms s))%Q /\ (forall d, In d (m_dms s) -> R d (f d) (g d)).
Proof.
  intros Hi H. destruct (mt_if _ _ _ _ _ _ _ M i Hi) as (_&_&_&F&_).
  assert (A := pair_sum E k1 HE s s' (room_with _ _ Rs Off) Up i Hi). assert (B := pair_sum E' k2 HE' t t' (room_with _ _ Rt Offt) Up' (fi i) (mt_in z c fi fd fl s t M i Hi)). rewrite F in B.
  destruct (i_failed (h_if s i)); [auto|]. destruct A as (q & f & A1 & A2 & A3), B as (r & g & B1 & B2 & B3). exists q, r, f, (fun d => g (fd d)).
  split; [exact A1|]. split; [exact B1|]. split; [exact A3|]. split.
  - rewrite B3, <- (sumq_map g fd (m_dms s)). apply sumq_perm. symmetry. exact (mt_dms _ _ _ _ _ _ _ M).
  - intros d Hd. apply H; auto. apply B2. exact (mt_din z c fi fd fl s t M d Hd).
Qed.
Lemma mt_traffic i : k1 = k2 -> k1 = Flex \/ (c == 1)%Q -> In i (m_ifs s) -> (forall d l, In d (m_dms s) -> preferred s' d l -> sole_road s l) ->
  if i_failed (h_if s i) then i_traffic (h_if s' i) = TDown /\ i_traffic (h_if t' (fi i)) = TDown
  else exists q r, i_traffic (h_if s' i) = TNum q /\ i_traffic (h_if t' (fi i)) = TNum r /\ (r == c * q)%Q.
Proof.
  intros Ek Kc Hi So. assert (H := mt_sum (fun _ x y => (y == c * x)%Q) i Hi (fun d x y Hd => mt_adds d Hd i x y Ek Kc Hi (fun l => So d l Hd))).
  destruct (i_failed (h_if s i)); [exact H|]. destruct H as (q & r & f & g & Q & R & A & B & C). exists q, r. split; [exact Q|]. split; [exact R|]. rewrite A, B, <- sumq_scale. now apply sumq_ext.
Qed.
Lemma mt_near i : k1 = Flex -> k2 = Perf -> (c == 1)%Q -> In i (m_ifs s) -> (forall d l, In d (m_dms s) -> preferred s' d l -> sole_road s l) ->
  if i_failed (h_if s i) then i_traffic (h_if s' i) = TDown /\ i_traffic (h_if t' (fi i)) = TDown
  else exists q r, i_traffic (h_if s' i) = TNum q /\ i_traffic (h_if t' (fi i)) = TNum r /\ (Qabs (q - r) <= sumq (slack s') (m_dms s))%Q.
Proof.
  intros K1 K2 Kc Hi So. assert (H := mt_sum (fun d x y => (Qabs (x - y) <= slack s' d)%Q) i Hi (fun d x y Hd A B => proj1 (mt_close d Hd i x y K1 K2 Kc Hi (fun l => So d l Hd) A B))).
  destruct (i_failed (h_if s i)); [exact H|]. destruct H as (q & r & f & g & Q & R & A & B & C). exists q, r. split; [exact Q|]. split; [exact R|]. rewrite A, B. now apply sumq_close.
Qed.
End Match.
