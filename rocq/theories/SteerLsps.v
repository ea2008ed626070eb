(** SteerLsps.v - simulations of models that differ in the manual metric of an LSP. *)
From Verif Require Import Base Graph Objects Sim Api Spec SpecCkt SpecSim SpecMetric SpecFlow SpecOrder SpecShort SpecTotal SpecWhatIf SpecSame SpecHist SpecFail SpecMore GraphProofs MonadProofs RoundProofs ResProofs ObjProofs CircuitProofs
  ValidateProofs GroupProofs PathProofs QuietProofs RouteProofs LeastProofs OrderProofs DemandProofs MetricProofs IgpProofs Ecmp TrafficProofs ShareProofs FlowProofs UtilProofs RepairProofs WhatIf WhatIfApi OwnProofs OwnApi SpecSig SigProofs SigSeq SigEnd LspTotal SigTotal LspSucceeds LspExact
  OrderLsps PropertiesApi PropertiesRoute PropertiesTraffic PropertiesSignal MoreLsps AddProofs WhatIfMore ShortLsp SpecExn SpecCost SpecLspCost WhatCost DownLsps CostLsps SpecSteer.
From Coq Require Import Permutation Lqa.

Section Ways.
Variables (l0 : nat) (s t : st).
Hypothesis W : remetriced l0 s t.
Lemma me_up i : In i (m_ifs s) -> (rsvp_up t i <-> rsvp_up s i).
Proof. intros Hi. destruct (me_if _ _ _ W i Hi) as (_&_&_&F&R). unfold rsvp_up. now rewrite F, R. Qed.
Lemma me_from l : In l (m_lsps s) -> lsp_from t l = lsp_from s l. Proof. intros H. apply (me_ls _ _ _ W l H). Qed.
Lemma me_to l : In l (m_lsps s) -> lsp_to t l = lsp_to s l. Proof. intros H. apply (me_ls _ _ _ W l H). Qed.
Lemma me_wanted l : In l (m_lsps s) -> wanted t l (equal_share t l) = wanted s l (equal_share s l).
Proof.
  intros Hl. destruct (me_ls _ _ _ W l Hl) as (F & T & Cf). unfold wanted. rewrite Cf. destruct (l_cfg (h_ls s l)); [reflexivity|]. unfold equal_share, traffic_of, dmds_of, lsps_of.
  rewrite (me_dms _ _ _ W), (me_lsps _ _ _ W), F, T.
  rewrite (filter_ext_in (fun d => String.eqb (dmd_from t d) (lsp_from s l) && String.eqb (dmd_to t d) (lsp_to s l)) (fun d => String.eqb (dmd_from s d) (lsp_from s l) && String.eqb (dmd_to s d) (lsp_to s l)))
    by (intros d Hd; destruct (me_dm _ _ _ W d Hd) as ((->&->)&_); reflexivity).
  rewrite (filter_ext_in (fun m => String.eqb (lsp_from t m) (lsp_from s l) && String.eqb (lsp_to t m) (lsp_to s l)) (fun m => String.eqb (lsp_from s m) (lsp_from s l) && String.eqb (lsp_to s m) (lsp_to s l)))
    by (intros m Hm; now rewrite (me_from m Hm), (me_to m Hm)).
  f_equal. f_equal. apply map_ext_in. intros d Hd. apply filter_In in Hd as [Hd _]. apply (me_dm _ _ _ W d Hd).
Qed.
Lemma me_route u p v : route t (rsvp_up t) u p v <-> route s (rsvp_up s) u p v.
Proof.
  split.
  - induction 1 as [|i p v Hi Ui R IH]; [constructor|]. apply (me_ifs _ _ _ W) in Hi. destruct (me_if _ _ _ W i Hi) as (L & Re & _). rewrite L. constructor; [exact Hi|now apply me_up|now rewrite <- Re].
  - induction 1 as [|i p v Hi Ui R IH]; [constructor|]. destruct (me_if _ _ _ W i Hi) as (L & Re & _). rewrite <- L. constructor; [now apply (me_ifs _ _ _ W)|now apply me_up|now rewrite Re].
Qed.
Lemma me_cost u p v : route s (rsvp_up s) u p v -> route_cost t p = route_cost s p.
Proof. induction 1 as [|i p v Hi Ui R IH]; simpl; [reflexivity|]. destruct (me_if _ _ _ W i Hi) as (_&_&->&_). now rewrite IH. Qed.
Lemma me_least u p v : least_cost t (rsvp_up t) u p v <-> least_cost s (rsvp_up s) u p v.
Proof.
  split; intros [A B].
  - apply me_route in A. split; [exact A|]. intros q Hq. assert (X := B q (proj2 (me_route _ _ _) Hq)). now rewrite (me_cost _ _ _ A), (me_cost _ _ _ Hq) in X.
  - split; [now apply me_route|]. intros q Hq. apply me_route in Hq. rewrite (me_cost _ _ _ A), (me_cost _ _ _ Hq). now apply B.
Qed.
Lemma me_best l p : In l (m_lsps s) -> (best_road t l p <-> best_road s l p).
Proof.
  intros Hl. unfold best_road. rewrite (me_from l Hl), (me_to l Hl). split; intros [A B]; (split; [now apply me_least|]); intros q Hq; apply B; now apply me_least.
Qed.
Lemma me_road l p : In l (m_lsps s) -> (road t l p <-> road s l p).
Proof. intros Hl. unfold road. rewrite (me_from l Hl), (me_to l Hl). apply me_route. Qed.
End Ways.

Section Up.
Variables (E E' : env) (k : kind).
Hypothesis HE : env_ok E.
Hypothesis HE' : env_ok E'.
Variables (l0 : nat) (s t s' t' : st).
Hypothesis W : remetriced l0 s t.
Hypothesis Rs : with_room k s.
Hypothesis Rt : with_room k t.
Hypothesis Up : update_simulation E k s = (s', Ok tt).
Hypothesis Up' : update_simulation E' k t = (t', Ok tt).
Let WP := rm_posed _ _ Rs. Let EK := rm_known _ _ Rs. Let CS := rm_cids _ _ Rs. Let LU := rm_usual _ _ Rs. Let Am := rm_ample _ _ Rs. Let EA := rm_agree _ _ Rs. Let Off := rm_off _ _ Rs.
Let WPt := rm_posed _ _ Rt. Let EKt := rm_known _ _ Rt. Let CSt := rm_cids _ _ Rt. Let LUt := rm_usual _ _ Rt. Let Amt := rm_ample _ _ Rt. Let EA' := rm_agree _ _ Rt. Let Offt := rm_off _ _ Rt.
Let Fs := fin_fail E k HE s s' WP CS EA Up.
Let Ft := fin_fail E' k HE' t t' WPt CSt EA' Up'.
Let Ls := fin_like E k HE s s' WP EK CS LU Am EA Up.
Let Lt := fin_like E' k HE' t t' WPt EKt CSt LUt Amt EA' Up'.
Let lt l : In l (m_lsps s) -> In l (m_lsps t). Proof. now rewrite (me_lsps _ _ _ W). Qed.

Lemma st_lsp l : In l (m_lsps s) ->
  same_fate (l_path (h_ls s' l)) (l_path (h_ls t' l)) /\ same_amount (l_setup (h_ls s' l)) (l_setup (h_ls t' l)) /\ same_amount (l_res (h_ls s' l)) (l_res (h_ls t' l)) /\
  (sole_road s l -> same_way (l_path (h_ls s' l)) (l_path (h_ls t' l))).
Proof.
  intros Hl. assert (Se : same_amount (l_setup (h_ls s' l)) (l_setup (h_ls t' l))).
  { destruct (fin_setup E k HE s s' WP EK LU Am Up l Hl) as (b & -> & B), (fin_setup E' k HE' t t' WPt EKt LUt Amt Up' l (lt l Hl)) as (b' & -> & B'). simpl. rewrite B, B', (me_wanted _ _ _ W l Hl). reflexivity. }
  destruct (placed E k HE s s' WP LU EK Up l Am Hl) as [(q & b1 & r & Q & B & X & Y)|(Q & X & N)], (placed E' k HE' t t' WPt LUt EKt Up' l Amt (lt l Hl)) as [(q' & b1' & r' & Q' & B' & X' & Y')|(Q' & X' & N')].
  - apply (me_best _ _ _ W l q' Hl) in B'. rewrite Q, Q', X, X'. assert (Ec : route_cost s q = route_cost t q') by (rewrite (me_cost _ _ _ W _ _ _ (proj1 (proj1 B'))); eapply least_unique; [apply B|apply B']).
    split; [exact Ec|]. split; [exact Se|]. split; [simpl; rewrite Y, Y', (me_wanted _ _ _ W l Hl); reflexivity|]. intros So. split; [exact (So _ _ B B')|exact Ec].
  - destruct (N' q). apply (me_road _ _ _ W l q Hl). apply B.
  - destruct (N q'). apply (me_road _ _ _ W l q' Hl). apply B'.
  - rewrite Q, Q', X, X'. split; [exact I|]. split; [exact Se|]. split; [exact I|]. intros _. exact I.
Qed.
Lemma st_routed l : In l (m_lsps s) -> (routed_lsp t' l <-> routed_lsp s' l).
Proof.
  intros Hl. destruct (st_lsp l Hl) as (X & _). unfold routed_lsp. destruct (l_path (h_ls s' l)), (l_path (h_ls t' l)); simpl in X; try contradiction; split; intros (a & b & c & Y); try discriminate Y; eauto.
Qed.
Lemma st_unrouted d : In d (m_dms s) -> (d_path (h_dm t' d) = DUnrouted <-> d_path (h_dm s' d) = DUnrouted).
Proof.
  intros Hs. assert (Hd : In d (m_dms t)) by now rewrite (me_dms _ _ _ W). rewrite (pair_unrouted E k HE s s' Rs Up d Hs), (pair_unrouted E' k HE' t t' Rt Up' d Hd). destruct (me_dm _ _ _ W d Hs) as ((F&T)&_). rewrite F, T.
  split; intros N p Hp; apply (N p); now apply (me_route _ _ _ W).
Qed.
Lemma st_delivered : (routed_total t' == routed_total s')%Q.
Proof.
  unfold routed_total. destruct (fin_sets E k s s' Up) as (_&_&->&_), (fin_sets E' k t t' Up') as (_&_&->&_). rewrite (me_dms _ _ _ W).
  assert (X : forall d, In d (m_dms s) -> (routed_traffic t' d == routed_traffic s' d)%Q).
  { intros d Hd. assert (U := st_unrouted d Hd). unfold routed_traffic. destruct (fin_dm E k s s' Up d) as (_&_&->), (fin_dm E' k t t' Up' d) as (_&_&->).
    destruct (me_dm _ _ _ W d Hd) as (_&->). destruct (d_path (h_dm s' d)) as [|ps]; destruct (d_path (h_dm t' d)) as [|qs]; try reflexivity; [discriminate (proj2 U eq_refl)|discriminate (proj1 U eq_refl)]. }
  clear -X. induction (m_dms s) as [|d ds IH]; simpl; [reflexivity|]. rewrite (X d (or_introl eq_refl)), IH; [reflexivity|]. intros e He. apply X. right; auto.
Qed.
Lemma st_metric l m : In l (m_lsps s) -> l <> l0 -> (metric t' l m <-> metric s' l m).
Proof.
  intros Hl Nl. assert (Ne := usual_omm k s l LU Hl). assert (O : omm (h_ls t l) = omm (h_ls s l)) by exact (omm_read _ _ Ne (me_metric _ _ _ W l Hl Nl)).
  rewrite (metric_omm t' l m), (metric_omm s' l m) by (rewrite ?(fin_omm E k s s' Up), ?(fin_omm E' k t t' Up'), ?O; exact Ne).
  rewrite (fin_omm E k s s' Up), (fin_omm E' k t t' Up'), O. destruct (omm (h_ls s l)) as [[z|]|e]; [reflexivity| |reflexivity].
  destruct (fin_ls E k s s' Up l) as [F1 T1], (fin_ls E' k t t' Up' l) as [F2 T2]. rewrite F1, T1, F2, T2, (me_from _ _ _ W l Hl), (me_to _ _ _ W l Hl). destruct m as [c|].
  - split; intros (p & A & ->); exists p.
    + apply (like_least _ _ _ _ _ _ _ Lt) in A. assert (B := proj1 (me_least _ _ _ W _ _ _) A). split; [now apply (like_least _ _ _ _ _ _ _ Ls)|].
      now rewrite (like_cost _ _ _ _ _ _ _ Lt (proj1 A)), (like_cost _ _ _ _ _ _ _ Ls (proj1 B)), (me_cost _ _ _ W _ _ _ (proj1 B)).
    + apply (like_least _ _ _ _ _ _ _ Ls) in A. assert (B := proj2 (me_least _ _ _ W _ _ _) A). split; [now apply (like_least _ _ _ _ _ _ _ Lt)|].
      now rewrite (like_cost _ _ _ _ _ _ _ Lt (proj1 B)), (like_cost _ _ _ _ _ _ _ Ls (proj1 A)), (me_cost _ _ _ W _ _ _ (proj1 A)).
  - split; intros N p Rp; apply (N p).
    + apply (like_route _ _ _ _ _ _ _ Lt), (me_route _ _ _ W), (like_route _ _ _ _ _ _ _ (like_sym _ _ _ _ Ls)), Rp.
    + apply (like_route _ _ _ _ _ _ _ Ls), (me_route _ _ _ W), (like_route _ _ _ _ _ _ _ (like_sym _ _ _ _ Lt)), Rp.
Qed.
Lemma st_reads v m : In l0 (m_lsps s) -> reads_metric t l0 v -> (metric t' l0 m <-> m = Some v).
Proof.
  intros Hl Rv. assert (Ne := usual_omm k t l0 LUt (lt l0 Hl)). rewrite (metric_omm t' l0 m) by (rewrite (fin_omm E' k t t' Up'); exact Ne). rewrite (fin_omm E' k t t' Up').
  assert (O : omm (h_ls t l0) = Ok (Some v)).
  { unfold reads_metric, mstate_of in Rv. unfold omm in *. destruct (l_imm (h_ls t l0)) as [z|]; [destruct (Z.eqb z 0)|]; cbn in Rv; try (injection Rv as ->; reflexivity). destruct (Z.ltb 0 z); cbn in Rv; [injection Rv as ->; reflexivity|discriminate Rv]. }
  rewrite O. reflexivity.
Qed.

Section Demand.
Variable d : nat.
Hypothesis Hs : In d (m_dms s).
Let Hd : In d (m_dms t). Proof. now rewrite (me_dms _ _ _ W). Qed.
Let De : same_demand s t d := me_dm _ _ _ W d Hs.
Lemma st_of l : lsp_of s' d l <-> lsp_of t' d l.
Proof.
  unfold lsp_of. destruct (fin_sets E k s s' Up) as (_&_&_&->), (fin_sets E' k t t' Up') as (_&_&_&->). rewrite (me_lsps _ _ _ W).
  destruct (fin_ls E k s s' Up l) as [-> ->], (fin_ls E' k t t' Up' l) as [-> ->]. destruct (fin_dm E k s s' Up d) as (->&->&_), (fin_dm E' k t t' Up' d) as (->&->&_).
  destruct De as ((->&->)&_). split; intros (A & B & D); (split; [exact A|]); rewrite (me_from _ _ _ W l A), (me_to _ _ _ W l A) in *; auto.
Qed.
Lemma st_in l : lsp_of s' d l -> In l (m_lsps s). Proof. intros H. exact (in_lsp E k s s' Up d l H). Qed.
Lemma st_preferred l : ~ lsp_of s' d l0 -> (preferred s' d l <-> preferred t' d l).
Proof.
  intros N. assert (Ne : forall x, lsp_of s' d x -> x <> l0) by (intros x Hx ->; exact (N Hx)). split; intros (A & B & m & M & D).
  - assert (Hl := st_in l A). split; [now apply st_of|]. split; [now apply st_routed|]. exists m. split; [apply st_metric; auto|]. intros x Ax Bx. apply st_of in Ax. assert (Hx := st_in x Ax).
    destruct (D x Ax (proj1 (st_routed x Hx) Bx)) as (m' & M' & L'). exists m'. split; [apply st_metric; auto|exact L'].
  - apply st_of in A. assert (Hl := st_in l A). split; [exact A|]. split; [now apply st_routed|]. exists m. split; [apply st_metric; auto|]. intros x Ax Bx. assert (Hx := st_in x Ax).
    destruct (D x (proj1 (st_of x) Ax) (proj2 (st_routed x Hx) Bx)) as (m' & M' & L'). exists m'. split; [apply st_metric; auto|exact L'].
Qed.
Let least_same : forall p, least_cost s (rsvp_up s) (dmd_from s d) p (dmd_to s d) <-> least_cost t (rsvp_up t) (dmd_from t d) p (dmd_to t d).
Proof. intros p. destruct De as ((->&->)&_). symmetry. apply (me_least _ _ _ W). Qed.
Lemma st_paths : ~ lsp_of s' d l0 -> same_paths (d_path (h_dm s' d)) (d_path (h_dm t' d)).
Proof. intros N. exact (pair_paths E E' k HE HE' s t s' t' Rs Rt Up Up' d Hs Hd De (fun l => st_preferred l N) (fun _ => least_same)). Qed.
Lemma st_adds i x y : ~ lsp_of s' d l0 -> (forall l, preferred s' d l -> sole_road s l) -> adds k s' d i x -> adds k t' d i y -> (x == y)%Q.
Proof.
  intros N So. apply (pair_adds E E' k HE HE' s t s' t' Rs Rt Up Up' d Hs Hd De); auto using st_preferred.
  - intros j Hj. apply (me_if _ _ _ W j Hj).
  - intros l j Pl. assert (Hl := st_in l (proj1 Pl)). destruct (st_lsp l Hl) as (_ & _ & _ & X). specialize (X (So l Pl)). unfold crossings, item_crossings. simpl.
    destruct (l_path (h_ls s' l)), (l_path (h_ls t' l)); simpl in X; try contradiction; try reflexivity. now destruct X as [-> _].
Qed.
Variable v : Z.
Hypothesis Rv : reads_metric t l0 v.
Lemma st_lowest : lsp_of s' d l0 -> routed_lsp s' l0 -> others_above s' d l0 v -> d_path (h_dm t' d) = DPaths [[ILsp l0]].
Proof.
  intros A B O. assert (H0 := st_in l0 A).
  destruct (C07_ride E' k t t' d HE' WPt (lu_once _ _ LUt) Up' Ft Hd (ex_intro _ l0 (conj (proj1 (st_of l0) A) (proj2 (st_routed l0 H0) B)))) as (ls & es & Ne & ND & X & Y & _).
  assert (Only : forall l, In l ls -> l = l0).
  { intros l Hl. apply X in Hl as (A1 & B1 & m & M & D). apply st_of in A1. assert (I1 := st_in l A1). destruct (Nat.eq_dec l l0) as [|N]; [assumption|exfalso].
    apply (st_metric l m I1 N) in M. destruct (O l m A1 (proj1 (st_routed l I1) B1) N M) as (y & -> & L). destruct (D l0 (proj1 (st_of l0) A) (proj2 (st_routed l0 H0) B)) as (m' & M' & L').
    apply (st_reads v m' H0 Rv) in M'. subst m'. simpl in L'. lia. }
  rewrite Y. destruct ls as [|a [|b ls]]; [contradiction|rewrite (Only a) by (left; auto); reflexivity|]. exfalso. inversion ND as [|? ? Na _]. apply Na. left. rewrite (Only a), (Only b) by (simpl; auto). reflexivity.
Qed.
Lemma st_higher l y : lsp_of s' d l -> routed_lsp s' l -> l <> l0 -> metric s' l (Some y) -> y < v -> In l0 (m_lsps s) -> forall ps, d_path (h_dm t' d) = DPaths ps -> ~ In [ILsp l0] ps.
Proof.
  intros A B N M L H0 ps P Hp. assert (Hl := st_in l A).
  destruct (C07_ride E' k t t' d HE' WPt (lu_once _ _ LUt) Up' Ft Hd (ex_intro _ l (conj (proj1 (st_of l) A) (proj2 (st_routed l Hl) B)))) as (ls & es & Ne & ND & X & Y & _).
  rewrite P in Y. injection Y as ->. apply in_map_iff in Hp as (x & [= ->] & Hx). apply X in Hx as (_ & _ & m & Mm & D). apply (st_reads v m H0 Rv) in Mm. subst m.
  destruct (D l (proj1 (st_of l) A) (proj2 (st_routed l Hl) B)) as (m' & M' & L'). apply (st_metric l m' Hl N) in M'. rewrite (metric_unique _ _ _ _ M' M) in L'. simpl in L'. lia.
Qed.
End Demand.
End Up.

(** ** The setter *)
Section Setter.
Variables (l0 : nat) (v : Z) (s : st).
Let t := upd_ls l0 (ls_mm (Some v) None) s.
Lemma sm_field {A} (f : lsp -> A) x : (forall r, f (ls_mm (Some v) None r) = f r) -> f (h_ls t x) = f (h_ls s x).
Proof. intros H. unfold t. simpl. apply fupd_cases; [intros ->; apply H|reflexivity]. Qed.
Lemma sm_other x : x <> l0 -> h_ls t x = h_ls s x.
Proof. intros N. unfold t. simpl. unfold fupd. destruct (Nat.eqb_spec l0 x); [congruence|]. try (destruct (Nat.eqb_spec x l0); [congruence|]). reflexivity. Qed.
Lemma sm_self : h_ls t l0 = ls_mm (Some v) None (h_ls s l0).
Proof. unfold t. simpl. unfold fupd. now rewrite Nat.eqb_refl. Qed.
Lemma sm_from x : lsp_from t x = lsp_from s x. Proof. unfold lsp_from. rewrite (sm_field l_src) by reflexivity. reflexivity. Qed.
Lemma sm_to x : lsp_to t x = lsp_to s x. Proof. unfold lsp_to. rewrite (sm_field l_dst) by reflexivity. reflexivity. Qed.
Lemma sm_remetriced r : remetriced l0 r s -> remetriced l0 r t.
Proof.
  intros W. constructor; [exact (me_ifs _ _ _ W)|exact (me_if _ _ _ W)|exact (me_dms _ _ _ W)|exact (me_dm _ _ _ W)|exact (me_lsps _ _ _ W)| |].
  - intros l Hl. rewrite sm_from, sm_to, (sm_field l_cfg) by reflexivity. exact (me_ls _ _ _ W l Hl).
  - intros l Hl N. unfold same_metric_read. rewrite (sm_other l N). exact (me_metric _ _ _ W l Hl N).
Qed.
Lemma sm_refl : remetriced l0 s s.
Proof. constructor; try reflexivity; intros; repeat split. Qed.
Lemma sm_room k : with_room k s -> with_room k t.
Proof.
  intros R. assert (LU := rm_usual _ _ R). assert (W := me_wanted l0 s t (sm_remetriced s sm_refl)). constructor; [|exact (rm_known _ _ R)|exact (rm_cids _ _ R)| | |exact (rm_agree _ _ R)|exact (rm_off _ _ R)].
  - destruct (rm_posed _ _ R) as (A & B & T). split; [exact A|]. split; [exact B|]. assert (F : from_names t = from_names s) by (unfold from_names; change (m_lsps t) with (m_lsps s); rewrite (map_ext _ _ sm_from); reflexivity).
    assert (G : to_names t = to_names s) by (unfold to_names; change (m_lsps t) with (m_lsps s); rewrite (map_ext _ _ sm_to); reflexivity). unfold texts_distinct. rewrite F, G. exact T.
  - constructor; [exact (lu_once _ _ LU)|exact (lu_ifs _ _ LU)|exact (lu_traffic _ _ LU)| | |exact (lu_caps _ _ LU)| |].
    + intros l c Hl. rewrite (sm_field l_cfg) by reflexivity. exact (lu_cfg _ _ LU l c Hl).
    + intros l Hl. rewrite (W l Hl). exact (lu_tenths _ _ LU l Hl).
    + intros l c Hl. destruct (Nat.eq_dec l l0) as [->|N]; [rewrite sm_self; discriminate|rewrite (sm_other l N); exact (lu_metric _ _ LU l c Hl)].
    + intros _ (n & Hn & Sn). exfalso. assert (X := rm_off _ _ R n Hn). change (n_shortcuts (h_nd s n) = true) in Sn. congruence.
  - intros i Hi F V. change (m_lsps t) with (m_lsps s). rewrite (map_ext_in _ (fun l => wanted s l (equal_share s l))) by exact W. exact (rm_ample _ _ R i Hi F V).
Qed.
End Setter.
Section Again.
Variables (E : env) (k : kind) (s s' : st).
Hypothesis HE : env_ok E.
Hypothesis R : with_room k s.
Hypothesis U : update_simulation E k s = (s', Ok tt).
Let Ho : forall o, In o [OpUpdate] -> outage_op s o. Proof. intros o [<-|[]]; exact I. Qed.
Let Es : run_ops E k [OpUpdate] s = s'. Proof. simpl. now rewrite U. Qed.
Let C : same_config k s s'. Proof. rewrite <- Es. exact (config_history E k _ s Ho). Qed.
Let Fa := fin_fail E k HE s s' (rm_posed _ _ R) (rm_cids _ _ R) (rm_agree _ _ R) U.
Lemma set_metric_lsps l0 v w : 0 < v -> mstate_of (h_ls s' l0) = Current w ->
  exists s1 t1, set_manual_metric l0 v s' = (s1, Ok tt) /\ update_simulation E k s1 = (t1, Ok tt) /\ with_room k s1 /\ remetriced l0 s s1 /\ reads_metric s1 l0 v.
Proof.
  intros Hv M. set (s1 := upd_ls l0 (ls_mm (Some v) None) s'). assert (R1 : with_room k s1) by exact (sm_room l0 v s' k (again_room E k s s' HE R U)).
  destruct (proj2 (succeeds_ample E k s1 HE (rm_posed _ _ R1) (rm_known _ _ R1) (rm_cids _ _ R1) (rm_usual _ _ R1) (rm_ample _ _ R1))) as (t1 & U1).
  { destruct (proj1 (succeeds_ample E k s HE (rm_posed _ _ R) (rm_known _ _ R) (rm_cids _ _ R) (rm_usual _ _ R) (rm_ample _ _ R)) (ex_intro _ s' U)) as (A & B & D).
    split; [exact (WhatIf.cf_fine _ _ _ C A)|]. split; [|exact (config_fit _ _ _ C D)].
    intros x Hx. change (In x (m_lsps s')) in Hx. rewrite (WhatIf.cf_lsps _ _ _ C) in Hx. destruct (fin_ls E k s s' U x) as [F T]. unfold s1. rewrite sm_from, sm_to, F, T.
    change (In (lsp_from s x) (map (nd_name s') (m_nds s')) /\ lsp_from s x <> lsp_to s x). rewrite (WhatIf.cf_names _ _ _ C). exact (B x Hx). }
  exists s1, t1. split; [|split; [exact U1|split; [exact R1|split]]].
  - unfold set_manual_metric, bind, gets, modify, truthy. unfold mstate_of in M. destruct (l_imm (h_ls s' l0)) as [z|]; [destruct (Z.eqb z 0); [|discriminate M]|]; simpl; destruct (Z.ltb_spec 0 v); try lia; reflexivity.
  - apply sm_remetriced. constructor.
    + intros j. now rewrite (cf_ifs _ _ _ C).
    + intros j Hj. rewrite (cf_loc _ _ _ C), (cf_rem _ _ _ C), (Fa j Hj). repeat split; apply (SpecWhatIf.cf_if _ _ _ C j).
    + exact (cf_dms _ _ _ C).
    + intros d _. exact (cf_demand k s s' C d).
    + exact (cf_lsps _ _ _ C).
    + intros l _. destruct (fin_ls E k s s' U l) as [F T]. split; [exact F|]. split; [exact T|]. apply (SpecWhatIf.cf_ls _ _ _ C l).
    + intros l _ _. apply read_omm. exact (fin_omm E k s s' U l).
  - unfold reads_metric, s1. rewrite sm_self. reflexivity.
Qed.
End Again.
