(** LspExact.v - update_simulation on a model with LSPs: what success needs, and
    room for all LSPs (C88). *)
From Verif Require Import Base Graph Objects Sim Spec SpecCkt SpecSim SpecMetric SpecOrder SpecShort SpecTotal GraphProofs MonadProofs RoundProofs ResProofs ObjProofs CircuitProofs
  ValidateProofs GroupProofs PathProofs QuietProofs RouteProofs LeastProofs OrderProofs DemandProofs MetricProofs SpecSig SigProofs ResigProofs SigSeq SigUpdate SigEnd LspTotal SigTotal LspSucceeds.
From Coq Require Import Permutation Lqa.

Section Known.
Variables (E : env) (k : kind).
Hypothesis HE : env_ok E.

Lemma graph_known s t bw r u : ends_known s -> m_ifs t = m_ifs s -> node_names t = node_names s -> (forall i, In i (m_ifs s) -> loc t i = loc s i /\ rem t i = rem s i) ->
  in_graph (make_graph k t false bw r) u -> In u (node_names s).
Proof.
  intros EK I Nn L [H|(e & He & H)].
  - simpl in H. now rewrite Nn in H.
  - apply G_edge_any in He as (i & -> & Hi). rewrite I in Hi. destruct (L i Hi) as [L1 L2]. destruct (EK i Hi) as [K1 K2]. simpl in H.
    change (ilocal t i) with (loc t i) in H. change (iremote t i) with (rem t i) in H. rewrite L1, L2 in H. destruct H as [<-|<-]; auto.
Qed.

Lemma determine_known s l share s' : good k s -> ends_known s -> determine_lsp E k l share s = (s', Ok tt) -> In (lsp_from s l) (node_names s).
Proof.
  intros Gd EK H. unfold determine_lsp in H. rewrite bind_gets in H. cbv zeta in H. rewrite bind_modify in H. set (sa := upd_ls l _ s) in H.
  match type of H with bind (set_setup_bw l ?x) _ _ = _ => destruct (set_setup_run sa l x) as [R|(e & R & _)] end; [|unfold bind in H; rewrite R in H; discriminate].
  rewrite (bind_run _ _ _ _ _ R) in H. clear R. match type of H with _ ?x = _ => set (sb := x) in H end. rewrite !bind_gets, bind_modify, bind_gets in H.
  set (want := lsp_setup_value sb l) in H. cbn [fst snd] in H. match type of H with context [lsrc ?x l] => set (sc := x) in H end.
  change (make_graph k sb false want true) with (make_graph k s false want true) in H.
  assert (U : lsrc sc l = lsp_from s l) by (unfold lsrc, sc, sb, sa; simpl; rewrite !fupd_same; reflexivity). rewrite U in H.
  assert (Pos : costs_positive (make_graph k s false want true)).
  { intros e He. apply G_edge_any in He as (i & -> & Hi). simpl. now apply (gd_cost _ _ Gd). }
  assert (A := ok_asp E HE (make_graph k s false want true) (lsp_from s l) (ldst sc l) Pos).
  apply (graph_known s s want true); auto. destruct (nx_asp E _ (lsp_from s l) (ldst sc l)); [apply A|apply A|discriminate H].
Qed.

Lemma loop_known lsps share : forall s s', good k s -> ends_known s -> mfor lsps (fun l => determine_lsp E k l share) s = (s', Ok tt) ->
  forall l, In l lsps -> In (lsp_from s l) (node_names s).
Proof.
  induction lsps as [|m lsps IH]; intros s s' Gd EK H l Hl; [destruct Hl|]. apply mfor_cons_ok in H as (s1 & H1 & H2).
  destruct Hl as [<-|Hl]; [eapply determine_known; eauto|]. assert (O := signalled_only _ _ _ _ (proj2 (determine_ok E k HE s m share s1 Gd H1))).
  assert (F := only_seq _ _ _ O). rewrite <- (os_from _ _ _ O l), <- (os_names _ _ _ O). eapply IH; eauto; [eapply good_seq; eauto|].
  intros i Hi. destruct (qf_sets _ _ F) as (S1 & S2 & _). rewrite S1 in Hi. unfold loc, rem, nd_name. rewrite S2, (qf_nd _ _ F), (qf_if _ _ F i). exact (EK i Hi).
Qed.

Lemma groups_known dg gs : forall s s', good k s -> ends_known s -> mfor gs (route_lsp_group E k dg) s = (s', Ok tt) ->
  forall l, In l (flat_map snd gs) -> In (lsp_from s l) (node_names s).
Proof.
  induction gs as [|[key lsps] gs IH]; intros s s' Gd EK H l Hl; [destruct Hl|]. apply mfor_cons_ok in H as (s1 & H1 & H2).
  cbn [flat_map snd] in Hl. apply in_app_or in Hl as [Hl|Hl].
  - unfold route_lsp_group in H1. rewrite bind_gets in H1. cbv zeta in H1. apply bind_ok in H1 as (t & [] & H1 & _). eapply loop_known; eauto.
  - destruct (group_run E k HE _ _ _ _ _ Gd H1) as (_ & _ & _ & F & _). destruct (qf_sets _ _ F) as (S1 & S2 & _).
    assert (X : In (lsp_from s1 l) (node_names s1)).
    { eapply IH; eauto; [eapply good_seq; eauto|]. intros i Hi. rewrite S1 in Hi. unfold loc, rem, nd_name. rewrite S2, (qf_nd _ _ F), (qf_if _ _ F i). exact (EK i Hi). }
    unfold lsp_from, node_names in *. rewrite S2, (qf_nd _ _ F), (qf_ls _ _ F l) in X. exact X.
Qed.
End Known.

(** ** What success needs *)
Section Needs.
Variables (E : env) (k : kind).
Hypothesis HE : env_ok E.
Variables s s' : st.
Hypothesis WP : well_posed s.
Hypothesis EK : ends_known s.
Hypothesis Up : update_simulation E k s = (s', Ok tt).

Lemma needs_lsps : lsps_fine s.
Proof.
  intros l Hl. destruct WP as (N & C & T). split; [|apply (update_settled E k HE s s' WP Up l Hl)].
  destruct (simulated_ex E k s s' Up) as (s1 & s2 & s3 & s4 & Sm). destruct (sm_signals E k HE _ _ _ _ _ _ Sm N C T) as (s0 & Cl & Gd & T0 & R0).
  destruct (cl_sets _ _ Cl) as (S1 & S2 & _ & S4 & _).
  assert (EK0 : ends_known s0).
  { intros i Hi. rewrite S1 in Hi. unfold loc, rem, nd_name. rewrite S2, (cl_nd _ _ Cl), (cl_if _ _ Cl i Hi). exact (EK i Hi). }
  assert (X := groups_known E k HE _ _ _ _ Gd EK0 R0 l). rewrite <- (groups_all E s0 HE T0), S4 in X. specialize (X Hl).
  destruct (cl_ends s s0 l Cl Hl) as [Y _]. rewrite Y in X. unfold node_names in X. rewrite S2, (cl_nd _ _ Cl) in X. exact X.
Qed.

Lemma needs_demands : demands_fine s.
Proof.
  intros d Hd. split; [|exact (self_demand E k HE s s' d WP Up Hd)]. assert (LF := needs_lsps).
  destruct WP as (N & C & T). destruct (simulated_ex E k s s' Up) as (s1 & s2 & s3 & s4 & Sm).
  destruct (sm_12 _ _ _ _ _ _ _ _ Sm) as (A1 & A2 & A3 & A4 & A5 & A6 & A7 & A8 & _).
  assert (L1 : forall l, lsrc s2 l = lsp_from s l) by (intros l; unfold lsrc, lsp_from; rewrite A1; destruct (A7 l) as (p & a & b & ->); reflexivity).
  assert (D1 : dsrc s2 d = dmd_from s d) by (unfold dsrc, dmd_from; rewrite A1; destruct (A8 d) as (p & ->); reflexivity).
  destruct (route_demand_loop E k _ _ _ _ (sm_loop _ _ _ _ _ _ _ _ Sm)) as (_ & P & _). rewrite A4 in P. specialize (P d Hd). unfold rpath in P.
  destruct (snd (e2e_lsps E k d s2)) as [ls|e] eqn:Ee; [|discriminate P]. cbn [rbind] in P.
  destruct ls as [|l ls].
  - rewrite D1 in P. assert (Pos : costs_positive (make_graph k s2 false 0 false)).
    { intros e He. apply G_edge_any in He as (i & -> & Hi). simpl. rewrite A2 in Hi. destruct (A6 i) as (t & q & ->). now apply C. }
    assert (A := ok_asp E HE (make_graph k s2 false 0 false) (dmd_from s d) (ddst s2 d) Pos).
    apply (graph_known k s s2 0 false); auto.
    + unfold node_names. now rewrite A1, A3.
    + intros i Hi. unfold loc, rem. rewrite A1. destruct (A6 i) as (t & q & ->). auto.
    + destruct (nx_asp E _ (dmd_from s d) (ddst s2 d)); [apply A|apply A|discriminate P].
  - assert (X : In l (m_lsps s2) /\ lsrc s2 l = dsrc s2 d).
    { apply e2e_value in Ee. rewrite (sm_group _ _ _ _ _ _ _ _ _ Sm HE N T Hd) in Ee.
      assert (Y : In l (filter (fun m => String.eqb (lsrc s2 m) (dsrc s2 d) && String.eqb (ldst s2 m) (ddst s2 d)) (m_lsps s2))).
      { destruct (filter _ (m_lsps s2)) as [|c cs] eqn:Fc in Ee |- *; [discriminate Ee|].
        destruct Ee as [[_ Ee]|(ms & m & _ & _ & Ee)]; [discriminate Ee|]. assert (I : In l (l :: ls)) by (left; auto). rewrite Ee in I. apply filter_In in I as [I _]. apply filter_In in I as [I _]. exact I. }
      apply filter_In in Y as [Y1 Y2]. apply andb_true_iff in Y2 as [Y2 _]. apply String.eqb_eq in Y2. auto. }
    destruct X as [X1 X2]. rewrite A5 in X1. rewrite <- D1, <- X2, L1. apply (LF l X1).
Qed.
End Needs.

(** ** Models whose groups are never routed in part *)
Lemma lone_never s : lone s -> never_split s.
Proof.
  intros L s0 order s1 _ _ _ I _ _ l m Hl Hm F T U. rewrite <- (L l m (I l Hl) (I m Hm) F T). exact U.
Qed.

Lemma sum_le (f : nat -> Q) : forall a b, NoDup a -> incl a b -> (forall x, In x b -> (0 <= f x)%Q) -> (Qsum (map f a) <= Qsum (map f b))%Q.
Proof.
  induction a as [|x a IH]; intros b N I P.
  - simpl. clear I. induction b as [|y b IHb]; [apply Qle_refl|]. assert (A := P y (or_introl eq_refl)). assert (B := IHb (fun z Hz => P z (or_intror Hz))). cbn [map Qsum fold_right]. fold (Qsum (map f b)). change (Qsum []) with 0%Q in *. lra.
  - inversion N as [|? ? N1 N2]; subst. destruct (in_split x b (I x (or_introl eq_refl))) as (b1 & b2 & ->).
    assert (Q1 : (Qsum (map f (b1 ++ x :: b2)) == f x + Qsum (map f (b1 ++ b2)))%Q).
    { rewrite !map_app, !Qsum_app. cbn [map Qsum fold_right]. fold (Qsum (map f b2)). ring. }
    rewrite Q1. cbn [map Qsum fold_right]. fold (Qsum (map f a)). apply Qplus_le_r. apply IH; auto.
    + intros y Hy. specialize (I y (or_intror Hy)). apply in_app_iff in I as [I|[I|I]]; apply in_or_app; auto. subst y. contradiction.
    + intros y Hy. apply P. apply in_app_iff in Hy as [Hy|Hy]; apply in_or_app; simpl; auto.
Qed.

Definition roomy (t : st) (rest : Q) : Prop :=
  forall i, In i (m_ifs t) -> i_failed (h_if t i) = false -> i_rsvp (h_if t i) = true -> (reserved_bw t i + rest <= i_cap (h_if t i) * i_pct (h_if t i) / 100)%Q.

Lemma roomy_open t rest bw i : roomy t rest -> tenths bw -> (bw <= rest)%Q -> In i (m_ifs t) -> i_failed (h_if t i) = false -> i_rsvp (h_if t i) = true -> lsp_usable t bw i.
Proof.
  intros R T L Hi Fi Ri. split; [exact Fi|]. split; [exact Ri|]. exists (reservable_bw t i). split; [apply reservable_self|]. unfold reservable_bw. rewrite Ri.
  apply (Qle_trans _ (roundd 10 bw)); [rewrite (roundd_id 10 bw T); apply Qle_refl|]. apply roundd_mono. assert (X := R i Hi Fi Ri). rewrite cap_pct. lra.
Qed.

Lemma roomy_step t l bw rest t1 : signalled t l bw t1 -> tenths bw -> (0 <= bw)%Q -> roomy t (bw + rest) -> roomy t1 rest.
Proof.
  intros S T B R i Hi Fi Ri. assert (F := only_seq _ _ _ (signalled_only _ _ _ _ S)). destruct (qf_sets _ _ F) as (S1 & _). rewrite S1 in Hi. rewrite (qf_if _ _ F i) in Fi, Ri |- *.
  cbn [i_failed i_rsvp i_cap i_pct if_res] in *. assert (X := R i Hi Fi Ri). rewrite (signalled_booked _ _ _ _ i S T). unfold holds.
  destruct S as [(p & S)|S].
  - destruct (so_path _ _ _ _ _ S) as (b & -> & _). destruct (so_bw _ _ _ _ _ S) as [-> _]. destruct (existsb (Nat.eqb i) p); lra.
  - rewrite (sx_path _ _ _ _ S). lra.
Qed.

Lemma roomy_routes order : forall t t', signalling t order t' -> NoDup (map fst order) -> (forall l bw, In (l, bw) order -> tenths bw /\ (0 <= bw)%Q) ->
  roomy t (Qsum (map snd order)) -> forall l p, In l (map fst order) -> road t l p -> ~ unr t' l.
Proof.
  intros t t' Q. induction Q as [s|s m bw tl s1 s' S Q IH]; intros N H R l p Hl Ro; [destruct Hl|]. cbn [map fst snd] in *. inversion N as [|? ? N1 N2]; subst.
  destruct (H m bw (or_introl eq_refl)) as [T B]. assert (F := only_seq _ _ _ (signalled_only _ _ _ _ S)).
  assert (Pos : (0 <= Qsum (map snd tl))%Q).
  { clear -H. assert (X : forall x, In x (map snd tl) -> (0 <= x)%Q) by (intros x Hx; apply in_map_iff in Hx as ([l b] & <- & Hx); apply (H l b); right; auto).
    induction (map snd tl) as [|x xs IHx]; [simpl; lra|]. cbn [Qsum fold_right]. fold (Qsum xs). assert (A := X x (or_introl eq_refl)). assert (C := IHx (fun y Hy => X y (or_intror Hy))). lra. }
  destruct (in_dec Nat.eq_dec l (map fst tl)) as [I|I].
  - apply (IH N2) with (p := p); auto.
    + intros x b Hx. apply (H x b). right; auto.
    + eapply roomy_step; eauto.
    + eapply seq_road; eauto.
  - destruct Hl as [<-|Hl]; [|contradiction]. unfold unr. rewrite (signalling_other _ _ _ _ Q N1). destruct S as [(q & S)|S].
    + destruct (so_path _ _ _ _ _ S) as (b & -> & _). discriminate.
    + exfalso. apply (sx_none _ _ _ _ S p). unfold open_route. eapply route_weaken; [|exact Ro]. intros i Hi [Fi Ri]. eapply roomy_open; eauto.
      cbn [Qsum fold_right]. fold (Qsum (map snd tl)). lra.
Qed.

Section Ample.
Variables (k : kind) (s s0 s1 : st) (order : list (nat * Q)).
Hypothesis LU : lsps_usual k s.
Hypothesis Am : ample s.
Hypothesis Cl : cleared s s0.
Hypothesis Q : signalling s0 order s1.
Hypothesis ND : NoDup (map fst order).
Hypothesis In1 : incl (map fst order) (m_lsps s).
Hypothesis BW : forall l bw, In (l, bw) order -> (bw == wanted s l (equal_share s l))%Q.

Lemma ample_roomy : roomy s0 (Qsum (map snd order)).
Proof.
  intros i Hi Fi Ri. destruct (cl_sets _ _ Cl) as (S1 & _). rewrite S1 in Hi. 
  assert (R0 : (reserved_bw s0 i == 0)%Q) by (unfold reserved_bw; rewrite (cl_if _ _ Cl i Hi); reflexivity).
  rewrite (cl_if _ _ Cl i Hi) in Fi, Ri |- *. cbn [i_failed i_rsvp i_cap i_pct if_res if_traffic] in *. assert (A := Am i Hi Fi Ri). rewrite R0.
  assert (X : (Qsum (map snd order) == Qsum (map (fun l => wanted s l (equal_share s l)) (map fst order)))%Q).
  { clear -BW. induction order as [|[l bw] tl IH]; [reflexivity|]. cbn [map Qsum fold_right fst snd]. fold (Qsum (map snd tl)). fold (Qsum (map (fun l => wanted s l (equal_share s l)) (map fst tl))).
    rewrite (BW l bw) by (left; auto). rewrite IH by (intros; apply BW; right; auto). reflexivity. }
  rewrite X. assert (Y := sum_le (fun l => wanted s l (equal_share s l)) (map fst order) (m_lsps s) ND In1 (wanted_pos k s LU)). lra.
Qed.
Lemma ample_routes l p : In l (map fst order) -> road s0 l p -> ~ unr s1 l.
Proof.
  apply (roomy_routes order s0 s1 Q ND).
  - intros m bw Hm. assert (I : In m (m_lsps s)) by (apply In1; apply in_map_iff; exists (m, bw); auto). split.
    + eapply tenths_eq; [symmetry; exact (BW m bw Hm)|]. apply (lu_tenths _ _ LU), I.
    + rewrite (BW m bw Hm). now apply (wanted_pos k s LU).
  - exact ample_roomy.
Qed.
Lemma cl_road l p : In l (m_lsps s) -> (road s0 l p <-> road s l p).
Proof.
  intros Hl. unfold road, rsvp_up. destruct (cl_ends s s0 l Cl Hl) as [-> ->]. destruct (cl_sets _ _ Cl) as (S1 & _).
  assert (L : forall i, In i (m_ifs s) -> loc s0 i = loc s i /\ rem s0 i = rem s i /\ i_failed (h_if s0 i) = i_failed (h_if s i) /\ i_rsvp (h_if s0 i) = i_rsvp (h_if s i)).
  { intros i Hi. unfold loc, rem. rewrite (cl_nd _ _ Cl), (cl_if _ _ Cl i Hi). auto. }
  split; (induction 1 as [n|i p v Hi [A B] R IH]; [constructor|]).
  - rewrite S1 in Hi. destruct (L i Hi) as (L1 & L2 & L3 & L4). rewrite L1. constructor; [exact Hi|rewrite <- L3, <- L4; auto|rewrite <- L2; exact IH].
  - destruct (L i Hi) as (L1 & L2 & L3 & L4). rewrite <- L1. constructor; [rewrite S1; exact Hi|rewrite L3, L4; auto|rewrite L2; exact IH].
Qed.
End Ample.

Lemma ample_never k s : sig_ready k s -> lsps_usual k s -> ample s -> never_split s.
Proof.
  intros (N & C & NP) LU Am s0 order s1 Cl Q ND I _ BW l m Hl Hm F T U.
  assert (Gd : good k s0).
  { destruct (cl_sets _ _ Cl) as (S1 & _). constructor; rewrite ?S1; auto.
    - intros i Hi. rewrite (cl_if _ _ Cl i Hi). now apply C.
    - intros Hk i j. rewrite S1. intros Hi Hj. unfold loc, rem. rewrite (cl_nd _ _ Cl), (cl_if _ _ Cl i Hi), (cl_if _ _ Cl j Hj). now apply NP. }
  destruct (signalling_roads k s0 order s1 Gd Q ND m Hm) as [X|(p & _ & _ & _ & _ & _ & _ & Ro & _)]; [exact X|]. exfalso.
  apply (ample_routes k s s0 s1 order LU Am Cl Q ND I BW l p Hl); [|exact U].
  apply (cl_road s s0 Cl m p (I m Hm)) in Ro. apply (cl_road s s0 Cl l p (I l Hl)). unfold road in *. now rewrite F, T.
Qed.

(** ** The ways LSPs take when there is room for all *)
Definition same_roads (s t : st) : Prop :=
  m_ifs t = m_ifs s /\ forall i, In i (m_ifs s) -> loc t i = loc s i /\ rem t i = rem s i /\ i_cost (h_if t i) = i_cost (h_if s i) /\ (rsvp_up t i <-> rsvp_up s i).
Lemma roads_sym s t : same_roads s t -> same_roads t s.
Proof. intros [A B]. split; [auto|]. rewrite A. intros i Hi. destruct (B i Hi) as (X1 & X2 & X3 & X4). do 3 (split; [symmetry; assumption|]). symmetry. exact X4. Qed.
Lemma roads_route s t (P Q : nat -> Prop) u p v : same_roads s t -> (forall i, In i (m_ifs s) -> P i -> Q i) -> route s P u p v -> route t Q u p v.
Proof.
  intros [A B] H. induction 1 as [n|i p v Hi O R IH]; [constructor|]. destruct (B i Hi) as (<- & X2 & _). constructor; [now rewrite A|auto|]. rewrite X2. exact IH.
Qed.
Lemma roads_cost s t p : same_roads s t -> (forall i, In i p -> In i (m_ifs s)) -> route_cost t p = route_cost s p.
Proof.
  intros [A B]. induction p as [|i p IH]; intros H; [reflexivity|]. cbn [route_cost]. rewrite IH by (intros; apply H; right; auto). destruct (B i (H i (or_introl eq_refl))) as (_ & _ & -> & _). reflexivity.
Qed.
Lemma roads_least s t (P Q : nat -> Prop) u p v : same_roads s t -> (forall i, In i (m_ifs s) -> (P i <-> Q i)) -> least_cost s P u p v -> least_cost t Q u p v.
Proof.
  intros S H [R M]. split; [refine (roads_route s t P Q u p v S _ R); intros i Hi; now apply H|]. intros q Hq.
  assert (Hq' : route s P u q v). { eapply (roads_route t s); [now apply roads_sym| |exact Hq]. destruct S as [A _]. rewrite A. intros i Hi. now apply H. }
  rewrite (roads_cost s t p S) by (intros i Hi; exact (proj1 (PathProofs.route_in _ _ _ _ _ R i Hi))).
  rewrite (roads_cost s t q S) by (intros i Hi; exact (proj1 (PathProofs.route_in _ _ _ _ _ Hq' i Hi))). auto.
Qed.
Lemma seq_roads s s' : seq_frame s s' -> same_roads s s'.
Proof.
  intros F. split; [apply (qf_sets _ _ F)|]. intros i _. unfold loc, rem, rsvp_up. rewrite (qf_nd _ _ F), (qf_if _ _ F i). simpl. tauto.
Qed.
Lemma cl_roads s s0 : cleared s s0 -> same_roads s s0.
Proof.
  intros Cl. split; [apply (cl_sets _ _ Cl)|]. intros i Hi. unfold loc, rem, rsvp_up. rewrite (cl_nd _ _ Cl), (cl_if _ _ Cl i Hi). simpl. tauto.
Qed.
Lemma best_roads s t l p : same_roads s t -> lsp_from t l = lsp_from s l -> lsp_to t l = lsp_to s l -> best_road s l p -> best_road t l p.
Proof.
  intros S F T [A B]. assert (X : forall i, In i (m_ifs s) -> (rsvp_up s i <-> rsvp_up t i)) by (intros i Hi; symmetry; apply (proj2 S i Hi)).
  assert (Y : forall i, In i (m_ifs t) -> (rsvp_up t i <-> rsvp_up s i)) by (intros i; rewrite (proj1 S); intros Hi; apply (proj2 S i Hi)).
  unfold best_road. rewrite F, T. split; [eapply roads_least; eauto|].
  intros q Hq. apply B. eapply (roads_least t s); [now apply roads_sym|exact Y|exact Hq].
Qed.

Lemma roomy_best order : forall t t', signalling t order t' -> NoDup (map fst order) -> (forall l bw, In (l, bw) order -> tenths bw /\ (0 <= bw)%Q) ->
  roomy t (Qsum (map snd order)) -> forall l p c b, In l (map fst order) -> l_path (h_ls t' l) = PRouted p c b -> best_road t l p /\ c = route_cost t p.
Proof.
  intros t t' Q. induction Q as [s|s m bw tl s1 s' S Q IH]; intros N H R l p c b Hl Pl; [destruct Hl|]. cbn [map fst snd] in *. inversion N as [|? ? N1 N2]; subst.
  destruct (H m bw (or_introl eq_refl)) as [T B]. assert (F := only_seq _ _ _ (signalled_only _ _ _ _ S)).
  assert (Pos : (0 <= Qsum (map snd tl))%Q).
  { clear -H. assert (X : forall x, In x (map snd tl) -> (0 <= x)%Q) by (intros x Hx; apply in_map_iff in Hx as ([l b] & <- & Hx); apply (H l b); right; auto).
    induction (map snd tl) as [|x xs IHx]; [simpl; lra|]. cbn [Qsum fold_right]. fold (Qsum xs). assert (A := X x (or_introl eq_refl)). assert (C := IHx (fun y Hy => X y (or_intror Hy))). lra. }
  destruct (in_dec Nat.eq_dec l (map fst tl)) as [I|I].
  - destruct (IH N2) with (l := l) (p := p) (c := c) (b := b) as [X Y]; auto.
    + intros x y Hx. apply (H x y). right; auto.
    + eapply roomy_step; eauto.
    + assert (SR := seq_roads _ _ F). split.
      * eapply best_roads; [apply roads_sym; exact SR| | |exact X]; unfold lsp_from, lsp_to; rewrite (qf_nd _ _ F), (qf_ls _ _ F l); reflexivity.
      * rewrite Y. apply roads_cost; auto. intros i Hi. destruct X as [[X _] _]. rewrite <- (proj1 SR). exact (proj1 (PathProofs.route_in _ _ _ _ _ X i Hi)).
  - destruct Hl as [<-|Hl]; [|contradiction]. rewrite (signalling_other _ _ _ _ Q N1) in Pl. destruct S as [(q & S)|S].
    + destruct (so_path _ _ _ _ _ S) as (b' & Pq & _). rewrite Pq in Pl. injection Pl as -> <- _. split; [|reflexivity].
      assert (OK : forall i, In i (m_ifs s) -> (lsp_usable s bw i <-> rsvp_up s i)).
      { intros i Hi. split; [intros (A1 & A2 & _); split; auto|]. intros [A1 A2]. eapply roomy_open; eauto. cbn [Qsum fold_right]. fold (Qsum (map snd tl)). lra. }
      assert (SR : same_roads s s) by (split; [reflexivity|]; intros i _; tauto).
      destruct (so_best _ _ _ _ _ S) as [A1 A2]. split; [eapply roads_least; eauto|]. intros r Hr. apply A2. eapply roads_least; [exact SR| |exact Hr]. intros i Hi. symmetry. now apply OK.
    + rewrite (sx_path _ _ _ _ S) in Pl. discriminate.
Qed.

Section Placed.
Variables (E : env) (k : kind).
Hypothesis HE : env_ok E.
Variables s s' : st.
Hypothesis WP : well_posed s.
Hypothesis LU : lsps_usual k s.
Hypothesis EK : ends_known s.
Hypothesis Up : update_simulation E k s = (s', Ok tt).

Lemma up_nopar : k = Perf -> no_parallel s.
Proof.
  intros Hk i j Hi Hj L R. destruct (simulated_ex E k s s' Up) as (s1 & s2 & s3 & s4 & Sm). destruct (sm_12 _ _ _ _ _ _ _ _ Sm) as (B1 & B2 & _ & _ & _ & X & _).
  assert (LF2 : forall i, loc s2 i = loc s i /\ rem s2 i = rem s i) by (intros x; unfold loc, rem; rewrite B1; destruct (X x) as (t & q & ->); auto).
  apply (IgpProofs.sm_nopar E k HE _ _ _ _ _ _ Sm (proj1 WP) Hk i j); rewrite ?B2; auto.
  - destruct (LF2 i) as [-> _], (LF2 j) as [-> _]. exact L.
  - destruct (LF2 i) as [_ ->], (LF2 j) as [_ ->]. exact R.
Qed.

Lemma placed l : ample s -> In l (m_lsps s) ->
  (exists p b q, l_path (h_ls s' l) = PRouted p (route_cost s p) b /\ best_road s l p /\ l_res (h_ls s' l) = RNum q /\ (q == wanted s l (equal_share s l))%Q) \/
  (l_path (h_ls s' l) = PUnrouted /\ l_res (h_ls s' l) = RUnrouted /\ forall p, ~ road s l p).
Proof.
  intros Am Hl. destruct WP as (N & C & T). assert (NS : never_split s) by (apply (ample_never k); auto; split; auto; split; auto; exact up_nopar).
  destruct (update_never E k HE s WP LU (needs_lsps E k HE s s' WP EK Up) up_nopar s' NS Up) as (s0 & order & s2 & Cl & Gd & Q & ND & PM & BW & X).
  assert (Hl' : In l (map fst order)) by (eapply Permutation_in; [apply Permutation_sym; exact PM|exact Hl]).
  assert (In1 : incl (map fst order) (m_lsps s)) by (intros x Hx; eapply Permutation_in; eauto).
  destruct (X l) as [X1 X2]. rewrite X1, X2.
  destruct (signalling_roads k s0 order s2 Gd Q ND l Hl') as [U|(p & c & b & q & A & B & D & Ro & _)].
  - right. split; [exact U|]. split; [exact (signalling_off s0 order s2 Q ND l Hl' U)|]. intros p Rp. apply (ample_routes k s s0 s2 order LU Am Cl Q ND In1 BW l p Hl'); [|exact U]. now apply (cl_road s s0 Cl).
  - left. assert (Pos : forall m bw, In (m, bw) order -> tenths bw /\ (0 <= bw)%Q).
    { intros m bw Hm. assert (I : In m (m_lsps s)) by (apply In1; apply in_map_iff; exists (m, bw); auto). split.
      - eapply tenths_eq; [symmetry; exact (BW m bw Hm)|]. apply (lu_tenths _ _ LU), I.
      - rewrite (BW m bw Hm). now apply (wanted_pos k s LU). }
    destruct (roomy_best order s0 s2 Q ND Pos (ample_roomy k s s0 order LU Am Cl ND In1 BW) l p c b Hl' A) as [Bp Ec].
    assert (SR := cl_roads s s0 Cl). destruct (cl_ends s s0 l Cl Hl) as [E1 E2].
    assert (Bs : best_road s l p) by (eapply best_roads; [apply roads_sym; exact SR| | |exact Bp]; auto).
    exists p, b, q. rewrite <- (roads_cost s s0 p SR) by (intros i Hi; destruct Bs as [[Y _] _]; exact (proj1 (PathProofs.route_in _ _ _ _ _ Y i Hi))). rewrite <- Ec.
    split; [exact A|]. split; [exact Bs|]. split; [exact B|]. exact (BW l q D).
Qed.
End Placed.

Section Exact.
Variables (E : env) (k : kind) (s : st).
Hypothesis HE : env_ok E.
Hypothesis WP : well_posed s.
Hypothesis EK : ends_known s.
Hypothesis CS : cids_set k s.
Hypothesis LU : lsps_usual k s.

Lemma succeeds_never : never_split s -> ((exists s', update_simulation E k s = (s', Ok tt)) <-> demands_fine s /\ lsps_fine s /\ fit k (unreserved s)).
Proof.
  intros NS. split.
  - intros (s' & H). assert (LF := needs_lsps E k HE s s' WP EK H). split; [exact (needs_demands E k HE s s' WP EK H)|]. split; [exact LF|].
    exact (needs_fit E k HE s WP CS LU LF (up_nopar E k HE s s' WP H) s' NS H).
  - intros (D & LF & F). apply (succeeds_lsps E k HE s WP EK CS LU LF); auto. intros Hk. exact (fit_nopar k (unreserved s) Hk F).
Qed.
Lemma succeeds_lone : lone s -> ((exists s', update_simulation E k s = (s', Ok tt)) <-> demands_fine s /\ lsps_fine s /\ fit k (unreserved s)).
Proof. intros L. apply succeeds_never, lone_never, L. Qed.
Lemma succeeds_ample : ample s -> ((exists s', update_simulation E k s = (s', Ok tt)) <-> demands_fine s /\ lsps_fine s /\ fit k (unreserved s)).
Proof.
  intros Am. assert (X : (k = Perf -> no_parallel s) -> never_split s) by (intros NP; apply (ample_never k); auto; split; [apply WP|split; [apply WP|exact NP]]).
  split.
  - intros H. assert (H' := H). destruct H' as (s' & H'). apply succeeds_never; auto. apply X. exact (up_nopar E k HE s s' WP H').
  - intros H. apply succeeds_never; auto. apply X. intros Hk. exact (fit_nopar k (unreserved s) Hk (proj2 (proj2 H))).
Qed.
End Exact.
