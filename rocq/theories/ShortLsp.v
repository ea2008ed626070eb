(** ShortLsp.v - traffic_on_lsp and interface traffic of a FlexModel whose demands
    may use LSPs as shortcuts. *)
From Verif Require Import Base Graph Objects Sim Spec SpecCkt SpecSim SpecMetric SpecFlow SpecShort GraphProofs MonadProofs RoundProofs ResProofs ObjProofs CircuitProofs
  ValidateProofs GroupProofs PathProofs QuietProofs RouteProofs LeastProofs IgpProofs Ecmp TrafficProofs ShareProofs SpecSig SigUpdate MetricProofs FlowProofs UtilProofs
  ShortPaths ShortProofs ShortMore ShortFlow LspTraffic.
From Coq Require Import Lqa.

Lemma mem_lsp s l q : mem_item s (ILsp l) q = existsb (same_item (ILsp l)) q.
Proof. unfold mem_item. induction q as [|[i|m] q IH]; simpl; congruence. Qed.
Lemma existsb_In x q : existsb (same_item x) q = true <-> In x q.
Proof.
  rewrite existsb_exists. split; [intros (y & A & B); apply same_item_eq in B; now subst|]. intros H. exists x. split; [exact H|]. now apply same_item_eq.
Qed.
Lemma with_none x es : (forall e, In e es -> ~ In x (entry_path e)) -> (with_item x es == 0)%Q.
Proof.
  intros H. rewrite with_sum. apply sumq_zero. intros e He. destruct (existsb (same_item x) (entry_path e)) eqn:X; [|reflexivity]. apply existsb_In in X. destruct (H e He X).
Qed.
(** a sum over a larger list, zero outside of the smaller one *)
Lemma sumq_support (f : nat -> Q) ls big : NoDup ls -> NoDup big -> (forall x, In x ls -> In x big) -> (forall x, In x big -> ~ In x ls -> (f x == 0)%Q) ->
  (sumq f big == sumq f ls)%Q.
Proof.
  intros N1 N2 S Z. transitivity (sumq f (filter (fun x => existsb (Nat.eqb x) ls) big)).
  - rewrite sumq_filter. apply sumq_ext. intros x Hx. destruct (existsb (Nat.eqb x) ls) eqn:X; [reflexivity|]. apply Z; auto. intros I.
    assert (existsb (Nat.eqb x) ls = true) by (apply existsb_exists; exists x; split; [exact I|apply Nat.eqb_refl]). congruence.
  - apply sumq_perm. apply NoDup_Permutation; [now apply NoDup_filter|exact N1|]. intros x. rewrite filter_In, existsb_exists. split.
    + intros (_ & y & Y & Ey). apply Nat.eqb_eq in Ey. now subst.
    + intros I. split; auto. exists x. split; [exact I|apply Nat.eqb_refl].
Qed.
Lemma sumq_nonneg {A} (f : A -> Q) l : (forall x, In x l -> (0 <= f x)%Q) -> (0 <= sumq f l)%Q.
Proof. induction l as [|x l IH]; intros H; [discriminate|]. rewrite sumq_cons. assert (A1 := H x (or_introl eq_refl)). assert (A2 := IH (fun y Y => H y (or_intror Y))). lra. Qed.
Lemma sumq_close {A} (f g b : A -> Q) l : (forall x, In x l -> (Qabs (f x - g x) <= b x)%Q) -> (Qabs (sumq f l - sumq g l) <= sumq b l)%Q.
Proof.
  induction l as [|x l IH]; intros H; [discriminate|]. rewrite !sumq_cons. assert (A1 := H x (or_introl eq_refl)). assert (A2 := IH (fun y Y => H y (or_intror Y))).
  apply Qabs_bound in A1. apply Qabs_bound in A2. apply Qabs_bound. lra.
Qed.
Lemma sumq_le {A} (f g : A -> Q) l : (forall x, In x l -> (f x <= g x)%Q) -> (sumq f l <= sumq g l)%Q.
Proof. induction l as [|x l IH]; intros H; [discriminate|]. rewrite !sumq_cons. assert (A1 := H x (or_introl eq_refl)). assert (A2 := IH (fun y Y => H y (or_intror Y))). lra. Qed.

Section Done.
Variable E : env.
Hypothesis HE : env_ok E.
Variables s s1 s2 s3 s4 s' : st.
Hypothesis Sm : simulated E Flex s s1 s2 s3 s4 s'.
Hypothesis WP : well_posed s.
Hypothesis Up : update_simulation E Flex s = (s', Ok tt).
Hypothesis St : same_failures s s'.
Hypothesis KU : keys_unique s.
Hypothesis RO : refs_ok s.
Hypothesis NT : node_texts s.
Let NLs : NoDup (m_lsps s).
Proof. apply (NoDup_map_inv (lsp_key s)). apply KU. Qed.

(** every path of a routed demand has its entry, filed under "items" *)
Lemma detail_flex d ps : In d (m_dms s) -> d_path (h_dm s' d) = DPaths ps ->
  exists es, d_detail (h_dm s' d) = PDInfo es /\ map entry_path es = ps /\ forall e, In e es -> pi_items e = Some (entry_path e).
Proof.
  intros Hd Pd. destruct (lsp_cases E Flex HE _ _ _ _ _ _ Sm WP Up d) as [Ex|NL].
  - destruct (sm_ride E Flex HE _ _ _ _ _ _ Sm WP Up St d Hd NLs Ex) as (ls & Ne & ND & P & Pd' & _ & D). unfold lsp_detail in D.
    eexists. split; [exact D|]. rewrite Pd' in Pd. injection Pd as <-. rewrite map_map. split; [reflexivity|].
    intros e He. apply in_map_iff in He as (m & <- & _). reflexivity.
  - destruct (sc_detail E HE s s1 s2 s3 s4 s' Sm WP Up St KU RO NT d ps Hd NL Pd) as (es & outs & De & _ & F & _). exists es. split; [exact De|]. split.
    + clear - F. induction F as [|q e ps es (A & _) F IH]; simpl; congruence.
    + clear - F. induction F as [|q e ps es (A & B & _) F IH]; intros x X; [destruct X|]. destruct X as [<-|X]; [congruence|auto].
Qed.

Lemma share_flex l d : In d (m_dms s) -> In d (demands_on_lsp s' l) -> exists q, demand_share s' l d = Ok q /\ (q == demand_item s' (ILsp l) d)%Q.
Proof.
  intros Hd Ho. unfold demands_on_lsp in Ho. apply filter_In in Ho as [_ Ho]. unfold demand_item, demand_share.
  destruct (d_path (h_dm s' d)) as [|ps] eqn:Pd; [discriminate Ho|]. destruct (detail_flex d ps Hd Pd) as (es & -> & Pe & It).
  assert (X : forall l0, (forall e, In e l0 -> In e es) -> rmap (fun inf => match pi_items inf with None => Err KeyError | Some its => Ok (if mem_item s' (ILsp l) its then pi_traffic inf else 0%Q) end) l0
     = Ok (map (fun e => if existsb (same_item (ILsp l)) (entry_path e) then pi_traffic e else 0%Q) l0)).
  { induction l0 as [|e l0 IH]; intros Hs; [reflexivity|]. cbn [rmap map]. rewrite IH by (intros; apply Hs; right; auto).
    rewrite (It e) by (apply Hs; left; auto). rewrite mem_lsp. reflexivity. }
  rewrite X by auto. cbn [rbind]. eexists. split; [reflexivity|]. symmetry. apply with_sum.
Qed.
Lemma item_off l d : In d (m_dms s) -> ~ In d (demands_on_lsp s' l) -> (demand_item s' (ILsp l) d == 0)%Q.
Proof.
  intros Hd Ho. unfold demand_item. destruct (d_path (h_dm s' d)) as [|ps] eqn:Pd; [reflexivity|]. destruct (detail_flex d ps Hd Pd) as (es & -> & Pe & It).
  apply with_none. intros e He Hl. apply Ho. unfold demands_on_lsp. apply filter_In. split; [rewrite (done_dms E Flex HE s s' WP Up); exact Hd|]. rewrite Pd.
  apply existsb_exists. exists (entry_path e). split; [rewrite <- Pe; now apply in_map|]. rewrite mem_lsp. now apply existsb_In.
Qed.
Lemma shares_flex l : exists qs, rmap (demand_share s' l) (demands_on_lsp s' l) = Ok qs /\ (Qsum qs == on_item s' (ILsp l))%Q.
Proof.
  assert (G : forall ds, (forall d, In d ds -> In d (m_dms s) /\ In d (demands_on_lsp s' l)) -> exists qs, rmap (demand_share s' l) ds = Ok qs /\ (Qsum qs == sumq (demand_item s' (ILsp l)) ds)%Q).
  { induction ds as [|d ds IH]; intros H; [exists []; split; reflexivity|]. destruct (H d (or_introl eq_refl)) as [H1 H2]. destruct (share_flex l d H1 H2) as (q & Q1 & Q2).
    destruct IH as (qs & R1 & R2); [intros; apply H; right; auto|]. exists (q :: qs). split; [cbn [rmap]; rewrite Q1; cbn [rbind]; rewrite R1; reflexivity|].
    rewrite sumq_cons, <- R2, <- Q2. reflexivity. }
  destruct (G (demands_on_lsp s' l)) as (qs & R1 & R2).
  { intros d Hd. split; [|exact Hd]. unfold demands_on_lsp in Hd. apply filter_In in Hd as [Hd _]. now rewrite (done_dms E Flex HE s s' WP Up) in Hd. }
  exists qs. split; [exact R1|]. rewrite R2. unfold on_item. fold (sumq (demand_item s' (ILsp l)) (m_dms s')). 
  assert (O := fun d H => item_off l d H). revert O. rewrite <- (done_dms E Flex HE s s' WP Up). unfold demands_on_lsp. intros O. rewrite sumq_filter. apply sumq_ext.
  intros d Hd. match goal with |- context [if ?b then _ else _] => destruct b eqn:B end; [reflexivity|]. symmetry. apply O; auto. rewrite filter_In, B. intros [_ X]. discriminate X.
Qed.

Lemma tol_flex l s'' q : In l (m_lsps s) -> traffic_on_lsp E Flex l s' = (s'', Ok q) -> (q == on_item s' (ILsp l))%Q.
Proof.
  intros Hl H. destruct (tol_run E Flex s' l _ (done_group E Flex HE s s' WP Up l Hl)) as (t & _ & R). rewrite R in H. apply (f_equal snd) in H. cbn [snd] in H. clear R t.
  apply rbind_ok in H as (ms & _ & H). apply rbind_ok in H as (m & _ & H). apply rbind_ok in H as (mins & _ & H). destruct (Nat.eqb _ 0); [discriminate H|].
  destruct (shares_flex l) as (qs & R1 & R2). rewrite R1 in H. cbn [rbind] in H. injection H as <-. exact R2.
Qed.
Lemma tol_flex_returns l : In l (m_lsps s) -> routed_lsp s' l -> (forall m, In m (lsps_of s' l) -> routed_lsp s' m -> exists c, 0 < c /\ metric s' m (Some c)) ->
  exists s'' q, traffic_on_lsp E Flex l s' = (s'', Ok q).
Proof.
  intros Hl Rl PM. destruct (tol_reaches E Flex HE s s' WP Up St l Hl Rl PM) as (t & n & _ & ->). destruct (shares_flex l) as (qs & -> & _). cbn [rbind]. eauto.
Qed.

(** one demand on one interface *)
Definition cr (i l : nat) : Q := inject_Z (Z.of_nat (crossings s' i [ILsp l])).
Lemma cr_nonneg i l : (0 <= cr i l)%Q.
Proof. unfold cr. change 0%Q with (inject_Z 0). rewrite <- Zle_Qle. lia. Qed.
Lemma demand_close i d y : In d (m_dms s) -> demand_loads s' d i y ->
  (Qabs (y - (demand_item s' (IIf i) d + sumq (fun l => cr i l * demand_item s' (ILsp l) d) (m_lsps s'))) <= (1 # 20) * sumq (cr i) (m_lsps s'))%Q.
Proof.
  intros Hd H. assert (B : (0 <= sumq (cr i) (m_lsps s'))%Q) by (apply sumq_nonneg; intros; apply cr_nonneg).
  assert (NL' : NoDup (m_lsps s')) by (destruct (done_lsps E Flex HE s s' WP Up) as (-> & _); exact NLs).
  unfold demand_loads in H. unfold demand_item. destruct (d_path (h_dm s' d)) as [|ps] eqn:Pd.
  - rewrite H. rewrite sumq_zero by (intros; ring). apply Qabs_bound. lra.
  - destruct H as (es & De & Pe & H). rewrite De. destruct H as [(Ex & H)|(NL & ls & f & ND & In_ & Rd & H)].
    + destruct (ride_detail E Flex HE _ _ _ _ _ _ Sm WP Up St d Hd NLs Ex) as (ls & es' & _ & ND & Pf & Pd' & De' & Pe' & _).
      assert (es' = es) by congruence. subst es'. assert (Z : (with_item (IIf i) es == 0)%Q).
      { apply with_none. intros e He Hi. assert (I : In (entry_path e) (map entry_path es)) by now apply in_map. rewrite Pe' in I. apply in_map_iff in I as (m & Em & _). rewrite <- Em in Hi. destruct Hi as [X|[]]. discriminate X. }
      assert (X : (carried s' i es == sumq (fun l => cr i l * with_item (ILsp l) es) (m_lsps s'))%Q).
      { transitivity (sumq (fun l => sumq (fun e => cr i l * if existsb (same_item (ILsp l)) (entry_path e) then pi_traffic e else 0) es) (m_lsps s'))%Q.
        - rewrite sumq_swap. unfold carried. apply sumq_ext. intros e He. assert (I : In (entry_path e) (map entry_path es)) by now apply in_map. rewrite Pe' in I.
          apply in_map_iff in I as (m & Em & Hm). rewrite <- Em. apply Pf in Hm as ((Hm & _) & _). fold (cr i m).
          rewrite <- (sumq_pick (m_lsps s') m (fun l => cr i l * pi_traffic e)%Q NL' Hm). apply sumq_ext. intros x _. cbn [existsb same_item]. rewrite orb_false_r. destruct (Nat.eqb x m); ring.
        - apply sumq_ext. intros l _. rewrite sumq_scale. rewrite with_sum. reflexivity. }
      rewrite H, Z, X. apply Qabs_bound. lra.
    + assert (X : (sumq (fun l => cr i l * with_item (ILsp l) es) (m_lsps s') == sumq (fun l => cr i l * with_item (ILsp l) es) ls)%Q).
      { apply sumq_support; auto.
        - intros l Hl. apply In_ in Hl as (q & Hq & Hl). exact (proj1 (sc_items E HE s s1 s2 s3 s4 s' Sm WP Up St KU RO NT d ps Hd NL Pd q (ILsp l) Hq Hl)).
        - intros l _ Hn. rewrite with_none; [ring|]. intros e He Hl. apply Hn. apply In_. exists (entry_path e). split; [rewrite <- Pe; now apply in_map|exact Hl]. }
      assert (Y : (sumq (cr i) ls <= sumq (cr i) (m_lsps s'))%Q).
      { apply Qle_trans with (sumq (fun l => if existsb (Nat.eqb l) ls then cr i l else 0) (m_lsps s'))%Q.
        - rewrite <- sumq_filter. apply Qle_lteq. right. apply sumq_perm. apply NoDup_Permutation; [exact ND|now apply NoDup_filter|]. intros x. rewrite filter_In, existsb_exists. split.
          + intros I. split; [|exists x; split; [exact I|apply Nat.eqb_refl]]. apply In_ in I as (q & Hq & Hl).
            exact (proj1 (sc_items E HE s s1 s2 s3 s4 s' Sm WP Up St KU RO NT d ps Hd NL Pd q (ILsp x) Hq Hl)).
          + intros (_ & z & Hz & Ez). apply Nat.eqb_eq in Ez. now subst.
        - apply sumq_le. intros x _. destruct (existsb _ _); [apply Qle_refl|apply cr_nonneg]. }
      assert (C : (Qabs (sumq (fun l => cr i l * f l) ls - sumq (fun l => cr i l * with_item (ILsp l) es) ls) <= sumq (fun l => (1 # 20) * cr i l) ls)%Q).
      { apply sumq_close. intros l Hl. destruct (Rd l Hl) as (z & _ & Bd & _). change (2 * 10)%positive with 20%positive in Bd. apply Qabs_bound in Bd. 
        assert (P := cr_nonneg i l). setoid_replace (cr i l * f l - cr i l * with_item (ILsp l) es)%Q with (cr i l * (f l - with_item (ILsp l) es))%Q by ring.
        rewrite Qabs_Qmult. rewrite (Qabs_pos (cr i l) P). rewrite Qmult_comm. apply Qmult_le_compat_r; [|exact P]. apply Qabs_bound. lra. }
      rewrite sumq_scale in C. rewrite X, H.
      change (Qsum (map (fun l => inject_Z (Z.of_nat (crossings s' i [ILsp l])) * f l)%Q ls)) with (sumq (fun l => cr i l * f l)%Q ls).
      apply Qabs_bound in C. apply Qabs_bound. lra.
Qed.

Lemma interface_close i : In i (m_ifs s) -> i_failed (h_if s' i) = false ->
  exists q, i_traffic (h_if s' i) = TNum q /\
    (Qabs (q - (on_item s' (IIf i) + Qsum (map (fun l => inject_Z (Z.of_nat (crossings s' i [ILsp l])) * on_item s' (ILsp l)) (m_lsps s')))) <=
       (1 # 20) * inject_Z (Z.of_nat (List.length (m_dms s'))) * lsp_crossings s' i)%Q.
Proof.
  intros Hi F. assert (X := flex_loads E HE s s1 s2 s3 s4 s' Sm WP Up St KU RO NT i Hi). rewrite F in X. destruct X as (q & f & T & L & Q). exists q. split; [exact T|].
  rewrite Q. change (Qsum (map f (m_dms s'))) with (sumq f (m_dms s')). change (lsp_crossings s' i) with (sumq (cr i) (m_lsps s')).
  change (Qsum (map (fun l => inject_Z (Z.of_nat (crossings s' i [ILsp l])) * on_item s' (ILsp l))%Q (m_lsps s'))) with (sumq (fun l => cr i l * on_item s' (ILsp l))%Q (m_lsps s')).
  assert (Y : (on_item s' (IIf i) + sumq (fun l => cr i l * on_item s' (ILsp l)) (m_lsps s') ==
    sumq (fun d => demand_item s' (IIf i) d + sumq (fun l => cr i l * demand_item s' (ILsp l) d) (m_lsps s')) (m_dms s'))%Q).
  { rewrite sumq_plus. apply Qplus_comp; [reflexivity|]. rewrite sumq_swap. apply sumq_ext. intros l _. rewrite sumq_scale. reflexivity. }
  rewrite Y. assert (C := sumq_close f (fun d => demand_item s' (IIf i) d + sumq (fun l => cr i l * demand_item s' (ILsp l) d) (m_lsps s'))%Q (fun _ => (1 # 20) * sumq (cr i) (m_lsps s'))%Q (m_dms s')).
  rewrite sumq_const in C. 
  setoid_replace ((1 # 20) * inject_Z (Z.of_nat (List.length (m_dms s'))) * sumq (cr i) (m_lsps s'))%Q with (inject_Z (Z.of_nat (List.length (m_dms s'))) * ((1 # 20) * sumq (cr i) (m_lsps s')))%Q by ring.
  apply C. intros d Hd. apply demand_close; [now apply (sm_dms_in E Flex HE _ _ _ _ _ _ Sm WP)|]. now apply L.
Qed.
End Done.
