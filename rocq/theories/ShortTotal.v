(** ShortTotal.v - shares of a demand whose least-cost routes all take the same
    LSP groups. *)
From Verif Require Import Base Graph Objects Sim Spec SpecSim SpecMetric SpecFlow SpecShort GraphProofs MonadProofs PathProofs RouteProofs LeastProofs MetricProofs Ecmp FlowProofs
  ShortPaths ShortProofs ShortMore ShortFlow.
From Coq Require Import Lqa.

Definition enc (x : item) : nat := match x with IIf i => 2 * i | ILsp l => 2 * l + 1 end.
Definition dec (n : nat) : item := if Nat.even n then IIf (Nat.div2 n) else ILsp (Nat.div2 n).
Lemma dec_enc x : dec (enc x) = x.
Proof.
  destruct x as [i|l]; unfold dec, enc.
  - replace (Nat.even (2 * i)) with true by (symmetry; apply Nat.even_spec; exists i; lia). now rewrite Nat.div2_double.
  - replace (Nat.even (2 * l + 1)) with false; [|symmetry; apply not_true_is_false; intros H; apply Nat.even_spec in H as (m & H); lia].
    replace (2 * l + 1)%nat with (S (2 * l)) by lia. now rewrite Nat.div2_succ_double.
Qed.
Lemma enc_inj x y : enc x = enc y -> x = y.
Proof. intros H. rewrite <- (dec_enc x), <- (dec_enc y). now rewrite H. Qed.
Lemma map_dec_enc q : map dec (map enc q) = q.
Proof. rewrite map_map. rewrite (map_ext _ id); [apply map_id|]. intros x. apply dec_enc. Qed.

Definition arrives (s : st) (x : item) : string := match x with IIf i => rem s i | ILsp l => lsp_to s l end.

Section Rides.
Variable s : st.
Notation ch := (chain (loc s) (rem s)).

Lemma rides_app p1 g1 x p2 g2 y : rides s p1 g1 x -> rides s p2 g2 y -> rides s (p1 ++ p2) (g1 ++ g2) (x ++ y).
Proof.
  intros H H2. induction H as [|i p gs q H IH|i p j p' ls l gs q A1 A2 A3 A4 H IH]; simpl; auto; [now constructor|].
  rewrite <- app_assoc. eapply rides_lsp; eauto.
Qed.
Lemma rides_split x : forall p gs y, rides s p gs (x ++ y) -> exists p1 p2 g1 g2, p = p1 ++ p2 /\ gs = g1 ++ g2 /\ rides s p1 g1 x /\ rides s p2 g2 y.
Proof.
  induction x as [|a x IH]; intros p gs y H; simpl in H.
  - exists [], p, [], gs. split; auto. split; auto. split; [constructor|auto].
  - inversion H as [|i p0 gs0 q0 R0|i p1 j p2 ls0 l gs0 q0 H1 H2 H3 H4 R0]; subst.
    + destruct (IH _ _ _ R0) as (a1 & a2 & b1 & b2 & -> & -> & X & Y). exists (i :: a1), a2, b1, b2. split; auto. split; auto. split; auto. now constructor.
    + destruct (IH _ _ _ R0) as (a1 & a2 & b1 & b2 & -> & -> & X & Y). exists (i :: p1 ++ a1), a2, (ls0 :: b1), b2. split; [simpl; now rewrite app_assoc|]. split; auto. split; auto.
      eapply rides_lsp; eauto.
Qed.
Lemma rides_nodes p gs q : rides s p gs q -> forall u v, ch u p v -> NoDup (u :: map (rem s) p) -> NoDup (u :: map (arrives s) q) /\ forall n, In n (map (arrives s) q) -> In n (map (rem s) p).
Proof.
  induction 1 as [|i p gs q H IH|i p j p' ls l gs q H1 H2 H3 H4 H IH]; intros u v C ND; [simpl; auto| |].
  - apply chain_cons_inv in C as [-> C]. simpl in *. inversion ND as [|? ? N1 N2]; subst. destruct (IH _ _ C N2) as [A B]. split; [constructor; auto|].
    + intros [X|X]; apply N1; [left; exact X|right; auto].
    + intros n [X|X]; auto.
  - change (i :: p ++ p') with ((i :: p) ++ p') in C. apply chain_app_inv in C as (w & C1 & C2).
    assert (W := chain_last_rem _ _ _ _ _ C1). rewrite H2, H3 in W. change (map (rem s) (i :: p ++ p')) with (map (rem s) ((i :: p) ++ p')) in *. rewrite map_app in *.
    assert (Hw : In w (map (rem s) (i :: p))). { rewrite <- W, <- H3, <- H2. apply in_map. destruct (exists_last (l := i :: p)) as (x & k & E); [discriminate|]. rewrite E, last_last. apply in_or_app. right; left; auto. }
    assert (N2 : NoDup (w :: map (rem s) p')).
    { constructor; [|]. - intros X. pose proof (proj2 (proj1 (NoDup_cons_iff _ _) ND)) as N3. apply in_split in Hw as (a & b & Hw). rewrite Hw in N3. rewrite <- app_assoc in N3. apply nodup_app_r in N3. simpl in N3. inversion N3 as [|? ? N4 _]; subst. apply N4. apply in_or_app. auto.
      - pose proof (proj2 (proj1 (NoDup_cons_iff _ _) ND)) as N3. now apply nodup_app_r in N3. }
    destruct (IH _ _ C2 N2) as [A B]. cbn [map arrives]. rewrite W. split.
    + constructor; auto. intros X. pose proof (proj1 (proj1 (NoDup_cons_iff _ _) ND)) as N3. apply N3. destruct X as [<-|X]; apply in_or_app; auto.
    + intros n [<-|X]; apply in_or_app; auto.
Qed.
Lemma leads_chain q : forall u v, leads s u q v <-> chain (fun n => leaves s (dec n)) (fun n => arrives s (dec n)) u (map enc q) v.
Proof.
  induction q as [|x q IH]; intros u v; simpl.
  - split; [intros ->; constructor|]. intros H. now apply chain_nil_inv in H.
  - split.
    + intros H. assert (X : leaves s x = u /\ leads s (arrives s x) q v) by (destruct x; exact H). destruct X as [X Y]. assert (Y' : leads s (arrives s (dec (enc x))) q v) by (now rewrite dec_enc). apply IH in Y'.
      assert (Z := chain_cons (fun n => leaves s (dec n)) (fun n => arrives s (dec n)) (enc x) (map enc q) v Y'). cbv beta in Z. rewrite dec_enc, X in Z. exact Z.
    + intros H. apply chain_cons_inv in H as [X Y]. apply IH in Y. rewrite dec_enc in X, Y. destruct x; auto.
Qed.
Lemma leads_fun q : forall u v v', leads s u q v -> leads s u q v' -> v = v'.
Proof. induction q as [|[i|l] q IH]; simpl; intros u v v' H H'; [congruence| |]; destruct H as [_ H], H' as [_ H']; eauto. Qed.
End Rides.

Section Total.
Variables (s : st) (u v : string) (gs : list (list nat)) (ps : list (list item)) (outs : string -> list item) (T : Q).
Hypothesis Cost : forall i, In i (m_ifs s) -> 1 <= i_cost (h_if s i).
Hypothesis Gf : forall g l l', In g gs -> In l g -> In l' g -> lsp_from s l = lsp_from s l'.
Hypothesis HP : forall q, In q ps <-> exists p, least_cost s (usable s) u p v /\ rides s p gs q.
Hypothesis ND : NoDup ps.
Hypothesis HO : forall n, next_items s ps n (outs n).

Lemma ride_exchange x1 y1 x2 y2 n : In (x1 ++ y1) ps -> In (x2 ++ y2) ps -> leads s u x1 n -> leads s u x2 n -> In (x1 ++ y2) ps.
Proof.
  intros H1 H2 L1 L2. apply HP in H1 as (p1 & C1 & R1). apply HP in H2 as (p2 & C2 & R2).
  destruct (rides_split s x1 _ _ _ R1) as (a1 & b1 & g1 & h1 & -> & G1 & A1 & B1). destruct (rides_split s x2 _ _ _ R2) as (a2 & b2 & g2 & h2 & -> & G2 & A2 & B2).
  assert (M1 : route s (usable s) u a1 n).
  { destruct (route_app_inv _ _ _ _ _ _ (proj1 C1)) as (m & X & _). assert (m = n) by (eapply leads_fun; [eapply rides_leads; [exact A1|eapply route_chain; exact X]|exact L1]). now subst. }
  assert (M2 : route s (usable s) u a2 n).
  { destruct (route_app_inv _ _ _ _ _ _ (proj1 C2)) as (m & X & _). assert (m = n) by (eapply leads_fun; [eapply rides_leads; [exact A2|eapply route_chain; exact X]|exact L2]). now subst. }
  assert (X12 := least_exchange s (usable s) u v n a1 b1 a2 b2 C1 C2 M1 M2). assert (X21 := least_exchange s (usable s) u v n a2 b2 a1 b1 C2 C1 M2 M1).
  apply HP. exists (a1 ++ b2). split; [exact X12|].
  assert (Sep : forall a g h b' g' h', least_cost s (usable s) u (a ++ b') v -> gs = g ++ h -> gs = g' ++ h' -> (exists x, rides s a g x) -> (exists y, rides s b' h' y) ->
     (List.length g <= List.length g')%nat).
  { intros a g h b' g' h' L E E' (x & Rx) (y & Ry). destruct (Nat.le_gt_cases (List.length g) (List.length g')) as [|Lt]; auto. exfalso.
    assert (Z : exists z r, g = g' ++ z :: r).
    { rewrite E in E'. clear - E' Lt. revert g' E' Lt. induction g as [|z g IH]; intros g' E' Lt; [simpl in Lt; lia|]. destruct g' as [|z' g']; [exists z, g; auto|].
      simpl in E', Lt. injection E' as -> E'. destruct (IH g' E') as (z & r & ->); [lia|]. exists z, r. auto. }
    destruct Z as (z & r & Z). assert (Zh : In z h').
    { rewrite E in E'. rewrite Z, <- app_assoc in E'. apply app_inv_head in E'. rewrite <- E'. left; auto. }
    assert (Zg : In z g) by (rewrite Z; apply in_or_app; right; left; auto).
    destruct (rides_from s _ _ _ Rx z Zg) as (l & i & I1 & I2 & I3). destruct (rides_from s _ _ _ Ry z Zh) as (l' & j & J1 & J2 & J3).
    assert (F : loc s i = loc s j) by (rewrite I3, J3; apply (Gf z); auto; rewrite E; apply in_or_app; auto).
    destruct (least_loc_nodup s (usable s) u v Cost _ L) as [N1 _]. rewrite map_app in N1. clear - N1 I2 J2 F. induction a as [|k a IH]; [destruct I2|]. simpl in N1.
    inversion N1 as [|? ? X Y]; subst. destruct I2 as [->|I2]; auto. apply X. apply in_or_app. right. rewrite F. now apply in_map. }
  assert (Lg : List.length g1 = List.length g2).
  { apply Nat.le_antisymm; [eapply (Sep a1 g1 h1 b2 g2 h2)|eapply (Sep a2 g2 h2 b1 g1 h1)]; eauto. }
  assert (G12 : g1 = g2 /\ h1 = h2) by (apply app_inj_length; [congruence|exact Lg]). destruct G12 as [-> ->].
  rewrite G2. apply rides_app; auto.
Qed.

Let W (q : list item) : Q := w (fun n => leaves s (dec n)) (fun n => map enc (outs n)) (map enc q).
Lemma divided_w q : forall t, (item_divided s outs t q == t * W q)%Q.
Proof.
  unfold W. induction q as [|x q IH]; intros t; simpl; [ring|]. rewrite IH. unfold deg. rewrite map_length, dec_enc. unfold Qdiv. ring.
Qed.
Lemma W_total : ps <> [] -> (sumq W ps == 1)%Q.
Proof.
  intros Ne. unfold W. rewrite <- (sumq_map (fun q => w (fun n => leaves s (dec n)) (fun n => map enc (outs n)) q) (map enc) ps).
  apply (shares_total (fun n => leaves s (dec n)) (fun n => arrives s (dec n)) (map (map enc) ps) u v).
  - intros q Hq. apply in_map_iff in Hq as (q0 & <- & Hq). apply leads_chain. apply HP in Hq as (p & L & R). eapply rides_leads; eauto. eapply route_chain; apply L.
  - intros q Hq. apply in_map_iff in Hq as (q0 & <- & Hq). apply HP in Hq as (p & L & R). unfold nodes. rewrite map_map.
    rewrite (map_ext _ (arrives s)) by (intros x; now rewrite dec_enc). eapply rides_nodes; eauto; [eapply route_chain; apply L|]. apply (least_simple s (usable s) Cost _ _ _ L).
  - intros x1 y1 x2 y2 n H1 H2 C1 C2. apply in_map_iff in H1 as (q1 & E1 & H1). apply in_map_iff in H2 as (q2 & E2 & H2).
    apply map_eq_app in E1 as (a1 & b1 & -> & <- & <-). apply map_eq_app in E2 as (a2 & b2 & -> & <- & <-).
    apply leads_chain in C1. apply leads_chain in C2. rewrite <- map_app. apply in_map. eapply ride_exchange; eauto.
  - apply FinFun.Injective_map_NoDup; auto. intros a b H. rewrite <- (map_dec_enc a), <- (map_dec_enc b). now rewrite H.
  - intros n. apply FinFun.Injective_map_NoDup; [|apply HO]. intros a b. apply enc_inj.
  - intros n i. rewrite in_map_iff. split.
    + intros (x & <- & Hx). apply HO in Hx as (A & q & B & C). rewrite dec_enc. split; auto. exists (map enc q). split; now apply in_map.
    + intros (A & q & B & C). apply in_map_iff in B as (q0 & <- & B). apply in_map_iff in C as (x & <- & C). rewrite dec_enc in A. exists x. split; auto. apply HO. eauto.
  - intros X. apply map_eq_nil in X. auto.
Qed.
Lemma ride_total es : ps <> [] -> Forall2 (fun q e => (pi_traffic e == item_divided s outs T q)%Q) ps es -> (total es == T)%Q.
Proof.
  intros Ne F. assert (X : (total es == T * sumq W ps)%Q).
  { unfold total. clear - F. induction F as [|q e ps es H F IH]; [unfold sumq; simpl; ring|]. rewrite sumq_cons. cbn [map Qsum fold_right]. fold (Qsum (map pi_traffic es)). rewrite IH, H, divided_w. ring. }
  rewrite X, W_total by auto. ring.
Qed.
End Total.

Section Done.
Variable E : env.
Hypothesis HE : env_ok E.
Variables s s1 s2 s3 s4 s' : st.
Hypothesis Sm : simulated E Flex s s1 s2 s3 s4 s'.
Hypothesis WP : well_posed s.
Hypothesis Up : update_simulation E Flex s = (s', Ok tt).
Hypothesis St : same_failures s s'.
Hypothesis KU : keys_unique s.
Hypothesis RO : refs_ok s.
Hypothesis NT : node_texts s.
Variables (d : nat) (ps : list (list item)).
Hypothesis Hd : In d (m_dms s).
Hypothesis NL : no_lsp_for s' d.
Hypothesis Pd : d_path (h_dm s' d) = DPaths ps.
(** all least-cost routes visit the same nodes *)
Variable ns : list string.
Hypothesis One : forall p, least_cost s' (usable s') (dmd_from s' d) p (dmd_to s' d) -> route_nodes s' (dmd_from s' d) p = ns.

Lemma one_route : exists gs, picks s' ns gs /\ ps <> [] /\ NoDup ps /\
  forall q, In q ps <-> exists p, least_cost s' (usable s') (dmd_from s' d) p (dmd_to s' d) /\ rides s' p gs q.
Proof.
  destruct (sm_shortcuts E HE s s1 s2 s3 s4 s' Sm WP Up St KU RO NT d ps Hd NL Pd) as (p0 & gs & L0 & P0 & Ne & ND & B).
  rewrite (One p0 L0) in P0. exists gs. split; [exact P0|]. split; [exact Ne|]. split; [exact ND|].
  assert (Cost := sh_cost' E HE s s1 s2 s3 s4 s' Sm WP St).
  assert (NN : NoDup ns) by (rewrite <- (One p0 L0); apply (least_simple s' (usable s') Cost _ _ _ L0)).
  assert (RD : forall p, least_cost s' (usable s') (dmd_from s' d) p (dmd_to s' d) -> exists q, rides s' p gs q).
  { intros p L. apply (picks_ride s' ns gs P0 (dmd_from s' d) p (dmd_to s' d)); [eapply route_chain; apply L|]. exact (One p L). }
  assert (CD : forall q, candidate s' (dmd_from s' d) (dmd_to s' d) gs q <-> exists p, least_cost s' (usable s') (dmd_from s' d) p (dmd_to s' d) /\ rides s' p gs q).
  { intros q. split; [|intros (p & L & R); exists p; auto]. intros (p & L & [R|[_ X]]); [eauto|]. destruct (RD p L) as (q' & Y). destruct (X q' Y). }
  intros q. rewrite <- CD. split; [intros Hq; now apply B in Hq|]. intros Cq.
  destruct ps as [|q0 ps0] eqn:Ep; [congruence|]. rewrite <- Ep in *. assert (H0 : In q0 ps) by (rewrite Ep; left; auto). apply B in H0 as [C0 M0].
  assert (EQ : forall a b c c', candidate s' (dmd_from s' d) (dmd_to s' d) gs a -> candidate s' (dmd_from s' d) (dmd_to s' d) gs b -> path_cost s' a c -> path_cost s' b c' -> c = c').
  { intros a b c c' Ha Hb Ka Kb. apply CD in Ha as (pa & La & Ra). apply CD in Hb as (pb & Lb & Rb).
    assert (Na := One pa La). assert (Nb := One pb Lb). eapply (picks_cost s' ns gs P0 NN (dmd_from s' d) pa pb a b c c' (dmd_to s' d)); eauto.
    - eapply route_chain; apply La.
    - eapply route_chain; apply Lb.
    - apply (hop_costs s' (usable s') (dmd_from s' d) pa pb (dmd_to s' d)); auto. unfold route_nodes in Na, Nb. congruence. }
  destruct (M0 q Cq) as [->|(c0 & c & K0 & K & _)]; [apply B; auto|]. apply B. split; [exact Cq|]. intros q' Cq'.
  right. destruct (M0 q' Cq') as [->|(c1 & c' & _ & K' & _)].
  - exists c, c0. split; auto. split; auto. rewrite (EQ q q0 c c0); auto. lia.
  - exists c, c'. split; auto. split; auto. rewrite (EQ q q' c c'); auto. lia.
Qed.
Lemma one_total : exists es, d_detail (h_dm s' d) = PDInfo es /\ map entry_path es = ps /\ (total es == d_traffic (h_dm s' d))%Q.
Proof.
  destruct one_route as (gs & P & Ne & ND & B). destruct (sc_detail E HE s s1 s2 s3 s4 s' Sm WP Up St KU RO NT d ps Hd NL Pd) as (es & outs & De & HO & F & _).
  exists es. split; [exact De|]. split; [clear - F; induction F as [|q e ps es (A & _) F IH]; simpl; congruence|].
  apply (ride_total s' (dmd_from s' d) (dmd_to s' d) gs ps outs); auto.
  - apply (sh_cost' E HE s s1 s2 s3 s4 s' Sm WP St).
  - intros g l l' Hg Hl Hl'. revert g l l' Hg Hl Hl'. clear - P. induction P as [n0|n0 a m b ls gs Sc Tu Fa Ne ND Hl P IH|n0 m b gs Sc P IH]; intros g l l' Hg A B; [destruct Hg| |eauto].
    destruct Hg as [<-|Hg]; [|eauto]. apply Hl in A as ((_ & A & _) & _). apply Hl in B as ((_ & B & _) & _). congruence.
  - clear - F. induction F as [|q e ps es (_ & _ & _ & A) F IH]; constructor; auto.
Qed.
End Done.
