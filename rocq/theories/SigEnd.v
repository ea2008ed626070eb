(** SigEnd.v - what signalling gives for single calls and for update_simulation, as
    stated in PropertiesSignal. *)
From Verif Require Import Base Graph Objects Sim Spec SpecCkt SpecSim SpecSig GraphProofs MonadProofs RoundProofs ResProofs ObjProofs
  CircuitProofs ValidateProofs GroupProofs PathProofs QuietProofs RouteProofs LeastProofs SigProofs ResigProofs SigSeq IgpProofs SigUpdate ApiProofs.
From Coq Require Import Permutation Lqa.

Lemma reserved_exact s i z : (i_res (h_if s i) == z # 10)%Q -> reserved s i (z # 10).
Proof.
  intros H. apply reserved_iff. unfold reserved_bw. rewrite round1_roundd. symmetry. rewrite roundd_id; [exact H|]. exists z. exact H.
Qed.

Lemma reserved_fun s i r r' : reserved s i r -> reserved s i r' -> (r == r')%Q.
Proof. rewrite !reserved_iff. intros -> ->. reflexivity. Qed.

Lemma ready_good k s : sig_ready k s -> good k s.
Proof. intros (A & B & C). constructor; auto. Qed.

Lemma determine_path E k s l share s' p c b : env_ok E -> sig_ready k s ->
  determine_lsp E k l share s = (s', Ok tt) -> l_path (h_ls s' l) = PRouted p c b ->
  best_route s l (wanted s l share) p /\ c = route_cost s p /\ least_reservable s p b.
Proof.
  intros HE Rd R P. destruct (determine_ok E k HE s l share s' (ready_good _ _ Rd) R) as [_ [(q & S)|S]].
  - destruct (so_path _ _ _ _ _ S) as (b' & P' & B). rewrite P in P'. injection P' as -> -> ->. split; [apply (so_best _ _ _ _ _ S)|auto].
  - rewrite (sx_path _ _ _ _ S) in P. discriminate.
Qed.

Lemma determine_reserves E k s l share s' : env_ok E -> sig_ready k s -> determine_lsp E k l share s = (s', Ok tt) ->
  only_signals s l s' /\ l_setup (h_ls s' l) = RNum (wanted s l share) /\
  forall p c b, l_path (h_ls s' l) = PRouted p c b ->
    l_res (h_ls s' l) = RNum (wanted s l share) /\
    (forall i, In i p -> exists r, reserved s i r /\ (i_res (h_if s' i) == r + wanted s l share)%Q) /\
    (forall i, ~ In i p -> h_if s' i = h_if s i).
Proof.
  intros HE Rd R. destruct (determine_ok E k HE s l share s' (ready_good _ _ Rd) R) as [_ S]. split; [eapply signalled_only; eauto|].
  destruct S as [(q & S)|S].
  - split; [apply (so_bw _ _ _ _ _ S)|]. intros p c b P. destruct (so_path _ _ _ _ _ S) as (b' & P' & B). rewrite P in P'. injection P' as -> -> ->.
    split; [apply (so_bw _ _ _ _ _ S)|]. split; [apply (so_on _ _ _ _ _ S)|apply (so_off _ _ _ _ _ S)].
  - split; [apply (sx_bw _ _ _ _ S)|]. intros p c b P. rewrite (sx_path _ _ _ _ S) in P. discriminate.
Qed.

Lemma signalled_iff s l bw s' : signalled s l bw s' -> (l_path (h_ls s' l) = PUnrouted <-> forall p, ~ open_route s l bw p).
Proof.
  intros [(q & S)|S].
  - destruct (so_path _ _ _ _ _ S) as (b' & P' & B). rewrite P'. split; [discriminate|]. intros X. exfalso. apply (X q). apply (so_best _ _ _ _ _ S).
  - split; intros _; [apply (sx_none _ _ _ _ S)|apply (sx_path _ _ _ _ S)].
Qed.

Lemma determine_unrouted E k s l share : env_ok E -> sig_ready k s ->
  lsp_from s l <> lsp_to s l -> In (lsp_from s l) (node_names s) -> (0 <= wanted s l share)%Q ->
  exists s', determine_lsp E k l share s = (s', Ok tt) /\
    (l_path (h_ls s' l) = PUnrouted <-> forall p, ~ open_route s l (wanted s l share) p) /\
    (l_path (h_ls s' l) = PUnrouted -> l_res (h_ls s' l) = RUnrouted /\ h_if s' = h_if s) /\
    (l_path (h_ls s' l) <> PUnrouted -> exists p c b q, l_path (h_ls s' l) = PRouted p c b /\ l_res (h_ls s' l) = RNum q).
Proof.
  intros HE (A & B & C) Ne Src W. destruct (signal_cases E k HE s l share A B C) as [(_ & s' & R & S)|(s' & e & R & [[X _]|[[X _]|[X _]]])].
  2:{ lra. } 2:{ contradiction. } 2:{ contradiction. }
  exists s'. split; [exact R|]. split; [now apply signalled_iff|]. destruct S as [(q & S)|S].
  - destruct (so_path _ _ _ _ _ S) as (b' & P' & Bb). destruct (so_bw _ _ _ _ _ S) as [Rb _]. rewrite P', Rb. split; [discriminate|]. intros _. eauto 8.
  - split; intros X; [split; [apply (sx_bw _ _ _ _ S)|apply (sx_if _ _ _ _ S)]|]. exfalso. apply X, (sx_path _ _ _ _ S).
Qed.

Lemma update_settled_or E k s s' l : env_ok E -> well_posed s -> update_simulation E k s = (s', Ok tt) -> In l (m_lsps s) ->
  (l_path (h_ls s' l) = PUnrouted /\ l_res (h_ls s' l) = RUnrouted) \/
  (exists p c b q, l_path (h_ls s' l) = PRouted p c b /\ l_res (h_ls s' l) = RNum q).
Proof. intros HE WP R Hl. destruct (proj1 (update_settled E k HE s s' WP R l Hl)) as [X|X]; auto. Qed.

(** *** Sequences *)
Lemma signalling_admission s order s' i : signalling s order s' -> In i (m_ifs s) -> i_rsvp (h_if s i) = true ->
  (exists r, reservable s i r /\ (0 <= r)%Q) ->
  (exists r, reservable s' i r /\ (0 <= r)%Q) /\
  (forall r, reserved s' i r -> (r <= i_cap (h_if s' i) * i_pct (h_if s' i) / 100 + (1 # 20))%Q).
Proof.
  intros Q _ Rs O. apply (open_reservable s i Rs) in O. assert (O' := signalling_open _ _ _ i Q O).
  assert (Rs' : i_rsvp (h_if s' i) = true) by (rewrite (qf_if _ _ (signalling_frame _ _ _ Q) i); exact Rs).
  split; [now apply open_reservable|]. intros r. now apply open_bound.
Qed.

Lemma signalling_sum s order s' i r : signalling s order s' -> NoDup (map fst order) ->
  (forall l bw, In (l, bw) order -> tenths bw) -> reserved s i 0 ->
  reserved s' i r -> (r == booked s' i (map fst order))%Q.
Proof.
  intros Q N T R0 R. apply reserved_iff in R, R0. rewrite R. rewrite (signalling_booked _ _ _ i Q N T). rewrite <- R0. lra.
Qed.

Lemma Qsum_perm l1 l2 : Permutation l1 l2 -> (Qsum l1 == Qsum l2)%Q.
Proof. induction 1; simpl; [reflexivity|rewrite IHPermutation; reflexivity|lra|etransitivity; eauto]. Qed.
Lemma booked_perm s i l1 l2 : Permutation l1 l2 -> (booked s i l1 == booked s i l2)%Q.
Proof. intros P. unfold booked. apply Qsum_perm. now apply Permutation_map. Qed.
Lemma tenths_eq x y : (x == y)%Q -> tenths x -> tenths y.
Proof. intros E [z H]. exists z. now rewrite <- E. Qed.

Lemma cleared_reserved s s0 i : cleared s s0 -> In i (m_ifs s) -> reserved s0 i 0.
Proof.
  intros Cl Hi. apply reserved_iff. unfold reserved_bw. rewrite (cl_if _ _ Cl i Hi). simpl. rewrite round1_roundd. symmetry. apply (roundd_id 10). apply multiple_0.
Qed.

Section Update.
Variables (E : env) (k : kind) (s s' : st).
Hypothesis HE : env_ok E.
Hypothesis WP : well_posed s.
Hypothesis NL : NoDup (m_lsps s).
Hypothesis Tr : forall d, In d (m_dms s) -> (0 <= d_traffic (h_dm s d))%Q.
Hypothesis R : update_simulation E k s = (s', Ok tt).

Lemma end_lsps : m_lsps s' = m_lsps s.
Proof.
  destruct WP as (N & C & T). destruct (simulated_ex E k s s' R) as (s1 & s2 & s3 & s4 & Sm).
  destruct (sm_lsps' _ _ _ _ _ _ _ _ Sm HE N) as (-> & _); destruct (sm_12 _ _ _ _ _ _ _ _ Sm) as (_ & _ & _ & _ & -> & _); reflexivity.
Qed.

Lemma update_admission0 i : all_or_none s' -> same_failures s s' ->
  In i (m_ifs s) -> i_rsvp (h_if s i) = true -> (0 <= i_cap (h_if s i) * i_pct (h_if s i))%Q ->
  (exists r, reservable s' i r /\ (0 <= r)%Q) /\
  (forall r, reserved s' i r -> (r <= i_cap (h_if s i) * i_pct (h_if s i) / 100 + (1 # 20))%Q).
Proof.
  intros AN SF Hi Rs Cp. destruct (update_signalling E k HE s s' WP R NL Tr AN) as (s0 & order & s2 & Cl & Q & _ & _ & _ & Ri).
  specialize (Ri SF i). assert (D0 := cl_if _ _ Cl i Hi). assert (F := qf_if _ _ (signalling_frame _ _ _ Q) i).
  assert (I0 : In i (m_ifs s0)) by (destruct (cl_sets _ _ Cl) as (-> & _); exact Hi).
  assert (Rs0 : i_rsvp (h_if s0 i) = true) by (rewrite D0; exact Rs).
  assert (O0 : exists r, reservable s0 i r /\ (0 <= r)%Q).
  { apply (open_reservable s0 i Rs0). intros _. unfold reservable_bw. rewrite Rs0. unfold reserved_bw. rewrite D0. cbn.
    apply round1_ge0. assert (Z : round1 0 == 0) by (vm_compute; reflexivity). rewrite Z. rewrite cap_pct.
    assert (X : (0 <= i_cap (h_if s i) * i_pct (h_if s i) / 100)%Q) by (apply Qle_shift_div_l; [reflexivity|lra]). lra. }
  destruct (signalling_admission _ _ _ i Q I0 Rs0 O0) as [A B].
  assert (D' : same_if_data (h_if s i) (h_if s' i)) by (pose proof (proj1 (ApiProofs.update_input E k s)) as X; rewrite R in X; apply X).
  destruct D' as (_ & _ & D1 & _ & _ & _ & D2 & D3).
  assert (D4 : i_cap (h_if s2 i) = i_cap (h_if s i) /\ i_pct (h_if s2 i) = i_pct (h_if s i) /\ i_rsvp (h_if s2 i) = i_rsvp (h_if s i)).
  { rewrite F, D0. auto. }
  destruct D4 as (D4 & D5 & D6).
  assert (RR : forall r, reserved s' i r <-> reserved s2 i r) by (intros r; unfold reserved; now rewrite Ri).
  split.
  - destruct A as (r & A1 & A2). exists r. split; auto. unfold reservable in *. rewrite D1, D2, D3. rewrite D4, D5, D6 in A1. rewrite Rs in *.
    destruct A1 as (r0 & A1 & A3). exists r0. split; auto. now apply RR.
  - intros r Hr. apply RR in Hr. specialize (B r Hr). now rewrite D4, D5 in B.
Qed.

Lemma update_sum0 i r : (forall l, In l (m_lsps s) -> tenths (wanted s l (equal_share s l))) ->
  all_or_none s' -> same_failures s s' -> In i (m_ifs s) -> reserved s' i r -> (r == booked s' i (m_lsps s'))%Q.
Proof.
  intros Te AN SF Hi Hr. destruct (update_signalling E k HE s s' WP R NL Tr AN) as (s0 & order & s2 & Cl & Q & Pm & Bw & Ls & Ri).
  specialize (Ri SF i). rewrite end_lsps. rewrite <- (booked_perm s' i _ _ Pm).
  assert (X : booked s' i (map fst order) = booked s2 i (map fst order)).
  { unfold booked. f_equal. apply map_ext. intros l. unfold holds. destruct (Ls l) as (-> & -> & _). reflexivity. }
  rewrite X. apply (signalling_sum s0 order s2 i r Q).
  - eapply Permutation_NoDup; [symmetry; exact Pm|exact NL].
  - intros l bw Hin. eapply tenths_eq; [symmetry; exact (Bw l bw Hin)|]. apply Te. eapply Permutation_in; [exact Pm|]. apply in_map_iff. exists (l, bw). auto.
  - now apply (cleared_reserved s).
  - unfold reserved in *. now rewrite Ri in Hr.
Qed.

Lemma update_setup_bw0 l : In l (m_lsps s) ->
  exists b, l_setup (h_ls s' l) = RNum b /\
    match l_cfg (h_ls s l) with
    | Some c => (b == c)%Q
    | None => (b == equal_share s l)%Q
    end \/
    l_setup (h_ls s' l) = RNum b /\ l_path (h_ls s' l) <> PUnrouted /\
    (exists m, In m (lsps_of s l) /\ l_path (h_ls s' m) = PUnrouted) /\
    (match l_cfg (h_ls s l) with Some c => (c == 0)%Q | None => True end) /\
    (b == traffic_of s l / inject_Z (Z.of_nat (List.length (routed_among s' (lsps_of s l)))))%Q.
Proof.
  intros Hl. destruct (update_setup E k HE s s' WP R l NL Tr Hl) as (b & B1 & B2). exists b. unfold wanted, retried in B2.
  destruct B2 as [B2|(B2 & B3 & B4)].
  - left. split; auto. destruct (l_cfg (h_ls s l)); auto.
  - destruct (l_cfg (h_ls s l)) as [c|].
    + destruct (Qeq_bool c 0) eqn:Z; [|left; auto]. apply Qeq_bool_iff in Z. right. split; [auto|]. split; [auto|]. split; [exact B3|]. split; [exact Z|exact B4].
    + right. split; [auto|]. split; [auto|]. split; [exact B3|]. split; [exact I|exact B4].
Qed.
End Update.

Lemma update_admission E k s s' i : env_ok E -> well_posed s -> NoDup (m_lsps s) ->
  (forall d, In d (m_dms s) -> (0 <= d_traffic (h_dm s d))%Q) ->
  update_simulation E k s = (s', Ok tt) -> all_or_none s' -> same_failures s s' ->
  In i (m_ifs s) -> i_rsvp (h_if s i) = true -> (0 <= i_cap (h_if s i) * i_pct (h_if s i))%Q ->
  (exists r, reservable s' i r /\ (0 <= r)%Q) /\
  (forall r, reserved s' i r -> (r <= i_cap (h_if s i) * i_pct (h_if s i) / 100 + (1 # 20))%Q).
Proof. intros; eapply update_admission0; eauto. Qed.
Lemma update_sum E k s s' i r : env_ok E -> well_posed s -> NoDup (m_lsps s) ->
  (forall d, In d (m_dms s) -> (0 <= d_traffic (h_dm s d))%Q) ->
  (forall l, In l (m_lsps s) -> tenths (wanted s l (equal_share s l))) ->
  update_simulation E k s = (s', Ok tt) -> all_or_none s' -> same_failures s s' ->
  In i (m_ifs s) -> reserved s' i r -> (r == booked s' i (m_lsps s'))%Q.
Proof. intros; eapply update_sum0; eauto. Qed.
Lemma update_setup_bw E k s s' l : env_ok E -> well_posed s -> NoDup (m_lsps s) ->
  (forall d, In d (m_dms s) -> (0 <= d_traffic (h_dm s d))%Q) -> update_simulation E k s = (s', Ok tt) -> In l (m_lsps s) ->
  exists b, l_setup (h_ls s' l) = RNum b /\
    match l_cfg (h_ls s l) with
    | Some c => (b == c)%Q
    | None => (b == equal_share s l)%Q
    end \/
    l_setup (h_ls s' l) = RNum b /\ l_path (h_ls s' l) <> PUnrouted /\
    (exists m, In m (lsps_of s l) /\ l_path (h_ls s' m) = PUnrouted) /\
    (match l_cfg (h_ls s l) with Some c => (c == 0)%Q | None => True end) /\
    (b == traffic_of s l / inject_Z (Z.of_nat (List.length (routed_among s' (lsps_of s l)))))%Q.
Proof. intros; eapply update_setup_bw0; eauto. Qed.

(** *** A model with a single LSP *)
Lemma route_move s s0 (ok ok0 : nat -> Prop) : m_ifs s0 = m_ifs s ->
  (forall i, In i (m_ifs s) -> loc s0 i = loc s i /\ rem s0 i = rem s i /\ (ok i -> ok0 i)) ->
  forall u p v, route s ok u p v -> route s0 ok0 u p v.
Proof.
  intros EI H u p v R. induction R as [n|i p v Hi O R IH]; [constructor|]. destruct (H i Hi) as (A & B & C). rewrite <- A. constructor; [now rewrite EI|auto|now rewrite B].
Qed.
Lemma cost_move s s0 p : (forall i, In i p -> i_cost (h_if s0 i) = i_cost (h_if s i)) -> route_cost s0 p = route_cost s p.
Proof. induction p as [|i p IH]; simpl; intros H; auto. rewrite H, IH; auto. Qed.
Lemma least_move s s0 (ok ok0 : nat -> Prop) : m_ifs s0 = m_ifs s ->
  (forall i, In i (m_ifs s) -> loc s0 i = loc s i /\ rem s0 i = rem s i /\ (ok i <-> ok0 i) /\ i_cost (h_if s0 i) = i_cost (h_if s i)) ->
  forall u p v, least_cost s ok u p v <-> least_cost s0 ok0 u p v.
Proof.
  intros EI H u p v.
  assert (A : forall p, route s ok u p v <-> route s0 ok0 u p v).
  { intros q. split; apply route_move; rewrite ?EI; auto; intros i Hi; destruct (H i Hi) as (X & Y & Z & _); repeat split; auto; tauto. }
  assert (B : forall p, route s ok u p v -> route_cost s0 p = route_cost s p).
  { intros q Q. apply cost_move. intros i Hi. apply H. exact (proj1 (route_in _ _ _ _ _ Q i Hi)). }
  split; intros [R M]; (split; [now apply A|]); intros q Q.
  - apply A in Q. rewrite !B; auto.
  - assert (R' := proj2 (A p) R). rewrite <- !B; auto. apply M. now apply A.
Qed.

Lemma update_single E k s s' l : env_ok E -> well_posed s -> m_lsps s = [l] ->
  (forall d, In d (m_dms s) -> (0 <= d_traffic (h_dm s d))%Q) ->
  (forall i, In i (m_ifs s) -> (i_res (h_if s i) == 0)%Q) ->
  update_simulation E k s = (s', Ok tt) ->
  (l_path (h_ls s' l) = PUnrouted <-> forall p, ~ open_route s l (wanted s l (traffic_of s l)) p) /\
  (forall p c b, l_path (h_ls s' l) = PRouted p c b ->
     best_route s l (wanted s l (traffic_of s l)) p /\ c = route_cost s p /\ least_reservable s p b).
Proof.
  intros HE WP L1 Tr Z R. assert (NL : NoDup (m_lsps s)) by (rewrite L1; repeat constructor; auto).
  assert (L' := end_lsps E k s s' HE WP R).
  assert (AN : all_or_none s') by (intros a b Ha Hb _ _; rewrite L', L1 in Ha, Hb; destruct Ha as [<-|[]], Hb as [<-|[]]; auto).
  destruct (update_signalling E k HE s s' WP R NL Tr AN) as (s0 & order & s2 & Cl & Q & Pm & Bw & Ls & _).
  rewrite L1 in Pm. apply Permutation_sym, Permutation_length_1_inv in Pm.
  destruct order as [|[m bw] [|o order]]; try discriminate Pm. injection Pm as ->.
  inversion Q as [|? ? ? ? x ? S Q2]; subst. inversion Q2; subst. specialize (Bw l bw (or_introl eq_refl)).
  destruct (Ls l) as (Lp & _ & _). rewrite Lp.
  assert (Hl : In l (m_lsps s)) by (rewrite L1; simpl; auto). destruct (cl_ends s s0 l Cl Hl) as [Ef Et].
  assert (Ebw : (bw == wanted s l (traffic_of s l))%Q).
  { rewrite Bw. unfold wanted. destruct (l_cfg (h_ls s l)); [reflexivity|]. unfold equal_share, lsps_of. rewrite L1. simpl. rewrite !String.eqb_refl. simpl. field. }
  set (w := wanted s l (traffic_of s l)) in *.
  assert (EI : m_ifs s0 = m_ifs s) by apply (cl_sets _ _ Cl).
  assert (D : forall i, In i (m_ifs s) -> loc s0 i = loc s i /\ rem s0 i = rem s i /\ i_cost (h_if s0 i) = i_cost (h_if s i)).
  { intros i Hi. unfold loc, rem. rewrite (cl_nd _ _ Cl), (cl_if _ _ Cl i Hi). auto. }
  assert (Rb : forall i r, In i (m_ifs s) -> (reservable s i r <-> reservable s0 i r)).
  { intros i r Hi. rewrite !reservable_iff. unfold reservable_bw, reserved_bw. rewrite (cl_if _ _ Cl i Hi). cbn [i_rsvp i_cap i_pct i_res if_traffic if_res].
    assert (X : round1 (i_res (h_if s i)) = round1 0) by (rewrite !round1_roundd; apply roundd_compat; auto). rewrite X. reflexivity. }
  assert (Us : forall i, In i (m_ifs s) -> (lsp_usable s w i <-> lsp_usable s0 bw i)).
  { intros i Hi. unfold lsp_usable. rewrite (cl_if _ _ Cl i Hi). cbn [i_failed i_rsvp if_traffic if_res].
    assert (X : (exists r, reservable s i r /\ (w <= r)%Q) <-> (exists r, reservable s0 i r /\ (bw <= r)%Q)).
    { split; intros (r & A & B); exists r; (split; [now apply Rb|]); lra. }
    tauto. }
  assert (Lst : forall p, least_cost s (lsp_usable s w) (lsp_from s l) p (lsp_to s l) <-> least_cost s0 (lsp_usable s0 bw) (lsp_from s0 l) p (lsp_to s0 l)).
  { intros p. rewrite Ef, Et. apply least_move; auto. intros i Hi. destruct (D i Hi) as (A & B & C). split; [auto|]. split; [auto|]. split; [now apply Us|auto]. }
  split.
  - rewrite (signalled_iff _ _ _ _ S). 
    assert (X : forall p, open_route s l w p <-> open_route s0 l bw p).
    { intros p. unfold open_route. rewrite Ef, Et. split; apply route_move; rewrite ?EI; auto; intros i Hi; destruct (D i Hi) as (A & B & C); (split; [auto|split; [auto|]]); now apply Us. }
    split; intros Y p O; [apply (Y p)|apply (Y p)]; now apply X.
  - intros p c b P. destruct S as [(q & S)|S]; [|rewrite (sx_path _ _ _ _ S) in P; discriminate].
    destruct (so_path _ _ _ _ _ S) as (b' & P' & B). rewrite P in P'. injection P' as -> -> ->.
    destruct (so_best _ _ _ _ _ S) as [B1 B2].
    assert (Hq : forall i, In i q -> In i (m_ifs s)) by (intros i Hi; rewrite <- EI; exact (proj1 (route_in _ _ _ _ _ (proj1 B1) i Hi))).
    split; [split; [now apply Lst|]|split].
    + intros p' Hp'. apply B2. now apply Lst.
    + apply cost_move. intros i Hi. apply D. auto.
    + destruct B as [(i & Hi & A) M]. split; [exists i; split; auto; apply Rb; auto|]. intros j r Hj Hr. apply (M j r Hj). apply Rb; auto.
Qed.

(** *** Re-signalling *)
Section Resig.
Variables (E : env) (k : kind) (s : st) (l : nat) (bw : Q) (cur : list nat) (c0 : Z) (b0 old : Q) (s' : st).
Hypothesis HE : env_ok E.
Hypothesis Rd : sig_ready k s.
Hypothesis NP : no_parallel s.
Hypothesis Keys : NoDup (map (if_key s) (m_ifs s)).
Hypothesis Path : l_path (h_ls s l) = PRouted cur c0 b0.
Hypothesis Res : l_res (h_ls s l) = RNum old.
Hypothesis Cur : incl cur (m_ifs s).
Hypothesis Nc : NoDup cur.
Hypothesis Ends : lsp_from s l <> lsp_to s l.
Hypothesis R : optimize_lsp E k bw l s = (s', Ok tt).

Lemma resignal0 : (s' = s /\ forall p, ~ route s (own_usable s cur old bw) (lsp_from s l) p (lsp_to s l)) \/
  (exists p, resignalled_on s l cur old bw p s').
Proof. destruct Rd as (A & B & _). eapply resignal; eauto. Qed.
End Resig.

Lemma resignal_path E k s l bw cur c0 b0 old s' : env_ok E -> sig_ready k s -> no_parallel s -> NoDup (map (if_key s) (m_ifs s)) ->
  l_path (h_ls s l) = PRouted cur c0 b0 -> l_res (h_ls s l) = RNum old -> incl cur (m_ifs s) -> NoDup cur ->
  lsp_from s l <> lsp_to s l ->
  optimize_lsp E k bw l s = (s', Ok tt) ->
  (s' = s /\ forall p, ~ route s (own_usable s cur old bw) (lsp_from s l) p (lsp_to s l)) \/
  (exists p b, l_path (h_ls s' l) = PRouted p (route_cost s p) b /\
     least_cost s (own_usable s cur old bw) (lsp_from s l) p (lsp_to s l) /\
     (exists i, In i p /\ own_reservable s cur old i b) /\
     (forall i r, In i p -> own_reservable s cur old i r -> (b <= r)%Q)).
Proof.
  intros HE Rd NP Keys Path Res Cur Nc Ends R. destruct (resignal0 E k s l bw cur c0 b0 old s') as [X|(p & X)]; auto.
  right. destruct (ro_path _ _ _ _ _ _ _ X) as (b & A & B & C). exists p, b. split; [auto|]. split; [apply (ro_least _ _ _ _ _ _ _ X)|auto].
Qed.
Lemma resignal_moves E k s l bw cur c0 b0 old s' p c b : env_ok E -> sig_ready k s -> no_parallel s -> NoDup (map (if_key s) (m_ifs s)) ->
  l_path (h_ls s l) = PRouted cur c0 b0 -> l_res (h_ls s l) = RNum old -> incl cur (m_ifs s) -> NoDup cur ->
  lsp_from s l <> lsp_to s l -> ~ (old == bw)%Q ->
  optimize_lsp E k bw l s = (s', Ok tt) -> l_path (h_ls s' l) = PRouted p c b -> l_res (h_ls s' l) <> l_res (h_ls s l) ->
  only_signals s l s' /\ l_res (h_ls s' l) = RNum bw /\
  forall i, moved cur p old bw i (i_res (h_if s i)) (i_res (h_if s' i)).
Proof.
  intros HE Rd NP Keys Path Res Cur Nc Ends Ne R P Ch. destruct (resignal0 E k s l bw cur c0 b0 old s') as [[-> _]|(q & X)]; auto; [congruence|].
  destruct (ro_path _ _ _ _ _ _ _ X) as (b' & A & _ & _). rewrite P in A. injection A as -> -> ->.
  split; [apply (ro_only _ _ _ _ _ _ _ X)|]. split; [apply (ro_bw _ _ _ _ _ _ _ X)|]. now apply (ro_moved _ _ _ _ _ _ _ X).
Qed.
