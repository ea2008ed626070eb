(** PropertiesData.v - models with the same data (C93), the two classes on one model
    with LSPs (C94), scaling (C95) and memory of past failures (C96), with room for
    all LSPs. *)
From Verif Require Import Base Graph Objects Sim Api Build Spec SpecHist SpecCkt SpecSim SpecMetric SpecSig SpecFlow SpecOrder SpecShort SpecTotal SpecSame SpecFail SpecWhatIf SpecMore SpecData Nets
  PropertiesApi PropertiesRoute PropertiesFail PropertiesOrder PropertiesTotal PropertiesShort PropertiesWhatIf PropertiesSame PropertiesMore MoreLsps DataLsps KindLsps.

(** ** C93 Models with the same data simulate alike *)
Theorem C93_room k s t : same_data k s t -> keys_unique s -> keys_unique t -> with_room k s -> with_room k t.
Proof. intros D Ks Kt R. exact (sd_room k s t D Ks Kt (rm_usual _ _ R) R). Qed.
Print Assumptions C93_room.
Theorem C93_success E E' k s t : env_ok E -> env_ok E' -> same_data k s t -> keys_unique s -> keys_unique t -> with_room k s ->
  ((exists s', update_simulation E k s = (s', Ok tt)) <-> exists t', update_simulation E' k t = (t', Ok tt)).
Proof.
  intros HE HE' D Ks Kt R. split; intros H.
  - exact (sd_succeeds E E' k s t HE HE' D Ks Kt R H).
  - exact (sd_succeeds E' E k t s HE' HE (sd_sym _ _ _ D) Kt Ks (C93_room k s t D Ks Kt R) H).
Qed.
Print Assumptions C93_success.
Theorem C93_lsps E E' k s t s' t' l m : env_ok E -> env_ok E' -> same_data k s t -> keys_unique s -> keys_unique t -> with_room k s ->
  update_simulation E k s = (s', Ok tt) -> update_simulation E' k t = (t', Ok tt) -> In l (m_lsps s) -> In m (m_lsps t) -> lsp_key t m = lsp_key s l ->
  same_fate (l_path (h_ls s' l)) (l_path (h_ls t' m)) /\ same_amount (l_res (h_ls s' l)) (l_res (h_ls t' m)) /\ same_amount (l_setup (h_ls s' l)) (l_setup (h_ls t' m)) /\
  (sole_road s l -> same_named_way s' (l_path (h_ls s' l)) t' (l_path (h_ls t' m))).
Proof. intros HE HE' D Ks Kt R U U'. exact (sd_lsps_same E E' k HE HE' s t s' t' D Ks Kt R U U' l m). Qed.
Print Assumptions C93_lsps.
Theorem C93_paths E E' k s t s' t' d e : env_ok E -> env_ok E' -> same_data k s t -> keys_unique s -> keys_unique t -> with_room k s ->
  update_simulation E k s = (s', Ok tt) -> update_simulation E' k t = (t', Ok tt) -> In d (m_dms s) -> In e (m_dms t) -> dmd_key t e = dmd_key s d ->
  same_routes s' (d_path (h_dm s' d)) t' (d_path (h_dm t' e)).
Proof. intros HE HE' D Ks Kt R U U'. exact (sd_paths E E' k HE HE' s t s' t' D Ks Kt R U U' (rm_off _ _ R) d e). Qed.
Print Assumptions C93_paths.
Theorem C93_traffic E E' k s t s' t' i j : env_ok E -> env_ok E' -> same_data k s t -> keys_unique s -> keys_unique t -> with_room k s ->
  update_simulation E k s = (s', Ok tt) -> update_simulation E' k t = (t', Ok tt) -> In i (m_ifs s) -> In j (m_ifs t) -> if_key t j = if_key s i ->
  (forall d l, In d (m_dms s) -> preferred s' d l -> sole_road s l) ->
  same_traffic (i_traffic (h_if s' i)) (i_traffic (h_if t' j)).
Proof. intros HE HE' D Ks Kt R U U'. exact (sd_traffic E E' k HE HE' s t s' t' D Ks Kt R U U' (rm_off _ _ R) i j). Qed.
Print Assumptions C93_traffic.

(** ** C94 FlexModel and PerformanceModel agree on models with LSPs *)
Theorem C94_lsps E E' s s' t' l : env_ok E -> env_ok E' -> with_room Flex s -> with_room Perf s ->
  update_simulation E Flex s = (s', Ok tt) -> update_simulation E' Perf s = (t', Ok tt) -> In l (m_lsps s) ->
  same_fate (l_path (h_ls s' l)) (l_path (h_ls t' l)) /\ same_amount (l_res (h_ls s' l)) (l_res (h_ls t' l)) /\ same_amount (l_setup (h_ls s' l)) (l_setup (h_ls t' l)) /\
  (sole_road s l -> same_way (l_path (h_ls s' l)) (l_path (h_ls t' l))).
Proof. intros HE HE' Rf Rp U U'. exact (kl_lsps E E' HE HE' s s' t' Rf Rp U U' l). Qed.
Print Assumptions C94_lsps.
Theorem C94_paths E E' s s' t' d : env_ok E -> env_ok E' -> with_room Flex s -> with_room Perf s ->
  update_simulation E Flex s = (s', Ok tt) -> update_simulation E' Perf s = (t', Ok tt) -> In d (m_dms s) ->
  same_paths (d_path (h_dm s' d)) (d_path (h_dm t' d)).
Proof. intros HE HE' Rf Rp U U'. exact (kl_paths E E' HE HE' s s' t' Rf Rp U U' d). Qed.
Print Assumptions C94_paths.
Theorem C94_amounts E E' s s' t' d i x y : env_ok E -> env_ok E' -> with_room Flex s -> with_room Perf s ->
  update_simulation E Flex s = (s', Ok tt) -> update_simulation E' Perf s = (t', Ok tt) -> In d (m_dms s) -> In i (m_ifs s) ->
  (forall l, preferred s' d l -> sole_road s l) -> adds Flex s' d i x -> adds Perf t' d i y ->
  (Qabs (x - y) <= slack s' d)%Q /\ ((exists l, lsp_of s' d l /\ routed_lsp s' l) -> (x == y)%Q).
Proof. intros HE HE' Rf Rp U U'. exact (kl_adds E E' HE HE' s s' t' Rf Rp U U' d i x y). Qed.
Print Assumptions C94_amounts.
Theorem C94_traffic E E' s s' t' i : env_ok E -> env_ok E' -> with_room Flex s -> with_room Perf s ->
  update_simulation E Flex s = (s', Ok tt) -> update_simulation E' Perf s = (t', Ok tt) -> In i (m_ifs s) ->
  (forall d l, In d (m_dms s) -> preferred s' d l -> sole_road s l) ->
  if i_failed (h_if s i) then i_traffic (h_if s' i) = TDown /\ i_traffic (h_if t' i) = TDown
  else exists q r, i_traffic (h_if s' i) = TNum q /\ i_traffic (h_if t' i) = TNum r /\ (Qabs (q - r) <= Qsum (map (slack s') (m_dms s)))%Q.
Proof. intros HE HE' Rf Rp U U'. exact (kl_traffic E E' HE HE' s s' t' Rf Rp U U' i). Qed.
Print Assumptions C94_traffic.
(** exactly, when every demand has a routed LSP between its ends *)
Theorem C94_exact E E' s s' t' i : env_ok E -> env_ok E' -> with_room Flex s -> with_room Perf s ->
  update_simulation E Flex s = (s', Ok tt) -> update_simulation E' Perf s = (t', Ok tt) -> In i (m_ifs s) ->
  (forall d l, In d (m_dms s) -> preferred s' d l -> sole_road s l) -> (forall d, In d (m_dms s) -> exists l, lsp_of s' d l /\ routed_lsp s' l) ->
  same_traffic (i_traffic (h_if s' i)) (i_traffic (h_if t' i)).
Proof. intros HE HE' Rf Rp U U'. exact (kl_exact E E' HE HE' s s' t' Rf Rp U U' i). Qed.
Print Assumptions C94_exact.

(** ** C95 Scaled traffic and scaled costs with LSPs *)
Theorem C95_lsps E E' k z c s t s' t' l : env_ok E -> env_ok E' -> 0 < z -> multiplied z c s t -> NoDup (m_dms s) -> NoDup (m_dms t) -> with_room k s -> with_room k t ->
  update_simulation E k s = (s', Ok tt) -> update_simulation E' k t = (t', Ok tt) -> In l (m_lsps s) ->
  times_fate z (l_path (h_ls s' l)) (l_path (h_ls t' l)) /\ times_amount c (l_res (h_ls s' l)) (l_res (h_ls t' l)) /\ times_amount c (l_setup (h_ls s' l)) (l_setup (h_ls t' l)) /\
  (sole_road s l -> same_hops (l_path (h_ls s' l)) (l_path (h_ls t' l))).
Proof. intros HE HE' Hz M N N' R R' U U'. exact (sl_lsps E E' k z c HE HE' s t s' t' Hz M N N' R R' U U' l). Qed.
Print Assumptions C95_lsps.
Theorem C95_paths E E' k z c s t s' t' d : env_ok E -> env_ok E' -> 0 < z -> multiplied z c s t -> NoDup (m_dms s) -> NoDup (m_dms t) -> with_room k s -> with_room k t ->
  update_simulation E k s = (s', Ok tt) -> update_simulation E' k t = (t', Ok tt) -> In d (m_dms s) ->
  same_paths (d_path (h_dm s' d)) (d_path (h_dm t' d)).
Proof. intros HE HE' Hz M N N' R R' U U'. exact (sl_paths E E' k z c HE HE' s t s' t' Hz M N N' R R' U U' (rm_off _ _ R) (rm_off _ _ R') d). Qed.
Print Assumptions C95_paths.
Theorem C95_traffic E E' k z c s t s' t' i : env_ok E -> env_ok E' -> 0 < z -> multiplied z c s t -> NoDup (m_dms s) -> NoDup (m_dms t) -> with_room k s -> with_room k t ->
  update_simulation E k s = (s', Ok tt) -> update_simulation E' k t = (t', Ok tt) -> k = Flex \/ (c == 1)%Q -> In i (m_ifs s) ->
  (forall d l, In d (m_dms s) -> preferred s' d l -> sole_road s l) ->
  if i_failed (h_if s i) then i_traffic (h_if s' i) = TDown /\ i_traffic (h_if t' i) = TDown
  else exists q r, i_traffic (h_if s' i) = TNum q /\ i_traffic (h_if t' i) = TNum r /\ (r == c * q)%Q.
Proof. intros HE HE' Hz M N N' R R' U U'. exact (sl_traffic E E' k z c HE HE' s t s' t' Hz M N N' R R' U U' (rm_off _ _ R) (rm_off _ _ R') i). Qed.
Print Assumptions C95_traffic.

(** ** C96 Only the present failures matter, also with LSPs *)
Theorem C96_succeeds E k s l : env_ok E -> with_room k s -> always_room s -> wf_net k s -> srlg_sound k s -> consistent k s -> (forall o, In o l -> outage_op s o) ->
  with_room k (run_ops E k l s) /\
  ((exists s', update_simulation E k s = (s', Ok tt)) <-> exists t', update_simulation E k (run_ops E k l s) = (t', Ok tt)).
Proof. intros HE R A W S C H. split; [exact (past_with_room E k s HE R A W S C l H (rm_off _ _ R))|exact (past_succeeds E k s HE R A W S C l H)]. Qed.
Print Assumptions C96_succeeds.
Theorem C96_lsps E E1 E2 k s l1 l2 t1 t2 l : env_ok E -> env_ok E1 -> env_ok E2 -> with_room k s -> always_room s -> wf_net k s -> srlg_sound k s -> consistent k s ->
  (forall o, In o l1 -> outage_op s o) -> (forall o, In o l2 -> outage_op s o) ->
  (forall i, In i (m_ifs s) -> i_failed (h_if (run_ops E k l2 s) i) = i_failed (h_if (run_ops E k l1 s) i)) ->
  update_simulation E1 k (run_ops E k l1 s) = (t1, Ok tt) -> update_simulation E2 k (run_ops E k l2 s) = (t2, Ok tt) -> In l (m_lsps s) ->
  same_fate (l_path (h_ls t1 l)) (l_path (h_ls t2 l)) /\ same_amount (l_res (h_ls t1 l)) (l_res (h_ls t2 l)) /\ same_amount (l_setup (h_ls t1 l)) (l_setup (h_ls t2 l)) /\
  (sole_road (run_ops E k l1 s) l -> same_way (l_path (h_ls t1 l)) (l_path (h_ls t2 l))).
Proof. intros HE H1 H2 R A W S C O1 O2 F U1 U2. exact (past_lsps E k s l1 l2 HE R A W S C O1 O2 F E1 E2 t1 t2 H1 H2 U1 U2 l). Qed.
Print Assumptions C96_lsps.
Theorem C96_results E E1 E2 k s l1 l2 t1 t2 : env_ok E -> env_ok E1 -> env_ok E2 -> with_room k s -> always_room s -> wf_net k s -> srlg_sound k s -> consistent k s ->
  (forall o, In o l1 -> outage_op s o) -> (forall o, In o l2 -> outage_op s o) ->
  (forall i, In i (m_ifs s) -> i_failed (h_if (run_ops E k l2 s) i) = i_failed (h_if (run_ops E k l1 s) i)) ->
  update_simulation E1 k (run_ops E k l1 s) = (t1, Ok tt) -> update_simulation E2 k (run_ops E k l2 s) = (t2, Ok tt) ->
  (forall d, In d (m_dms s) -> same_paths (d_path (h_dm t1 d)) (d_path (h_dm t2 d))) /\
  ((forall d l, In d (m_dms s) -> preferred t1 d l -> sole_road (run_ops E k l1 s) l) -> forall i, In i (m_ifs s) -> same_traffic (i_traffic (h_if t1 i)) (i_traffic (h_if t2 i))).
Proof.
  intros HE H1 H2 R A W S C O1 O2 F U1 U2. split; [exact (past_paths E k s l1 l2 HE R A W S C O1 O2 F E1 E2 t1 t2 H1 H2 U1 U2 (rm_off _ _ R))|].
  intros So i Hi. exact (past_traffic E k s l1 l2 HE R A W S C O1 O2 F E1 E2 t1 t2 H1 H2 U1 U2 (rm_off _ _ R) i Hi So).
Qed.
Print Assumptions C96_results.

(** ** Examples *)
(** [r1m]: the ring r1 (C91) written down in another order, with other circuit
    numbers in a PerformanceModel *)
Definition r1m (k : kind) : st :=
  let c x := match k with Flex => x | Perf => 9 - x end in
  net [nd "C"; nd "D"; nd "A"; nd "B"]
  [itf "dc" 1 100 1 0 (c 4); itf "bc" 1 100 3 0 (c 2); itf "ab" 1 100 2 3 (c 1); itf "ca" 3 100 0 2 (c 3); itf "ba" 1 100 3 2 (c 1); itf "cb" 1 100 0 3 (c 2); itf "ac" 3 100 2 0 (c 3); itf "cd" 1 100 0 1 (c 4)]
  [dmd 3 1 4 "d3"; dmd 2 0 10 "d0"; dmd 1 2 3 "d2"; dmd 2 1 5 "d1"]
  [mkLsp 1 2 "l2" PInit RInit RInit None (Some 7) None; lsp_ 2 0 "l0"; mkLsp 2 0 "l1" PInit RInit RInit (Some 5%Q) None None] [].
Ltac vmr := vm_compute; reflexivity.
Ltac try_one n := exists n; split; [vm_compute; auto 12|first [solve [split; [vmr|]; split; [vmr|]; split; [vmr|]; split; [vmr|]; split; [vmr|]; split; [vmr|]; split; [vmr|]; intros Hk; first [discriminate Hk|vmr]]
  |solve [split; [vmr|]; split; [vm_compute; auto; try reflexivity|vmr]]|solve [split; vmr]]].
Ltac has_tac := split; intros x Hx; vm_compute in Hx; in_tac; first [try_one 0%nat|try_one 1%nat|try_one 2%nat|try_one 3%nat|try_one 4%nat|try_one 5%nat|try_one 6%nat|try_one 7%nat].
Lemma r1m_same k : same_data k r1 (r1m k).
Proof. destruct k; constructor; has_tac. Qed.
Definition r2m : st := fst (update_simulation E0 Flex (r1m Flex)).
Lemma r1m_run : update_simulation E0 Flex (r1m Flex) = (r2m, Ok tt).
Proof. unfold r2m. apply run_split. vm_compute. reflexivity. Qed.
Example C93_example k : same_data k r1 (r1m k) /\ keys_unique r1 /\ keys_unique (r1m k) /\ with_room k r1 /\
  update_simulation E0 Flex r1 = (r2, Ok tt) /\ update_simulation E0 Flex (r1m Flex) = (r2m, Ok tt) /\ (forall l, In l (m_lsps r1) -> sole_road r1 l) /\
  d_path (h_dm r2 1) = DPaths [[IIf 0; IIf 2; IIf 6]]%nat /\ d_path (h_dm r2m 3) = DPaths [[IIf 2; IIf 1; IIf 7]]%nat.
Proof.
  split; [apply r1m_same|]. split; [net_tac|]. split; [destruct k; net_tac|]. split; [apply r1_room|]. split; [exact r1_run|]. split; [exact r1m_run|]. split; [exact r1_sole|]. split; vmr.
Qed.

(** C94: the ring r1 in both classes *)
Definition r2p : st := fst (update_simulation E0 Perf r1).
Lemma r1p_run : update_simulation E0 Perf r1 = (r2p, Ok tt).
Proof. unfold r2p. apply run_split. vm_compute. reflexivity. Qed.
Example C94_example : with_room Flex r1 /\ with_room Perf r1 /\ update_simulation E0 Flex r1 = (r2, Ok tt) /\ update_simulation E0 Perf r1 = (r2p, Ok tt) /\
  (forall l, In l (m_lsps r1) -> sole_road r1 l) /\ l_res (h_ls r2 1) = RNum 5 /\ same_traffic (i_traffic (h_if r2 0)) (TNum 15) /\ same_traffic (i_traffic (h_if r2p 0)) (TNum 15).
Proof.
  split; [apply r1_room|]. split; [apply r1_room|]. split; [exact r1_run|]. split; [exact r1p_run|]. split; [exact r1_sole|]. split; [vmr|]. split; vm_compute; reflexivity.
Qed.

(** C95: the ring r1 with twice the traffic and reservations, and costs and metrics times 3 *)
Definition r1x : st := net [nd "A"; nd "B"; nd "C"; nd "D"]
  [itf "ab" 3 100 0 1 1; itf "ba" 3 100 1 0 1; itf "bc" 3 100 1 2 2; itf "cb" 3 100 2 1 2; itf "ac" 9 100 0 2 3; itf "ca" 9 100 2 0 3; itf "cd" 3 100 2 3 4; itf "dc" 3 100 3 2 4]
  [dmd 0 2 20 "d0"; dmd 0 3 10 "d1"; dmd 3 0 6 "d2"; dmd 1 3 8 "d3"]
  [lsp_ 0 2 "l0"; mkLsp 0 2 "l1" PInit RInit RInit (Some 10%Q) None None; mkLsp 3 0 "l2" PInit RInit RInit None None (Some 21)] [].
Definition r2x : st := fst (update_simulation E0 Flex r1x).
Lemma r1x_run : update_simulation E0 Flex r1x = (r2x, Ok tt).
Proof. unfold r2x. apply run_split. vm_compute. reflexivity. Qed.
Lemma r1x_room : with_room Flex r1x. Proof. room_tac. Qed.
Lemma r1x_times : multiplied 3 2 r1 r1x.
Proof.
  constructor; [intros i; vm_compute; tauto|intros i; vm_compute; tauto|intros i; vm_compute; tauto|intros i H; vm_compute in H; in_tac; (split; [vmr|]; split; [vmr|]; split; [vmr|]; split; vmr)
  |intros i H; vm_compute in H; in_tac; (split; [vmr|]; split; vmr)|intros i H; vm_compute in H; in_tac; (split; [vmr|]; split; [vmr|]; split; vm_compute; try reflexivity; auto)].
Qed.
Example C95_example : multiplied 3 2 r1 r1x /\ NoDup (m_dms r1) /\ NoDup (m_dms r1x) /\ with_room Flex r1 /\ with_room Flex r1x /\
  update_simulation E0 Flex r1 = (r2, Ok tt) /\ update_simulation E0 Flex r1x = (r2x, Ok tt) /\ (forall l, In l (m_lsps r1) -> sole_road r1 l) /\
  same_traffic (i_traffic (h_if r2 0)) (TNum 15) /\ same_traffic (i_traffic (h_if r2x 0)) (TNum 30) /\ l_res (h_ls r2 1) = RNum 5 /\ l_res (h_ls r2x 1) = RNum 10.
Proof.
  split; [exact r1x_times|]. split; [vm_compute; nodup_tac|]. split; [vm_compute; nodup_tac|]. split; [apply r1_room|]. split; [exact r1x_room|]. split; [exact r1_run|]. split; [exact r1x_run|].
  split; [exact r1_sole|]. split; [vm_compute; reflexivity|]. split; [vm_compute; reflexivity|]. split; vmr.
Qed.

(** C96: r1 after D and A-C went down and D came back, against A-C alone *)
Definition m_ops1 : list op := [OpUpdate; OpFailNode "D"; OpUpdate; OpFailIf "ac" "A"; OpUnfailNode "D"; OpUpdate].
Definition m_ops2 : list op := [OpFailIf "ac" "A"].
Definition m1 : st := fst (update_simulation E0 Flex (run_ops E0 Flex m_ops1 r1)).
Definition m2 : st := fst (update_simulation E1 Flex (run_ops E0 Flex m_ops2 r1)).
Lemma m1_run : update_simulation E0 Flex (run_ops E0 Flex m_ops1 r1) = (m1, Ok tt). Proof. unfold m1. apply run_split. vm_compute. reflexivity. Qed.
Lemma m2_run : update_simulation E1 Flex (run_ops E0 Flex m_ops2 r1) = (m2, Ok tt). Proof. unfold m2. apply run_split. vm_compute. reflexivity. Qed.
Example C96_example : with_room Flex r1 /\ always_room r1 /\ wf_net Flex r1 /\ srlg_sound Flex r1 /\ consistent Flex r1 /\
  (forall o, In o m_ops1 -> outage_op r1 o) /\ (forall o, In o m_ops2 -> outage_op r1 o) /\
  (forall i, In i (m_ifs r1) -> i_failed (h_if (run_ops E0 Flex m_ops2 r1) i) = i_failed (h_if (run_ops E0 Flex m_ops1 r1) i)) /\
  update_simulation E0 Flex (run_ops E0 Flex m_ops1 r1) = (m1, Ok tt) /\ update_simulation E1 Flex (run_ops E0 Flex m_ops2 r1) = (m2, Ok tt) /\
  d_path (h_dm m1 2) = DPaths [[ILsp 2]]%nat /\ i_failed (h_if m1 4) = true /\ d_path (h_dm (run_ops E0 Flex [OpUpdate; OpFailNode "D"; OpUpdate] r1) 2) = DUnrouted.
Proof.
  split; [apply r1_room|]. split; [intros i H R; vm_compute in H; in_tac; vm_compute; discriminate|]. destruct r1_wf as (A & B & C). split; [exact A|]. split; [exact B|]. split; [exact C|].
  split; [intros o H; simpl in H; in_tac; exact I|]. split; [intros o H; simpl in H; in_tac; exact I|]. split; [intros i H; vm_compute in H; in_tac; vmr|].
  split; [exact m1_run|]. split; [exact m2_run|]. split; [vmr|]. split; vmr.
Qed.

(** ** Conditions that are needed *)
(** With two equally good ways an LSP takes the one random.choice gives. *)
Lemma same_data_refl k s : same_data k s s.
Proof.
  constructor; (split; intros x Hx; exists x; (split; [exact Hx|])).
  1-2: repeat (split; [reflexivity|]); auto. 1-2: split; reflexivity. 1-2: split; reflexivity.
  1-2: split; [reflexivity|]; split; [unfold same_cfg; destruct (l_cfg (h_ls s x)); reflexivity|reflexivity].
Qed.
Theorem C93_ties_refuted :
  ~ (forall E E' k s t s' t' i j, env_ok E -> env_ok E' -> same_data k s t -> keys_unique s -> keys_unique t -> with_room k s ->
       update_simulation E k s = (s', Ok tt) -> update_simulation E' k t = (t', Ok tt) -> In i (m_ifs s) -> In j (m_ifs t) -> if_key t j = if_key s i ->
       same_traffic (i_traffic (h_if s' i)) (i_traffic (h_if t' j))).
Proof.
  intros H. specialize (H E0 PropertiesSame.E1 Perf square square square0 square1 0%nat 0%nat E0_ok (GraphProofs.env_impl_ok _) (same_data_refl Perf square)).
  assert (K : keys_unique square) by (clear; net_tac). assert (R : with_room Perf square) by (clear; room_tac).
  specialize (H K K R square0_run square1_run (or_introl eq_refl) (or_introl eq_refl) eq_refl). clear -H. vm_compute in H. discriminate H.
Qed.
Print Assumptions C93_ties_refuted.
