(** PropertiesCut.v - traffic across the border of a region (C113). *)
From Verif Require Import Base Graph Objects Sim Api Build Spec SpecCkt SpecHist SpecSim SpecMetric SpecFlow SpecSig SpecOrder SpecShort SpecTotal SpecWhatIf SpecSame SpecBalance SpecCut Nets RouteProofs
  PropertiesRoute PropertiesTraffic PropertiesSignal PropertiesOrder PropertiesTotal PropertiesShort PropertiesWhatIf PropertiesSame PropertiesBalance LspExact OrderLsps Balance CutProofs.
From Coq Require Import Permutation.

(** ** C113 Traffic across the border of a region *)
(** What leaves region [A] over interfaces is what enters it over interfaces, plus
    the demands that start in it and end elsewhere, less those that end in it and
    start elsewhere. *)
Theorem C113_border E s s' A : env_ok E -> well_posed s -> if_keys_unique s -> NoDup (m_lsps s) ->
  update_simulation E Flex s = (s', Ok tt) -> same_failures s s' -> lsps_whole s' -> (forall d, In d (m_dms s) -> no_shortcuts_for Flex s' d) ->
  (out_of s' A + wants_out s' (rest A) == out_of s' (rest A) + wants_out s' A)%Q.
Proof. intros HE WP KU NL Up St LW NS. exact (cut_net E s s' HE WP KU NL Up St LW NS A). Qed.
Print Assumptions C113_border.

(** The interfaces that lead out of a region carry at least the demands that do. *)
Theorem C113_at_least E s s' A : env_ok E -> well_posed s -> if_keys_unique s -> NoDup (m_lsps s) ->
  update_simulation E Flex s = (s', Ok tt) -> same_failures s s' -> lsps_whole s' -> (forall d, In d (m_dms s) -> no_shortcuts_for Flex s' d) ->
  (forall d, In d (m_dms s) -> (0 <= d_traffic (h_dm s d))%Q) -> (wants_out s' A <= out_of s' A)%Q.
Proof. intros HE WP KU NL Up St LW NS Pos. exact (cut_least E s s' HE WP KU NL Up St LW NS Pos A). Qed.
Print Assumptions C113_at_least.

(** If those demands exceed the capacity out of the region, some interface that leads
    out of it is up and carries more than its capacity. *)
Theorem C113_overload E s s' A : env_ok E -> well_posed s -> if_keys_unique s -> NoDup (m_lsps s) ->
  update_simulation E Flex s = (s', Ok tt) -> same_failures s s' -> lsps_whole s' -> (forall d, In d (m_dms s) -> no_shortcuts_for Flex s' d) ->
  (forall d, In d (m_dms s) -> (0 <= d_traffic (h_dm s d))%Q) -> (room_out s' A < wants_out s' A)%Q ->
  exists i q, In i (m_ifs s') /\ A (loc s' i) = true /\ A (rem s' i) = false /\ i_failed (h_if s' i) = false /\ i_traffic (h_if s' i) = TNum q /\ (i_cap (h_if s' i) < q)%Q.
Proof.
  intros HE WP KU NL Up St LW NS Pos H. destruct (cut_over E s s' HE WP KU NL Up St LW NS Pos A H) as (i & Hi & L & F & C).
  assert (X := C06_flex E s s' i HE WP KU NL Up St NS). rewrite F in X. destruct (fin_sets E Flex s s' Up) as (M1 & _). rewrite <- M1 in X. destruct (X Hi) as (q & T & _).
  unfold SpecWhatIf.traffic_of in C. rewrite T in C. unfold leads_out in L. apply andb_prop in L as [L1 L2]. apply Bool.negb_true_iff in L2. exists i, q. auto 10.
Qed.
Print Assumptions C113_overload.

(** The first holds in a PerformanceModel if every routed demand rides LSPs. *)
Theorem C113_border_perf E s s' A : env_ok E -> well_posed s -> if_keys_unique s -> NoDup (m_lsps s) ->
  update_simulation E Perf s = (s', Ok tt) -> same_failures s s' -> lsps_whole s' ->
  (forall d, In d (m_dms s) -> d_path (h_dm s' d) <> DUnrouted -> rides_lsps s' d) ->
  (out_of s' A + wants_out s' (rest A) == out_of s' (rest A) + wants_out s' A)%Q.
Proof.
  intros HE WP KU NL Up St LW Ri.
  exact (border s' A (SpecWhatIf.traffic_of s') (m_dms s') (routed_traffic s') (fun d Hd => Hd) (fun n => perf_balance E s s' HE WP KU NL LW n Up St Ri)).
Qed.
Print Assumptions C113_border_perf.

(** All three hold with room for all LSPs, and without LSPs. *)
Theorem C113_room E s s' A : env_ok E -> well_posed s -> ends_known s -> cids_set Flex s -> lsps_usual Flex s -> ample s -> ends_agree Flex s -> shortcuts_off s ->
  update_simulation E Flex s = (s', Ok tt) ->
  (out_of s' A + wants_out s' (rest A) == out_of s' (rest A) + wants_out s' A)%Q /\ (wants_out s' A <= out_of s' A)%Q /\
  ((room_out s' A < wants_out s' A)%Q -> exists i q, In i (m_ifs s') /\ A (loc s' i) = true /\ A (rem s' i) = false /\ i_failed (h_if s' i) = false /\
     i_traffic (h_if s' i) = TNum q /\ (i_cap (h_if s' i) < q)%Q).
Proof.
  intros HE WP EK CS LU Am EA Off Up. assert (St := fin_fail E Flex HE s s' WP CS EA Up). assert (NL := lu_once _ _ LU). assert (KU : if_keys_unique s) by exact (lu_ifs _ _ LU).
  assert (LW := C90_whole E Flex s s' HE WP NL (lu_traffic _ _ LU) Up (fin_all E Flex HE s s' WP EK LU Am Up) St).
  assert (NS : forall d, In d (m_dms s) -> no_shortcuts_for Flex s' d) by (intros d _; exact (off_s E Flex s s' Up Off d)).
  assert (Pos := lu_traffic _ _ LU).
  split; [now apply (C113_border E s s' A)|]. split; [now apply (C113_at_least E s s' A)|now apply (C113_overload E s s' A)].
Qed.
Print Assumptions C113_room.
Theorem C113_plain E s s' A : env_ok E -> plain Flex s -> update_simulation E Flex s = (s', Ok tt) ->
  (out_of s' A + wants_out s' (rest A) == out_of s' (rest A) + wants_out s' A)%Q /\
  ((forall d, In d (m_dms s) -> (0 <= d_traffic (h_dm s d))%Q) -> (wants_out s' A <= out_of s' A)%Q /\
     ((room_out s' A < wants_out s' A)%Q -> exists i q, In i (m_ifs s') /\ A (loc s' i) = true /\ A (rem s' i) = false /\ i_failed (h_if s' i) = false /\
        i_traffic (h_if s' i) = TNum q /\ (i_cap (h_if s' i) < q)%Q)).
Proof.
  intros HE (L0 & WP & EK & CS & EA & KU) Up. assert (St := fin_fail E Flex HE s s' WP CS EA Up). destruct (fin_sets E Flex s s' Up) as (_ & _ & _ & M4). rewrite L0 in M4.
  assert (NL : NoDup (m_lsps s)) by (rewrite L0; constructor).
  assert (LW : lsps_whole s') by (intros l p c b Hl; rewrite M4 in Hl; destruct Hl).
  assert (NS : forall d, In d (m_dms s) -> no_shortcuts_for Flex s' d) by (intros d _ _ p a n b m l _ _ _ _ _ Hl; rewrite M4 in Hl; destruct Hl).
  split; [now apply (C113_border E s s' A)|]. intros Pos. split; [now apply (C113_at_least E s s' A)|]. now apply (C113_overload E s s' A).
Qed.
Print Assumptions C113_plain.

(** [ring] of C89 meets the hypotheses of [C113_room]; region A and B of it: the demands
    of 10, 5 and 4 leave, that of 3 enters *)
Definition west (n : string) : bool := String.eqb n "A" || String.eqb n "B".
Example C113_example : let s := ring false in let s' := fst (update_simulation E0 Flex s) in
  snd (update_simulation E0 Flex s) = Ok tt /\ (out_of s' west == 19)%Q /\ (out_of s' (rest west) == 3)%Q /\ (wants_out s' west == 19)%Q /\ (wants_out s' (rest west) == 3)%Q.
Proof. vm_compute. repeat split; reflexivity. Qed.
(** [ringp] (C90_example_perf) in a PerformanceModel *)
Example C113_example_perf : (out_of ringp2 west == 10)%Q /\ (wants_out ringp2 west == 10)%Q /\ (out_of ringp2 (rest west) == 3)%Q /\ (wants_out ringp2 (rest west) == 3)%Q.
Proof. split; [vm_compute; reflexivity|]. split; [vm_compute; reflexivity|]. split; vm_compute; reflexivity. Qed.
(** Traffic may cross the border and come back: the only way from A to B is over C. *)
Definition detour : st := net [nd "A"; nd "B"; nd "C"]
  [itf "ac" 1 20 0 2 1; itf "ca" 1 20 2 0 1; itf "cb" 1 20 2 1 2; itf "bc" 1 20 1 2 2] [dmd 0 1 5 "d0"; dmd 0 2 18 "d1"] [] [].
Definition detour2 : st := fst (update_simulation E0 Flex detour).
Lemma detour_run : update_simulation E0 Flex detour = (detour2, Ok tt). Proof. unfold detour2. apply run_split. vm_compute. reflexivity. Qed.
Lemma detour_plain k : plain k detour.
Proof. split; [reflexivity|]. split; [posed0_tac|]. split; [known_tac|]. split; [cids_tac|]. split; [agree_tac|]. vm_compute; nodup_tac. Qed.
Example C113_example_detour : plain Flex detour /\ update_simulation E0 Flex detour = (detour2, Ok tt) /\
  (out_of detour2 west == 23)%Q /\ (out_of detour2 (rest west) == 5)%Q /\ (wants_out detour2 west == 18)%Q /\ (room_out detour2 west == 40)%Q /\
  (room_out detour2 (String.eqb "A") == 20)%Q /\ (wants_out detour2 (String.eqb "A") == 23)%Q /\ (forall d, In d (m_dms detour) -> (0 <= d_traffic (h_dm detour d))%Q).
Proof.
  split; [exact (detour_plain Flex)|]. split; [exact detour_run|]. do 6 (split; [vm_compute; reflexivity|]). intros d H; vm_compute in H; in_tac; vm_compute; discriminate.
Qed.
(** Enough capacity out of the region does not rule out an overload there. *)
Theorem C113_enough_refuted :
  ~ (forall E s s' A, env_ok E -> plain Flex s -> update_simulation E Flex s = (s', Ok tt) -> (forall d, In d (m_dms s) -> (0 <= d_traffic (h_dm s d))%Q) ->
       (wants_out s' A <= room_out s' A)%Q -> forall i q, In i (m_ifs s') -> A (loc s' i) = true -> A (rem s' i) = false -> i_traffic (h_if s' i) = TNum q -> (q <= i_cap (h_if s' i))%Q).
Proof.
  intros H. assert (X := H E0 detour detour2 west E0_ok (detour_plain Flex) detour_run).
  assert (P : forall d, In d (m_dms detour) -> (0 <= d_traffic (h_dm detour d))%Q) by (clear; intros d H; vm_compute in H; in_tac; vm_compute; discriminate).
  assert (W : (wants_out detour2 west <= room_out detour2 west)%Q) by (clear; vm_compute; discriminate).
  assert (T : exists q, i_traffic (h_if detour2 0) = TNum q /\ (20 < q)%Q) by (clear; eexists; split; [vm_compute; reflexivity|vm_compute; reflexivity]).
  destruct T as (q & T & Q). assert (I : In 0%nat (m_ifs detour2)) by (clear; vm_compute; auto).
  assert (Y := X P W 0%nat q I eq_refl eq_refl T). assert (Z : i_cap (h_if detour2 0) = 20%Q) by (clear; vm_compute; reflexivity). rewrite Z in Y. exact (Qlt_not_le _ _ Q Y).
Qed.
Print Assumptions C113_enough_refuted.
(** In a PerformanceModel both halves of a tenth round to nothing. *)
Theorem C113_perf_refuted :
  ~ (forall E s s' A, env_ok E -> plain Perf s -> update_simulation E Perf s = (s', Ok tt) -> (forall d, In d (m_dms s) -> (0 <= d_traffic (h_dm s d))%Q) -> (wants_out s' A <= out_of s' A)%Q).
Proof.
  intros C. assert (Z := C E0 tri1 tri2p (String.eqb "A") E0_ok (tri1_plain Perf) tri1_perf).
  assert (P : forall d, In d (m_dms tri1) -> (0 <= d_traffic (h_dm tri1 d))%Q) by (clear; intros d H; vm_compute in H; in_tac; vm_compute; discriminate).
  specialize (Z P). clear - Z. vm_compute in Z. apply Z. reflexivity.
Qed.
Print Assumptions C113_perf_refuted.
