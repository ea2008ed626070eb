(** PropertiesSignal.v - theorems about signalling LSPs. *)
From Verif Require Import Base Graph Objects Sim Api Build Spec SpecHist SpecCkt SpecSim SpecSig Nets
  GraphProofs ResProofs RoundProofs PathProofs SigProofs ResigProofs SigSeq SigUpdate SigEnd PropertiesRoute.
From Coq Require Import Permutation.

(** ** C09 A newly signalled LSP takes a least-cost feasible path with fewest hops *)
Theorem C09_path E k s l share s' p c b : env_ok E -> sig_ready k s ->
  determine_lsp E k l share s = (s', Ok tt) -> l_path (h_ls s' l) = PRouted p c b ->
  best_route s l (wanted s l share) p /\ c = route_cost s p /\ least_reservable s p b.
Proof. exact (determine_path E k s l share s' p c b). Qed.
Print Assumptions C09_path.

(** update_simulation signals the LSPs one after the other, each once, when the
    LSPs between any two nodes are all routed or all unrouted in the end. *)
Theorem C09_update E k s s' : env_ok E -> well_posed s -> NoDup (m_lsps s) ->
  (forall d, In d (m_dms s) -> (0 <= d_traffic (h_dm s d))%Q) ->
  update_simulation E k s = (s', Ok tt) -> all_or_none s' ->
  exists s0 order s2, cleared s s0 /\ signalling s0 order s2 /\ Permutation (map fst order) (m_lsps s) /\
    (forall l bw, In (l, bw) order -> (bw == wanted s l (equal_share s l))%Q) /\
    (forall l, l_path (h_ls s' l) = l_path (h_ls s2 l) /\ l_res (h_ls s' l) = l_res (h_ls s2 l) /\
       l_setup (h_ls s' l) = l_setup (h_ls s2 l)) /\
    (same_failures s s' -> forall i, i_res (h_if s' i) = i_res (h_if s2 i)).
Proof. intros HE WP NL Tr R. exact (update_signalling E k HE s s' WP R NL Tr). Qed.
Print Assumptions C09_update.

Ltac posed_tac := clear; split; [vm_compute; nodup_tac|]; split; [intros i X; vm_compute in X; in_tac; vm_compute; discriminate|]; texts_tac.
Lemma flex1_ready k : k = Flex -> sig_ready k flex1.
Proof. intros ->. split; [apply flex1_posed|]. split; [apply flex1_posed|discriminate]. Qed.
Lemma perf1_nopar : no_parallel perf1.
Proof. intros i j Hi Hj. vm_compute in Hi, Hj. in_tac; vm_compute; intros A B; reflexivity || discriminate. Qed.
Lemma perf1_ready k : sig_ready k perf1.
Proof. split; [apply perf1_posed|]. split; [apply perf1_posed|intros _; exact perf1_nopar]. Qed.
Lemma all_tac_flex : all_or_none flex2.
Proof. intros l m Hl Hm _ _. vm_compute in Hl, Hm. in_tac; vm_compute; intros X; discriminate X. Qed.
Lemma all_tac_perf : all_or_none perf2.
Proof. intros l m Hl Hm _ _. vm_compute in Hl, Hm. in_tac; vm_compute; intros X; discriminate X. Qed.
Lemma flex1_traffic d : In d (m_dms flex1) -> (0 <= d_traffic (h_dm flex1 d))%Q.
Proof. intros H. vm_compute in H. in_tac; vm_compute; discriminate. Qed.
Lemma perf1_traffic d : In d (m_dms perf1) -> (0 <= d_traffic (h_dm perf1 d))%Q.
Proof. intros H. vm_compute in H. in_tac; vm_compute; discriminate. Qed.

Example C09_example_flex : sig_ready Flex flex1 /\ snd (determine_lsp E0 Flex 0 3 flex1) = Ok tt /\
  l_path (h_ls (fst (determine_lsp E0 Flex 0 3 flex1)) 0) = PRouted [1%nat] 1 100.0.
Proof. split; [now apply flex1_ready|]. split; vm_compute; reflexivity. Qed.
Example C09_example_perf : sig_ready Perf perf1 /\ snd (determine_lsp E0 Perf 0 3 perf1) = Ok tt /\
  l_path (h_ls (fst (determine_lsp E0 Perf 0 3 perf1)) 0) = PRouted [1%nat] 1 100.0.
Proof. split; [apply perf1_ready|]. split; vm_compute; reflexivity. Qed.
Example C09_example_update : well_posed flex1 /\ NoDup (m_lsps flex1) /\
  (forall d, In d (m_dms flex1) -> (0 <= d_traffic (h_dm flex1 d))%Q) /\
  update_simulation E0 Flex flex1 = (flex2, Ok tt) /\ all_or_none flex2 /\ same_failures flex1 flex2.
Proof.
  split; [exact flex1_posed|]. split; [vm_compute; nodup_tac|]. split; [exact flex1_traffic|].
  split; [exact flex12_run|]. split; [exact all_tac_flex|exact flex12_same].
Qed.

(** ** C10 An LSP is left Unrouted exactly when no feasible path exists *)
Theorem C10_unrouted E k s l share : env_ok E -> sig_ready k s ->
  lsp_from s l <> lsp_to s l -> In (lsp_from s l) (node_names s) -> (0 <= wanted s l share)%Q ->
  exists s', determine_lsp E k l share s = (s', Ok tt) /\
    (l_path (h_ls s' l) = PUnrouted <-> forall p, ~ open_route s l (wanted s l share) p) /\
    (l_path (h_ls s' l) = PUnrouted -> l_res (h_ls s' l) = RUnrouted /\ h_if s' = h_if s) /\
    (l_path (h_ls s' l) <> PUnrouted -> exists p c b q, l_path (h_ls s' l) = PRouted p c b /\ l_res (h_ls s' l) = RNum q).
Proof. exact (determine_unrouted E k s l share). Qed.
Print Assumptions C10_unrouted.

(** after update_simulation every LSP is Unrouted or has a path and a reservation *)
Theorem C10_update_settled E k s s' l : env_ok E -> well_posed s -> update_simulation E k s = (s', Ok tt) -> In l (m_lsps s) ->
  (l_path (h_ls s' l) = PUnrouted /\ l_res (h_ls s' l) = RUnrouted) \/
  (exists p c b q, l_path (h_ls s' l) = PRouted p c b /\ l_res (h_ls s' l) = RNum q).
Proof. exact (update_settled_or E k s s' l). Qed.
Print Assumptions C10_update_settled.

(** the only LSP of a model: routed or not as the network without reservations allows *)
Theorem C10_single E k s s' l : env_ok E -> well_posed s -> m_lsps s = [l] ->
  (forall d, In d (m_dms s) -> (0 <= d_traffic (h_dm s d))%Q) ->
  (forall i, In i (m_ifs s) -> (i_res (h_if s i) == 0)%Q) ->
  update_simulation E k s = (s', Ok tt) ->
  (l_path (h_ls s' l) = PUnrouted <-> forall p, ~ open_route s l (wanted s l (traffic_of s l)) p) /\
  (forall p c b, l_path (h_ls s' l) = PRouted p c b ->
     best_route s l (wanted s l (traffic_of s l)) p /\ c = route_cost s p /\ least_reservable s p b).
Proof. exact (update_single E k s s' l). Qed.
Print Assumptions C10_single.

Example C10_example : sig_ready Flex flex1 /\ lsp_from flex1 0 <> lsp_to flex1 0 /\ In (lsp_from flex1 0) (node_names flex1) /\
  (0 <= wanted flex1 0 200)%Q /\ l_path (h_ls (fst (determine_lsp E0 Flex 0 200 flex1)) 0) = PUnrouted /\
  l_path (h_ls (fst (determine_lsp E0 Flex 0 100 flex1)) 0) <> PUnrouted.
Proof.
  split; [now apply flex1_ready|]. split; [vm_compute; discriminate|]. split; [vm_compute; auto|].
  split; [vm_compute; discriminate|]. split; vm_compute; [reflexivity|discriminate].
Qed.
Definition one1 : st := net [nd "A"; nd "B"; nd "C"]
  [itf "ab" 2 20 0 1 1; itf "ba" 2 20 1 0 1; itf "ac" 1 20 0 2 2; itf "ca" 1 20 2 0 2; itf "cb" 1 20 2 1 3; itf "bc" 1 20 1 2 3]
  [dmd 0 1 10 "d"] [lsp_ 0 1 "l0"] [].
Lemma one1_posed : well_posed one1.
Proof. split; [vm_compute; nodup_tac|]. split; [intros i H; vm_compute in H; in_tac; vm_compute; discriminate|]. texts_tac. Qed.
Example C10_example_single : well_posed one1 /\ m_lsps one1 = [0%nat] /\
  (forall i, In i (m_ifs one1) -> (i_res (h_if one1 i) == 0)%Q) /\
  snd (update_simulation E0 Perf one1) = Ok tt /\
  l_path (h_ls (fst (update_simulation E0 Perf one1)) 0) = PRouted [0%nat] 2 20.0.
Proof.
  split; [exact one1_posed|]. split; [reflexivity|]. split; [intros i H; vm_compute in H; in_tac; reflexivity|].
  split; vm_compute; reflexivity.
Qed.

(** ** C11 Signalling an LSP reserves exactly its bandwidth on exactly its path *)
Theorem C11_reserves E k s l share s' : env_ok E -> sig_ready k s -> determine_lsp E k l share s = (s', Ok tt) ->
  only_signals s l s' /\ l_setup (h_ls s' l) = RNum (wanted s l share) /\
  forall p c b, l_path (h_ls s' l) = PRouted p c b ->
    l_res (h_ls s' l) = RNum (wanted s l share) /\
    (forall i, In i p -> exists r, reserved s i r /\ (i_res (h_if s' i) == r + wanted s l share)%Q) /\
    (forall i, ~ In i p -> h_if s' i = h_if s i).
Proof. exact (determine_reserves E k s l share s'). Qed.
Print Assumptions C11_reserves.
Example C11_example : sig_ready Perf perf1 /\ snd (determine_lsp E0 Perf 0 3 perf1) = Ok tt /\
  l_path (h_ls (fst (determine_lsp E0 Perf 0 3 perf1)) 0) = PRouted [1%nat] 1 100.0 /\
  (i_res (h_if (fst (determine_lsp E0 Perf 0 3 perf1)) 1) == 3)%Q.
Proof. split; [apply perf1_ready|]. split; [|split]; vm_compute; reflexivity. Qed.

(** ** C12 Admission control keeps reservable bandwidth non-negative *)
Theorem C12_admission s order s' i : signalling s order s' -> In i (m_ifs s) -> i_rsvp (h_if s i) = true ->
  (exists r, reservable s i r /\ (0 <= r)%Q) ->
  (exists r, reservable s' i r /\ (0 <= r)%Q) /\
  (forall r, reserved s' i r -> (r <= i_cap (h_if s' i) * i_pct (h_if s' i) / 100 + (1 # 20))%Q).
Proof. exact (signalling_admission s order s' i). Qed.
Print Assumptions C12_admission.

Theorem C12_update E k s s' i : env_ok E -> well_posed s -> NoDup (m_lsps s) ->
  (forall d, In d (m_dms s) -> (0 <= d_traffic (h_dm s d))%Q) ->
  update_simulation E k s = (s', Ok tt) -> all_or_none s' -> same_failures s s' ->
  In i (m_ifs s) -> i_rsvp (h_if s i) = true -> (0 <= i_cap (h_if s i) * i_pct (h_if s i))%Q ->
  (exists r, reservable s' i r /\ (0 <= r)%Q) /\
  (forall r, reserved s' i r -> (r <= i_cap (h_if s i) * i_pct (h_if s i) / 100 + (1 # 20))%Q).
Proof. exact (update_admission E k s s' i). Qed.
Print Assumptions C12_update.

Example C12_example : In 1%nat (m_ifs flex1) /\ i_rsvp (h_if flex1 1) = true /\
  (0 <= i_cap (h_if flex1 1) * i_pct (h_if flex1 1))%Q /\ (i_res (h_if flex2 1) == 6)%Q.
Proof. split; [vm_compute; auto|]. split; [reflexivity|]. split; [vm_compute; discriminate|vm_compute; reflexivity]. Qed.

(** the slack is real *)
Definition itfp (name : string) (pct : Q) (a b : nat) (c : Z) : iface :=
  mkIface name 1 100 a b (CInt c) (TNum 0) false 0 [] true pct false.
Definition lspc (a b : nat) (name : string) (c : Q) : lsp := mkLsp a b name PInit RInit RInit (Some c) None None.
Theorem C12_never_overbooked_refuted :
  ~ (forall E k s s' i r, env_ok E -> well_posed s -> update_simulation E k s = (s', Ok tt) -> In i (m_ifs s) ->
       reserved s' i r -> (r <= i_cap (h_if s i) * i_pct (h_if s i) / 100)%Q).
Proof.
  set (n := net [nd "A"; nd "B"] [itfp "ab1" 99.96 0 1 1; itfp "ba1" 99.96 1 0 1] [] [lspc 0 1 "l1" 100] []).
  intros H. specialize (H E0 Flex n (fst (update_simulation E0 Flex n)) 0%nat (1000 # 10)%Q E0_ok).
  assert (P : well_posed n) by posed_tac.
  assert (R : update_simulation E0 Flex n = (fst (update_simulation E0 Flex n), Ok tt)) by (apply run_split; vm_compute; reflexivity).
  assert (D : (i_res (h_if (fst (update_simulation E0 Flex n)) 0) == 1000 # 10)%Q) by (vm_compute; reflexivity).
  specialize (H P R). assert (I : In 0%nat (m_ifs n)) by (vm_compute; auto). specialize (H I).
  specialize (H (reserved_exact _ _ _ D)). vm_compute in H. apply H. reflexivity.
Qed.
Print Assumptions C12_never_overbooked_refuted.

(** ** C13 Interface reservations equal the sum of LSP reservations *)
Theorem C13_sequence s order s' i r : signalling s order s' -> NoDup (map fst order) ->
  (forall l bw, In (l, bw) order -> tenths bw) -> reserved s i 0 ->
  reserved s' i r -> (r == booked s' i (map fst order))%Q.
Proof. exact (signalling_sum s order s' i r). Qed.
Print Assumptions C13_sequence.

Theorem C13_update E k s s' i r : env_ok E -> well_posed s -> NoDup (m_lsps s) ->
  (forall d, In d (m_dms s) -> (0 <= d_traffic (h_dm s d))%Q) ->
  (forall l, In l (m_lsps s) -> tenths (wanted s l (equal_share s l))) ->
  update_simulation E k s = (s', Ok tt) -> all_or_none s' -> same_failures s s' ->
  In i (m_ifs s) -> reserved s' i r -> (r == booked s' i (m_lsps s'))%Q.
Proof. exact (update_sum E k s s' i r). Qed.
Print Assumptions C13_update.
Example C13_example : (forall l, In l (m_lsps flex1) -> tenths (wanted flex1 l (equal_share flex1 l))) /\
  (booked flex2 1 (m_lsps flex2) == 6)%Q.
Proof.
  split; [intros l H; vm_compute in H; in_tac; exists 30; vm_compute; reflexivity|vm_compute; reflexivity].
Qed.

(** Bandwidths of 0.5 and 0.25: the order decides whether update_simulation
    raises, and when it does not the interface holds less than the LSPs. *)
Definition half_quarter (ls : list lsp) : st := net [nd "A"; nd "B"] [itf "ab" 1 20 0 1 1; itf "ba" 1 20 1 0 1] [] ls [].
Theorem C13_any_bandwidth_refuted :
  ~ (forall E k s s' i r, env_ok E -> well_posed s -> NoDup (m_lsps s) -> update_simulation E k s = (s', Ok tt) -> In i (m_ifs s) ->
       reserved s' i r -> (r == booked s' i (m_lsps s'))%Q).
Proof.
  set (n := half_quarter [lspc 0 1 "l0" 0.25; lspc 0 1 "l1" 0.5]).
  intros H. specialize (H E0 Flex n (fst (update_simulation E0 Flex n)) 0%nat (7 # 10)%Q E0_ok).
  assert (P : well_posed n) by posed_tac.
  assert (N : NoDup (m_lsps n)) by (clear; vm_compute; nodup_tac).
  assert (R : update_simulation E0 Flex n = (fst (update_simulation E0 Flex n), Ok tt)) by (apply run_split; vm_compute; reflexivity).
  assert (I : In 0%nat (m_ifs n)) by (vm_compute; auto).
  assert (D : (i_res (h_if (fst (update_simulation E0 Flex n)) 0) == 7 # 10)%Q) by (vm_compute; reflexivity).
  specialize (H P N R I (reserved_exact _ _ _ D)).
  assert (B : (booked (fst (update_simulation E0 Flex n)) 0 (m_lsps (fst (update_simulation E0 Flex n))) == 3 # 4)%Q) by (vm_compute; reflexivity).
  assert (Y := Qeq_trans _ _ _ H B). vm_compute in Y. discriminate Y.
Qed.
Print Assumptions C13_any_bandwidth_refuted.
Theorem C13_order_irrelevant_refuted :
  ~ (forall E k ls ls', env_ok E -> Permutation ls ls' -> well_posed (half_quarter ls) -> well_posed (half_quarter ls') ->
       snd (update_simulation E k (half_quarter ls)) = Ok tt -> snd (update_simulation E k (half_quarter ls')) = Ok tt).
Proof.
  intros H. specialize (H E0 Perf [lspc 0 1 "l0" 0.25; lspc 0 1 "l1" 0.5] [lspc 0 1 "l1" 0.5; lspc 0 1 "l0" 0.25] E0_ok (perm_swap _ _ _)).
  assert (X : snd (update_simulation E0 Perf (half_quarter [lspc 0 1 "l1" 0.5; lspc 0 1 "l0" 0.25])) = Ok tt).
  { apply H; [posed_tac|posed_tac|vm_compute; reflexivity]. }
  vm_compute in X. discriminate X.
Qed.
Print Assumptions C13_order_irrelevant_refuted.

(** ** C14 Setup bandwidth follows configuration or equal share *)
Theorem C14_setup E k s s' l : env_ok E -> well_posed s -> NoDup (m_lsps s) ->
  (forall d, In d (m_dms s) -> (0 <= d_traffic (h_dm s d))%Q) -> update_simulation E k s = (s', Ok tt) -> In l (m_lsps s) ->
  exists b, l_setup (h_ls s' l) = RNum b /\
    match l_cfg (h_ls s l) with
    | Some c => (b == c)%Q
    | None => (b == equal_share s l)%Q
    end \/
    (* re-signalled because some but not all LSPs between the nodes are routed *)
    l_setup (h_ls s' l) = RNum b /\ l_path (h_ls s' l) <> PUnrouted /\
    (exists m, In m (lsps_of s l) /\ l_path (h_ls s' m) = PUnrouted) /\
    (match l_cfg (h_ls s l) with Some c => (c == 0)%Q | None => True end) /\
    (b == traffic_of s l / inject_Z (Z.of_nat (List.length (routed_among s' (lsps_of s l)))))%Q.
Proof. exact (update_setup_bw E k s s' l). Qed.
Print Assumptions C14_setup.
Example C14_example : In 0%nat (m_lsps flex1) /\ l_cfg (h_ls flex1 0) = None /\ (equal_share flex1 0 == 3)%Q.
Proof. split; [vm_compute; auto|]. split; vm_compute; reflexivity. Qed.
(** a group of three of which two fit: they end with half of the traffic each *)
Definition part1 : st := net [nd "A"; nd "B"]
  [itf "ab1" 1 20 0 1 1; itf "ba1" 1 20 1 0 1; itf "ab2" 1 20 0 1 2; itf "ba2" 1 20 1 0 2]
  [dmd 0 1 36 "d"] [lsp_ 0 1 "l0"; lsp_ 0 1 "l1"; lsp_ 0 1 "l2"] [].
Example C14_example_part : snd (update_simulation E0 Flex part1) = Ok tt /\
  map (fun l => l_setup (h_ls (fst (update_simulation E0 Flex part1)) l)) [0%nat; 1%nat; 2%nat] = [RNum (36#2); RNum (36#2); RNum (36#3)].
Proof. split; vm_compute; reflexivity. Qed.

(** an LSP with configured bandwidth can end with another reservation *)
Theorem C14_reserves_configured_refuted :
  ~ (forall E k s s' l c q, env_ok E -> well_posed s -> NoDup (m_lsps s) -> update_simulation E k s = (s', Ok tt) -> In l (m_lsps s) ->
       l_cfg (h_ls s l) = Some c -> l_res (h_ls s' l) = RNum q -> (q == c)%Q).
Proof.
  set (n := net [nd "A"; nd "B"] [itf "ab" 2 20 0 1 1; itf "ba" 2 20 1 0 1] [dmd 0 1 8 "d"] [lspc 0 1 "l0" 10; lspc 0 1 "l1" 50] []).
  intros H. specialize (H E0 Flex n (fst (update_simulation E0 Flex n)) 0%nat 10%Q 8%Q E0_ok).
  assert (P : well_posed n) by posed_tac.
  assert (N : NoDup (m_lsps n)) by (clear; vm_compute; nodup_tac).
  assert (R : update_simulation E0 Flex n = (fst (update_simulation E0 Flex n), Ok tt)) by (apply run_split; vm_compute; reflexivity).
  assert (I : In 0%nat (m_lsps n)) by (vm_compute; auto).
  assert (D : l_res (h_ls (fst (update_simulation E0 Flex n)) 0) = RNum 8) by (vm_compute; reflexivity).
  specialize (H P N R I eq_refl D). vm_compute in H. discriminate H.
Qed.
Print Assumptions C14_reserves_configured_refuted.

(** ** C15 Re-signalling keeps LSP paths contiguous and unfailed (without parallel links) *)
Theorem C15_path E k s l bw cur c0 b0 old s' : env_ok E -> sig_ready k s -> no_parallel s -> NoDup (map (if_key s) (m_ifs s)) ->
  l_path (h_ls s l) = PRouted cur c0 b0 -> l_res (h_ls s l) = RNum old -> incl cur (m_ifs s) -> NoDup cur ->
  lsp_from s l <> lsp_to s l ->
  optimize_lsp E k bw l s = (s', Ok tt) ->
  (s' = s /\ forall p, ~ route s (own_usable s cur old bw) (lsp_from s l) p (lsp_to s l)) \/
  (exists p b, l_path (h_ls s' l) = PRouted p (route_cost s p) b /\
     least_cost s (own_usable s cur old bw) (lsp_from s l) p (lsp_to s l) /\
     (exists i, In i p /\ own_reservable s cur old i b) /\
     (forall i r, In i p -> own_reservable s cur old i r -> (b <= r)%Q)).
Proof. exact (resignal_path E k s l bw cur c0 b0 old s'). Qed.
Print Assumptions C15_path.

Definition one2 : st := fst (update_simulation E0 Perf one1).
Lemma one2_ready k : sig_ready k one2 /\ no_parallel one2 /\ NoDup (map (if_key one2) (m_ifs one2)).
Proof.
  assert (N : no_parallel one2).
  { intros i j Hi Hj. vm_compute in Hi, Hj. in_tac; vm_compute; intros A B; reflexivity || discriminate. }
  split; [split; [vm_compute; nodup_tac|split; [intros i X; vm_compute in X; in_tac; vm_compute; discriminate|intros _; exact N]]|].
  split; [exact N|vm_compute; nodup_tac].
Qed.
Example C15_example k : sig_ready k one2 /\ no_parallel one2 /\ NoDup (map (if_key one2) (m_ifs one2)) /\
  l_path (h_ls one2 0) = PRouted [0%nat] 2 20.0 /\ l_res (h_ls one2 0) = RNum 10 /\ incl [0%nat] (m_ifs one2) /\
  lsp_from one2 0 <> lsp_to one2 0 /\
  snd (optimize_lsp E0 Perf 15 0 one2) = Ok tt /\
  l_res (h_ls (fst (optimize_lsp E0 Perf 15 0 one2)) 0) = RNum 15.
Proof.
  destruct (one2_ready k) as (A & B & C). split; [exact A|]. split; [exact B|]. split; [exact C|].
  split; [vm_compute; reflexivity|]. split; [vm_compute; reflexivity|]. split; [intros x [<-|[]]; vm_compute; auto|].
  split; [vm_compute; discriminate|]. split; vm_compute; reflexivity.
Qed.

(** FlexModel with parallel links: not contiguous *)
Theorem C15_flex_contiguous_refuted :
  ~ (forall E s s' l p c b, env_ok E -> well_posed s -> NoDup (m_lsps s) -> update_simulation E Flex s = (s', Ok tt) -> In l (m_lsps s) ->
       l_path (h_ls s' l) = PRouted p c b -> exists ok, route s' ok (lsp_from s' l) p (lsp_to s' l)).
Proof.
  set (n := net [nd "A"; nd "B"]
  [itf "ab1" 1 20 0 1 1; itf "ba1" 1 20 1 0 1; itf "ab2" 5 40 0 1 2; itf "ba2" 5 40 1 0 2]
  [dmd 0 1 20 "d"] [lsp_ 0 1 "l0"; lspc 0 1 "l1" 50] []).
  intros H. specialize (H E0 n (fst (update_simulation E0 Flex n)) 0%nat [0%nat; 2%nat] 6 (400 # 20)%Q E0_ok).
  assert (P : well_posed n) by posed_tac.
  assert (N : NoDup (m_lsps n)) by (clear; vm_compute; nodup_tac).
  assert (R : update_simulation E0 Flex n = (fst (update_simulation E0 Flex n), Ok tt)) by (apply run_split; vm_compute; reflexivity).
  assert (I : In 0%nat (m_lsps n)) by (vm_compute; auto).
  assert (D : l_path (h_ls (fst (update_simulation E0 Flex n)) 0) = PRouted [0%nat; 2%nat] 6 (400 # 20)) by (vm_compute; reflexivity).
  destruct (H P N R I D) as [ok Rt]. apply route_cons_inv in Rt as (_ & _ & _ & Rt). apply route_cons_inv in Rt as (Rt & _).
  vm_compute in Rt. discriminate Rt.
Qed.
Print Assumptions C15_flex_contiguous_refuted.

(** FlexModel: a failed parallel interface gets into the path, and adding traffic
    to it then raises TypeError. *)
Definition itff (name : string) (cost : Z) (cap : Q) (a b : nat) (c : Z) : iface :=
  mkIface name cost cap a b (CInt c) (TNum 0) true 0 [] true 100 false.
Theorem C15_flex_avoids_failed_refuted :
  ~ (forall E s l bw s' p c b i, env_ok E -> sig_ready Flex s -> NoDup (map (if_key s) (m_ifs s)) -> 
       lsp_from s l <> lsp_to s l -> (exists s0, update_simulation E Flex s0 = (s, Ok tt)) ->
       optimize_lsp E Flex bw l s = (s', Ok tt) -> l_path (h_ls s' l) = PRouted p c b -> In i p -> i_failed (h_if s i) = false).
Proof.
  set (n := net [nd "A"; nd "B"]
  [itf "ab1" 1 20 0 1 1; itf "ba1" 1 20 1 0 1; itff "ab2" 5 40 0 1 2; itff "ba2" 5 40 1 0 2]
  [dmd 0 1 10 "d"] [lsp_ 0 1 "l0"] []).
  set (n1 := fst (update_simulation E0 Flex n)). set (n2 := fst (optimize_lsp E0 Flex 20 0 n1)).
  intros H. specialize (H E0 n1 0%nat 20%Q n2 [0%nat; 2%nat] 6 (200 # 10)%Q 2%nat E0_ok).
  assert (A : sig_ready Flex n1).
  { clear H; split; [vm_compute; nodup_tac|]. split; [intros i X; vm_compute in X; in_tac; vm_compute; discriminate|intros Z0; discriminate Z0]. }
  assert (K : NoDup (map (if_key n1) (m_ifs n1))) by (clear; vm_compute; nodup_tac).
  assert (Ne : lsp_from n1 0 <> lsp_to n1 0) by (vm_compute; discriminate).
  assert (R1 : exists s0, update_simulation E0 Flex s0 = (n1, Ok tt)) by (exists n; unfold n1; apply run_split; vm_compute; reflexivity).
  assert (R2 : optimize_lsp E0 Flex 20 0 n1 = (n2, Ok tt)) by (unfold n2; apply run_split; vm_compute; reflexivity).
  assert (D : l_path (h_ls n2 0) = PRouted [0%nat; 2%nat] 6 (200 # 10)) by (vm_compute; reflexivity).
  specialize (H A K Ne R1 R2 D (or_intror (or_introl eq_refl))). vm_compute in H. discriminate H.
Qed.
Print Assumptions C15_flex_avoids_failed_refuted.

Theorem C15_flex_returns_refuted :
  ~ (forall E s, env_ok E -> well_posed s -> NoDup (m_lsps s) -> NoDup (map (if_key s) (m_ifs s)) -> 
       snd (update_simulation E Flex s) <> Err TypeError).
Proof.
  set (n := net [nd "A"; nd "B"]
  [itf "ab1" 1 20 0 1 1; itf "ba1" 1 20 1 0 1; itff "ab2" 5 40 0 1 2; itff "ba2" 5 40 1 0 2]
  [dmd 0 1 20 "d"] [lsp_ 0 1 "l0"; lspc 0 1 "l1" 50] []).
  intros H. assert (P : well_posed n) by posed_tac.
  apply (H E0 n E0_ok P); [clear; vm_compute; nodup_tac|clear; vm_compute; nodup_tac|]. vm_compute. reflexivity.
Qed.
Print Assumptions C15_flex_returns_refuted.

(** ** C16 Re-signalling accounting *)
Theorem C16_moves E k s l bw cur c0 b0 old s' p c b : env_ok E -> sig_ready k s -> no_parallel s -> NoDup (map (if_key s) (m_ifs s)) ->
  l_path (h_ls s l) = PRouted cur c0 b0 -> l_res (h_ls s l) = RNum old -> incl cur (m_ifs s) -> NoDup cur ->
  lsp_from s l <> lsp_to s l -> ~ (old == bw)%Q ->
  optimize_lsp E k bw l s = (s', Ok tt) -> l_path (h_ls s' l) = PRouted p c b -> l_res (h_ls s' l) <> l_res (h_ls s l) ->
  only_signals s l s' /\ l_res (h_ls s' l) = RNum bw /\
  forall i, moved cur p old bw i (i_res (h_if s i)) (i_res (h_if s' i)).
Proof. exact (resignal_moves E k s l bw cur c0 b0 old s' p c b). Qed.
Print Assumptions C16_moves.
Example C16_example : ~ (10 == 15)%Q /\ l_path (h_ls (fst (optimize_lsp E0 Perf 15 0 one2)) 0) = PRouted [0%nat] 2 (200 # 10) /\
  l_res (h_ls (fst (optimize_lsp E0 Perf 15 0 one2)) 0) <> l_res (h_ls one2 0) /\
  (i_res (h_if (fst (optimize_lsp E0 Perf 15 0 one2)) 0) == 15)%Q.
Proof. split; [intros X; discriminate X|]. split; [vm_compute; reflexivity|]. split; [vm_compute; discriminate|vm_compute; reflexivity]. Qed.

(** When the bandwidth stays the same but the path changes, the reservations stay
    on the old path: update_simulation then rejects its own result. *)
Theorem C16_follows_path_refuted :
  ~ (forall E k s l bw cur c0 b0 old s' p c b i, env_ok E -> sig_ready k s -> no_parallel s ->
       (exists s0, update_simulation E k s0 = (s, Ok tt)) ->
       l_path (h_ls s l) = PRouted cur c0 b0 -> l_res (h_ls s l) = RNum old ->
       optimize_lsp E k bw l s = (s', Ok tt) -> l_path (h_ls s' l) = PRouted p c b -> In i cur -> ~ In i p ->
       exists r, reserved s i r /\ (i_res (h_if s' i) == r - old)%Q).
Proof.
  set (E1 := env_impl (fun _ => 1%nat)). set (n1 := fst (update_simulation E1 Perf one1)). set (n2 := fst (optimize_lsp E1 Perf 10 0 n1)).
  intros H. specialize (H E1 Perf n1 0%nat 10%Q [0%nat] 2 20.0%Q 10%Q n2 [2%nat; 4%nat] 2 20.0%Q 0%nat (env_impl_ok _)).
  assert (NP : no_parallel n1).
  { intros i j Hi Hj. vm_compute in Hi, Hj. in_tac; vm_compute; intros A B; reflexivity || discriminate. }
  assert (A : sig_ready Perf n1).
  { clear H; split; [vm_compute; nodup_tac|]. split; [intros i X; vm_compute in X; in_tac; vm_compute; discriminate|intros _; exact NP]. }
  assert (R1 : exists s0, update_simulation E1 Perf s0 = (n1, Ok tt)) by (exists one1; unfold n1; apply run_split; vm_compute; reflexivity).
  assert (R2 : optimize_lsp E1 Perf 10 0 n1 = (n2, Ok tt)) by (unfold n2; apply run_split; vm_compute; reflexivity).
  assert (D1 : l_path (h_ls n1 0) = PRouted [0%nat] 2 20.0) by (vm_compute; reflexivity).
  assert (D2 : l_res (h_ls n1 0) = RNum 10) by (vm_compute; reflexivity).
  assert (D3 : l_path (h_ls n2 0) = PRouted [2%nat; 4%nat] 2 20.0) by (vm_compute; reflexivity).
  destruct (H A NP R1 D1 D2 R2 D3 (or_introl eq_refl)) as (r & Rr & X); [intros [X|[X|[]]]; discriminate X|].
  assert (D4 : (i_res (h_if n1 0) == 100 # 10)%Q) by (vm_compute; reflexivity).
  assert (D5 : (i_res (h_if n2 0) == 10)%Q) by (vm_compute; reflexivity).
  assert (Er : (r == 100 # 10)%Q) by exact (reserved_fun _ _ _ _ Rr (reserved_exact _ _ _ D4)).
  assert (Y := Qeq_trans _ _ _ (Qeq_sym _ _ D5) X). rewrite Er in Y. vm_compute in Y. discriminate Y.
Qed.
Print Assumptions C16_follows_path_refuted.
Theorem C16_update_accepts_refuted :
  ~ (forall E k s, env_ok E -> well_posed s -> NoDup (m_lsps s) -> no_parallel s ->
       (forall l, In l (m_lsps s) -> tenths (wanted s l (equal_share s l)) /\ tenths (traffic_of s l)) ->
       snd (update_simulation E k s) <> Err (ValidationException [VResSum])).
Proof.
  set (n := net [nd "A"; nd "B"; nd "C"]
  [itf "ab" 2 20 0 1 1; itf "ba" 2 20 1 0 1; itf "ac" 1 20 0 2 2; itf "ca" 1 20 2 0 2; itf "cb" 1 20 2 1 3; itf "bc" 1 20 1 2 3]
  [dmd 0 1 10 "d"] [lspc 0 1 "l0" 10; lspc 0 1 "l1" 50] []).
  intros H. assert (P : well_posed n) by posed_tac.
  apply (H (env_impl (fun _ => 1%nat)) Perf n (env_impl_ok _) P).
  - clear; vm_compute; nodup_tac.
  - intros i j Hi Hj. vm_compute in Hi, Hj. in_tac; vm_compute; intros A B; reflexivity || discriminate.
  - intros l X. vm_compute in X. in_tac; split; first [exists 100; reflexivity|exists 500; reflexivity].
  - vm_compute. reflexivity.
Qed.
Print Assumptions C16_update_accepts_refuted.
