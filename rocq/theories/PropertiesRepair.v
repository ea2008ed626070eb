(** PropertiesRepair.v - theorems about what repairing a node or an SRLG does. *)
From Verif Require Import Base Graph Objects Sim Api Build Spec SpecHist SpecCkt SpecFail SpecRepair Nets
  GraphProofs MonadProofs HistProofs ApiProofs FailProofs RepairProofs HeldProofs RepairCalls RepairAll RepairSrlg RepairTotal CircuitProofs PropertiesFail.

(** ** C63 unfail_node *)
Theorem C63_unfail_node E k s nname s' : env_ok E -> wf_net k s -> ends_agree k s -> unfail_node E k nname s = (s', Ok tt) ->
  exists n, In n (m_nds s) /\ nd_name s n = nname /\ ~ in_failed_srlg s (n_srlgs (h_nd s n)) /\
    h_sr s' = h_sr s /\ restored k False s s' (fun x => In x (m_ifs s) /\ at_node s n x) (eq n) /\
    (forall x, In x (m_ifs s) -> at_node s n x -> ~ in_failed_srlg s (i_srlgs (h_if s x))).
Proof. intros HE W A H. destruct (unfail_node_ok E k HE nname s s' W A H) as (n & a & b & c & d & e & f & _). exists n. auto 10. Qed.
Print Assumptions C63_unfail_node.
(** A=B comes up, B=C does not: C is down *)
Definition v1 : st := chain false true true [] true true true true [0%nat] [0%nat] [] false true.
Lemma v1_agree k : ends_agree k v1.
Proof. intros i j Hi Hj _. vm_compute in Hi, Hj. in_tac; reflexivity. Qed.
Example C63_example : wf_net Flex v1 /\ ends_agree Flex v1 /\ snd (unfail_node E0 Flex "B" v1) = Ok tt /\
  snd (unfail_node E0 Perf "B" v1) = Ok tt /\
  map (fun i => i_failed (h_if (fst (unfail_node E0 Flex "B" v1)) i)) [0; 1; 2; 3]%nat = [false; false; true; true] /\
  at_node v1 1 0 /\ ~ at_node v1 1 2.
Proof.
  split; [apply chain_wf|]. split; [apply v1_agree|]. split; [vm_compute; reflexivity|]. split; [vm_compute; reflexivity|]. split; [vm_compute; reflexivity|].
  split; [vm_compute; auto|]. intros (_ & _ & [X|X]); vm_compute in X; discriminate X.
Qed.

(** Whatever the outcome: nothing goes down, nothing away from the node changes;
    a node held by a failed SRLG stays down and the call raises. *)
Theorem C63_any_outcome E k s nname s' r : env_ok E -> wf_net k s -> srlg_sound k s -> consistent k s ->
  unfail_node E k nname s = (s', r) ->
  srlg_sound k s' /\ consistent k s' /\ h_sr s' = h_sr s /\
  ((s' = s /\ (forall n, In n (m_nds s) -> nd_name s n <> nname) /\ exists e, r = Err e /\ is_model_exn e = true) \/
   exists n, In n (m_nds s) /\ nd_name s n = nname /\
     ((in_failed_srlg s (n_srlgs (h_nd s n)) /\ n_failed (h_nd s n) = true /\
       s' = upd_nd n (nd_failed true) s /\ exists m, r = Err (ModelException m)) \/
      (~ in_failed_srlg s (n_srlgs (h_nd s n)) /\
       exists P, restored k True s s' P (eq n) /\ (forall x, P x -> In x (m_ifs s) /\ at_node s n x)))).
Proof.
  intros HE W So C H. destruct (unfail_node_any E k HE nname s s' r (conj W (conj So C)) H) as ((_ & a & b) & c & _ & d). auto.
Qed.
Print Assumptions C63_any_outcome.
Ltac sound_tac := split; [intros i Hi (g & Hg & Fg); vm_compute in Hi; in_tac; vm_compute in Hg; in_tac; vm_compute in Fg; try discriminate Fg; reflexivity|]; split;
  [intros n Hn (g & Hg & Fg); vm_compute in Hn; in_tac; vm_compute in Hg; in_tac; vm_compute in Fg; try discriminate Fg; reflexivity|];
  let i := fresh in let j := fresh in let Hi := fresh in let Hj := fresh in let R := fresh in
  intros i j Hi Hj R; vm_compute in Hi, Hj; in_tac; first [intros g; reflexivity | exfalso; vm_compute in R; destruct R as (? & ? & ?); discriminate].
Ltac cons_tac := split; [intros i Hi Fi; vm_compute in Hi; in_tac; vm_compute in Fi; try discriminate Fi; split; vm_compute; reflexivity|];
  let i := fresh in let j := fresh in let Hi := fresh in let Hj := fresh in let R := fresh in
  intros i j Hi Hj R; vm_compute in Hi, Hj; in_tac; first [reflexivity | exfalso; vm_compute in R; destruct R as (? & ? & ?); discriminate].
Definition v2 : st := chain false true false [0%nat] true true true true [] [] [] true false.
Example C63_held_example : wf_net Flex v2 /\ srlg_sound Flex v2 /\ consistent Flex v2 /\
  in_failed_srlg v2 (n_srlgs (h_nd v2 1)) /\ n_failed (h_nd (fst (unfail_node E0 Flex "B" v2)) 1) = true.
Proof.
  split; [apply chain_wf|]. split; [sound_tac|]. split; [cons_tac|]. split; [exists 0%nat; split; vm_compute; auto|]. vm_compute. reflexivity.
Qed.

(** It succeeds on a node whose links are free. *)
Theorem C63_unfail_node_returns E k s n : env_ok E -> wf_net k s -> ends_agree k s -> all_paired k s -> lsps_sane s ->
  snd (validate_model E k s) = Ok tt -> In n (m_nds s) -> ~ in_failed_srlg s (n_srlgs (h_nd s n)) ->
  (forall x, In x (m_ifs s) -> at_node s n x -> ~ in_failed_srlg s (i_srlgs (h_if s x)) /\ (i_res (h_if s x) == 0)%Q) ->
  exists s', unfail_node E k (nd_name s n) s = (s', Ok tt).
Proof.
  intros HE W A Pa Sn V Hn F Q. destruct (unfail_node_total E k HE s n) as (s' & H & _); auto. { repeat (split; auto). } eauto.
Qed.
Print Assumptions C63_unfail_node_returns.
Lemma chain_paired k fa fb fc gb f1 f2 f3 f4 g1 g2 g3 gf hf : all_paired k (chain fa fb fc gb f1 f2 f3 f4 g1 g2 g3 gf hf).
Proof.
  split; [intros i; apply chain_ends|]. intros _ i Hi. vm_compute in Hi. in_tac; (split; [|vm_compute; congruence]).
  all: apply available_iff; vm_compute; reflexivity.
Qed.
Lemma chain_sane fa fb fc gb f1 f2 f3 f4 g1 g2 g3 gf hf : lsps_sane (chain fa fb fc gb f1 f2 f3 f4 g1 g2 g3 gf hf).
Proof. intros l Hl. vm_compute in Hl. destruct Hl. Qed.
Example C63_returns_example : wf_net Perf v1 /\ ends_agree Perf v1 /\ all_paired Perf v1 /\ lsps_sane v1 /\
  snd (validate_model E0 Perf v1) = Ok tt /\ snd (validate_model E0 Flex v1) = Ok tt /\ In 1%nat (m_nds v1) /\
  ~ in_failed_srlg v1 (n_srlgs (h_nd v1 1)) /\
  (forall x, In x (m_ifs v1) -> at_node v1 1 x -> ~ in_failed_srlg v1 (i_srlgs (h_if v1 x)) /\ (i_res (h_if v1 x) == 0)%Q).
Proof.
  split; [apply chain_wf|]. split; [apply v1_agree|]. split; [apply chain_paired|]. split; [apply chain_sane|].
  split; [vm_compute; reflexivity|]. split; [vm_compute; reflexivity|]. split; [vm_compute; auto|]. split; [notin_tac|].
  intros x Hx _. vm_compute in Hx. in_tac; (split; [notin_tac|reflexivity]).
Qed.

(** Failing a node that is up and repairing it puts every failure flag back. *)
Theorem C63_round_trip E k s n : env_ok E -> wf_net k s -> srlg_sound k s -> consistent k s -> all_paired k s -> lsps_sane s ->
  snd (validate_model E k s) = Ok tt -> In n (m_nds s) -> n_failed (h_nd s n) = false ->
  (forall x, In x (m_ifs s) -> touches s n x -> (i_res (h_if s x) == 0)%Q /\ (ends_up s x -> i_failed (h_if s x) = false)) ->
  exists s1 s2, fail_node (nd_name s n) s = (s1, Ok tt) /\ n_failed (h_nd s1 n) = true /\
    (forall x, In x (m_ifs s) -> touches s n x -> i_failed (h_if s1 x) = true) /\
    unfail_node E k (nd_name s n) s1 = (s2, Ok tt) /\ same_sets s s2 /\ same_failures_all s s2.
Proof.
  intros HE W So C Pa Sn V Hn Fn Q. apply node_round_trip; auto; [split; auto|]. split; auto. split; [apply C|]. auto.
Qed.
Print Assumptions C63_round_trip.
(** C is down, and stays down *)
Definition v3 : st := chain false false true [0%nat] false false true true [] [] [1%nat] false true.
Example C63_round_trip_example : wf_net Flex v3 /\ srlg_sound Flex v3 /\ consistent Flex v3 /\ all_paired Flex v3 /\ lsps_sane v3 /\
  snd (validate_model E0 Flex v3) = Ok tt /\ n_failed (h_nd v3 1) = false /\
  (forall x, In x (m_ifs v3) -> touches v3 1 x -> (i_res (h_if v3 x) == 0)%Q /\ (ends_up v3 x -> i_failed (h_if v3 x) = false)).
Proof.
  split; [apply chain_wf|]. split; [sound_tac|]. split; [cons_tac|]. split; [apply chain_paired|]. split; [apply chain_sane|].
  split; [vm_compute; reflexivity|]. split; [vm_compute; reflexivity|].
  intros x Hx _. vm_compute in Hx. in_tac; (split; [reflexivity|]); intros [X1 X2]; vm_compute in X1, X2; try discriminate; reflexivity.
Qed.

(** One link in a failed SRLG stops the repair: links of the node that nothing
    holds down stay down although both their nodes are up. *)
Theorem C63_free_links_come_up_refuted :
  ~ (forall E k s n s' r x, env_ok E -> wf_net k s -> srlg_sound k s -> consistent k s -> all_paired k s -> lsps_sane s ->
       snd (validate_model E k s) = Ok tt -> In n (m_nds s) -> ~ in_failed_srlg s (n_srlgs (h_nd s n)) ->
       unfail_node E k (nd_name s n) s = (s', r) -> In x (m_ifs s) -> at_node s n x -> ~ in_failed_srlg s (i_srlgs (h_if s x)) ->
       i_failed (h_if s' x) = false).
Proof.
  intros H. pose (s := chain false true false [] true true true true [0%nat] [0%nat] [] true false).
  specialize (H E0 Flex s 1%nat (fst (unfail_node E0 Flex "B" s)) (snd (unfail_node E0 Flex "B" s)) 2%nat E0_ok (chain_wf _ _ _ _ _ _ _ _ _ _ _ _ _ _)).
  assert (V : snd (validate_model E0 Flex s) = Ok tt) by (vm_compute; reflexivity).
  assert (So : srlg_sound Flex s) by sound_tac. assert (Cs : consistent Flex s) by cons_tac.
  assert (F : ~ in_failed_srlg s (n_srlgs (h_nd s 1))) by notin_tac. assert (F2 : ~ in_failed_srlg s (i_srlgs (h_if s 2))) by notin_tac.
  assert (In1 : In 1%nat (m_nds s)) by (vm_compute; auto). assert (In2 : In 2%nat (m_ifs s)) by (vm_compute; auto).
  assert (At : at_node s 1 2) by (vm_compute; auto).
  specialize (H So Cs (chain_paired _ _ _ _ _ _ _ _ _ _ _ _ _ _) (chain_sane _ _ _ _ _ _ _ _ _ _ _ _ _) V In1 F (surjective_pairing _) In2 At F2).
  vm_compute in H. discriminate H.
Qed.
Print Assumptions C63_free_links_come_up_refuted.

(** Repairing a node that is not failed can raise, and clears the reservations
    of its links. *)
Definition rt1 : st := net
  [mkNode "A" false 0 0 [] false; mkNode "B" false 0 0 [0%nat] false; mkNode "C" false 0 0 [] false]
  [itf "ab" 1 100 0 1 1; itf "ba" 1 100 1 0 1; itf "bc" 1 100 1 2 2; itf "cb" 1 100 2 1 2]
  [dmd 0 2 12 "d0"] [lsp_ 0 2 "l0"] [mkSrlg "g" false].
Lemma rt1_wf k : wf_net k rt1.
Proof.
  destruct k; wf_tac; intros i H; vm_compute in H; in_tac;
    [pair_tac 1%nat|pair_tac 0%nat|pair_tac 3%nat|pair_tac 2%nat|pair_tac 1%nat|pair_tac 0%nat|pair_tac 3%nat|pair_tac 2%nat].
Qed.
Theorem C63_up_node_unchanged_refuted :
  ~ (forall E k s s1 n s2 r, env_ok E -> wf_net k s -> update_simulation E k s = (s1, Ok tt) ->
       In n (m_nds s) -> n_failed (h_nd s1 n) = false ->
       (forall x, In x (m_ifs s) -> i_failed (h_if s1 x) = false) ->
       unfail_node E k (nd_name s n) s1 = (s2, r) ->
       r = Ok tt \/ (forall x, In x (m_ifs s) -> (i_res (h_if s2 x) == i_res (h_if s1 x))%Q)).
Proof.
  intros H.
  assert (X : snd (update_simulation E0 Flex rt1) = Ok tt) by (vm_compute; reflexivity).
  specialize (H E0 Flex rt1 (fst (update_simulation E0 Flex rt1)) 1%nat (fst (unfail_node E0 Flex "B" (fst (update_simulation E0 Flex rt1))))
    (snd (unfail_node E0 Flex "B" (fst (update_simulation E0 Flex rt1)))) E0_ok (rt1_wf _) (run_split _ _ X)).
  assert (In1 : In 1%nat (m_nds rt1)) by (vm_compute; auto).
  assert (F : n_failed (h_nd (fst (update_simulation E0 Flex rt1)) 1) = false) by (vm_compute; reflexivity).
  assert (Fi : forall x, In x (m_ifs rt1) -> i_failed (h_if (fst (update_simulation E0 Flex rt1)) x) = false).
  { clear. intros x Hx. vm_compute in Hx. in_tac; vm_compute; reflexivity. }
  specialize (H In1 F Fi (surjective_pairing _)). clear Fi F X. destruct H as [H|H]; [vm_compute in H; discriminate H|].
  specialize (H 0%nat ltac:(vm_compute; auto)). vm_compute in H. discriminate H.
Qed.
Print Assumptions C63_up_node_unchanged_refuted.

(** ** C64 unfail_srlg *)
Theorem C64_unfail_srlg E k s nm s' : env_ok E -> wf_net k s -> srlg_sound k s -> consistent k s -> all_paired k s ->
  unfail_srlg E k nm s = (s', Ok tt) ->
  exists g, In g (m_srs s) /\ srlg_name s g = nm /\ sr_failed (h_sr s' g) = false /\
    (forall x, srlg_name s' x = srlg_name s x) /\ (forall x, x <> g -> h_sr s' x = h_sr s x) /\
    srlg_sound k s' /\ consistent k s' /\
    exists P, restored k True s s' P (fun n => In n (m_nds s) /\ In g (n_srlgs (h_nd s n)) /\ ~ in_failed_srlg s' (n_srlgs (h_nd s n))) /\
      (forall x, P x -> In x (m_ifs s) /\ (In g (i_srlgs (h_if s x)) \/ at_member s g x)) /\
      (forall x, In x (m_ifs s) -> In g (i_srlgs (h_if s x)) -> ends_up s' x -> ~ in_failed_srlg s' (i_srlgs (h_if s x)) -> P x).
Proof.
  intros HE W So C Pa H. destruct (unfail_srlg_ok E k HE nm s s' (conj W (conj So C)) Pa H) as (g & a & b & c & d & e & (_ & f1 & f2) & _ & P & h).
  exists g. split; auto. split; auto. split; auto. split; [exact d|]. split; auto. split; auto. split; auto. exists P. exact h.
Qed.
Print Assumptions C64_unfail_srlg.

(** It never raises for an SRLG of the model. *)
Theorem C64_unfail_srlg_returns E k s g : env_ok E -> wf_net k s -> srlg_sound k s -> consistent k s -> all_paired k s -> lsps_sane s ->
  In g (m_srs s) -> exists s', unfail_srlg E k (srlg_name s g) s = (s', Ok tt).
Proof. intros HE W So C Pa Sn Hg. apply unfail_srlg_total; auto. split; auto. Qed.
Print Assumptions C64_unfail_srlg_returns.

(** When nothing else holds the links at its nodes, they all come up. *)
Theorem C64_links_at_members E k s g s' : env_ok E -> wf_net k s -> srlg_sound k s -> consistent k s -> all_paired k s -> lsps_sane s ->
  snd (validate_model E k s) = Ok tt -> In g (m_srs s) ->
  (forall x, In x (m_ifs s) -> at_member s g x -> (i_res (h_if s x) == 0)%Q /\
     forall h, In h (i_srlgs (h_if s x)) -> sr_failed (h_sr s h) = true -> h = g) ->
  unfail_srlg E k (srlg_name s g) s = (s', Ok tt) ->
  forall x, In x (m_ifs s) -> at_member s g x -> (i_failed (h_if s' x) = false <-> ends_up s' x).
Proof.
  intros HE W So C Pa Sn V Hg Q H. apply (unfail_srlg_all E k HE s g s'); auto; [split; auto|]. split; auto. split; [apply C|]. auto.
Qed.
Print Assumptions C64_links_at_members.
(** B and link A=B are in g, failed; C is down for another reason *)
Definition v4 : st := chain false true true [0%nat] true true true true [0%nat] [0%nat] [] true false.
Example C64_example : wf_net Flex v4 /\ srlg_sound Flex v4 /\ consistent Flex v4 /\ all_paired Flex v4 /\ lsps_sane v4 /\
  snd (validate_model E0 Flex v4) = Ok tt /\ In 0%nat (m_srs v4) /\
  (forall x, In x (m_ifs v4) -> at_member v4 0 x -> (i_res (h_if v4 x) == 0)%Q /\
     forall h, In h (i_srlgs (h_if v4 x)) -> sr_failed (h_sr v4 h) = true -> h = 0%nat) /\
  at_member v4 0 2 /\ snd (unfail_srlg E0 Flex "g" v4) = Ok tt /\
  map (fun i => i_failed (h_if (fst (unfail_srlg E0 Flex "g" v4)) i)) [0; 1; 2; 3]%nat = [false; false; true; true] /\
  map (fun n => n_failed (h_nd (fst (unfail_srlg E0 Flex "g" v4)) n)) [0; 1; 2]%nat = [false; false; true].
Proof.
  split; [apply chain_wf|]. split; [sound_tac|]. split; [cons_tac|]. split; [apply chain_paired|]. split; [apply chain_sane|].
  split; [vm_compute; reflexivity|]. split; [vm_compute; auto|]. split.
  { intros x Hx _. vm_compute in Hx. in_tac; (split; [reflexivity|]); intros h Hh Fh; vm_compute in Hh; in_tac; reflexivity. }
  split; [exists 1%nat; vm_compute; auto|]. vm_compute. auto.
Qed.

(** Failing an SRLG and repairing it puts every failure flag back. *)
Theorem C64_round_trip E k s g : env_ok E -> wf_net k s -> srlg_sound k s -> consistent k s -> all_paired k s -> lsps_sane s ->
  snd (validate_model E k s) = Ok tt -> In g (m_srs s) -> sr_failed (h_sr s g) = false ->
  (forall n, In n (m_nds s) -> In g (n_srlgs (h_nd s n)) -> n_failed (h_nd s n) = false) ->
  (forall x, In x (m_ifs s) -> In g (i_srlgs (h_if s x)) \/ at_member s g x ->
     (i_res (h_if s x) == 0)%Q /\ (ends_up s x -> i_failed (h_if s x) = false) /\ ~ in_failed_srlg s (i_srlgs (h_if s x))) ->
  exists s1 s2, fail_srlg (srlg_name s g) s = (s1, Ok tt) /\
    (forall n, In n (m_nds s) -> In g (n_srlgs (h_nd s n)) -> n_failed (h_nd s1 n) = true) /\
    (forall x, In x (m_ifs s) -> In g (i_srlgs (h_if s x)) \/ at_member s g x -> i_failed (h_if s1 x) = true) /\
    unfail_srlg E k (srlg_name s g) s1 = (s2, Ok tt) /\ same_sets s s2 /\ same_failures_all s s2.
Proof.
  intros HE W So C Pa Sn V Hg Fg Mu Q. apply srlg_round_trip; auto; [split; auto|]. split; auto. split; [apply C|]. auto.
Qed.
Print Assumptions C64_round_trip.
Definition v5 : st := chain false false true [0%nat] false false true true [0%nat] [0%nat] [] false true.
Example C64_round_trip_example : wf_net Flex v5 /\ srlg_sound Flex v5 /\ consistent Flex v5 /\ all_paired Flex v5 /\ lsps_sane v5 /\
  snd (validate_model E0 Flex v5) = Ok tt /\ In 0%nat (m_srs v5) /\ sr_failed (h_sr v5 0) = false /\
  (forall n, In n (m_nds v5) -> In 0%nat (n_srlgs (h_nd v5 n)) -> n_failed (h_nd v5 n) = false) /\
  (forall x, In x (m_ifs v5) -> In 0%nat (i_srlgs (h_if v5 x)) \/ at_member v5 0 x ->
     (i_res (h_if v5 x) == 0)%Q /\ (ends_up v5 x -> i_failed (h_if v5 x) = false) /\ ~ in_failed_srlg v5 (i_srlgs (h_if v5 x))).
Proof.
  split; [apply chain_wf|]. split; [sound_tac|]. split; [cons_tac|]. split; [apply chain_paired|]. split; [apply chain_sane|].
  split; [vm_compute; reflexivity|]. split; [vm_compute; auto|]. split; [vm_compute; auto|]. split.
  { intros n Hn Gn. vm_compute in Hn. in_tac; vm_compute in Gn; in_tac; reflexivity. }
  intros x Hx _. vm_compute in Hx. in_tac; (split; [reflexivity|]); (split; [intros [X1 X2]; vm_compute in X1, X2; try discriminate; reflexivity|notin_tac]).
Qed.

(** A link that nothing holds down stays down when another link of its node is
    in another failed SRLG; the exception is swallowed. *)
Theorem C64_free_links_come_up_refuted :
  ~ (forall E k s g s' x, env_ok E -> wf_net k s -> srlg_sound k s -> consistent k s -> all_paired k s -> lsps_sane s ->
       snd (validate_model E k s) = Ok tt -> In g (m_srs s) -> unfail_srlg E k (srlg_name s g) s = (s', Ok tt) ->
       In x (m_ifs s) -> at_member s g x -> ~ in_failed_srlg s' (i_srlgs (h_if s x)) -> ends_up s' x -> i_failed (h_if s' x) = false).
Proof.
  intros H. pose (s := chain false true false [0%nat] true true true true [1%nat] [1%nat] [] true true).
  assert (X : snd (unfail_srlg E0 Flex "g" s) = Ok tt) by (vm_compute; reflexivity).
  specialize (H E0 Flex s 0%nat (fst (unfail_srlg E0 Flex "g" s)) 2%nat E0_ok (chain_wf _ _ _ _ _ _ _ _ _ _ _ _ _ _)).
  assert (V : snd (validate_model E0 Flex s) = Ok tt) by (vm_compute; reflexivity).
  assert (So : srlg_sound Flex s) by sound_tac. assert (Cs : consistent Flex s) by cons_tac.
  assert (In1 : In 0%nat (m_srs s)) by (vm_compute; auto). assert (In2 : In 2%nat (m_ifs s)) by (vm_compute; auto).
  assert (At : at_member s 0 2) by (exists 1%nat; vm_compute; auto).
  assert (F : ~ in_failed_srlg (fst (unfail_srlg E0 Flex "g" s)) (i_srlgs (h_if s 2))).
  { intros (g & Hg & _). vm_compute in Hg. destruct Hg. }
  assert (EU : ends_up (fst (unfail_srlg E0 Flex "g" s)) 2) by (split; vm_compute; reflexivity).
  specialize (H So Cs (chain_paired _ _ _ _ _ _ _ _ _ _ _ _ _ _) (chain_sane _ _ _ _ _ _ _ _ _ _ _ _ _) V In1 (run_split _ _ X) In2 At F EU).
  vm_compute in H. discriminate H.
Qed.
Print Assumptions C64_free_links_come_up_refuted.

(** With an LSP on the links, failing and repairing the SRLG of a node without a
    simulation in between leaves links down, silently. *)
Theorem C64_round_trip_any_refuted :
  ~ (forall E k s s0 g s1 s2, env_ok E -> wf_net k s -> update_simulation E k s = (s0, Ok tt) -> In g (m_srs s) ->
       (forall x, In x (m_ifs s) -> i_failed (h_if s0 x) = false) -> (forall n, In n (m_nds s) -> n_failed (h_nd s0 n) = false) ->
       fail_srlg (srlg_name s g) s0 = (s1, Ok tt) -> unfail_srlg E k (srlg_name s g) s1 = (s2, Ok tt) ->
       forall x, In x (m_ifs s) -> i_failed (h_if s2 x) = false).
Proof.
  intros H.
  assert (X : snd (update_simulation E0 Flex rt1) = Ok tt) by (vm_compute; reflexivity).
  assert (X1 : snd (fail_srlg "g" (fst (update_simulation E0 Flex rt1))) = Ok tt) by (vm_compute; reflexivity).
  assert (X2 : snd (unfail_srlg E0 Flex "g" (fst (fail_srlg "g" (fst (update_simulation E0 Flex rt1))))) = Ok tt) by (vm_compute; reflexivity).
  specialize (H E0 Flex rt1 (fst (update_simulation E0 Flex rt1)) 0%nat (fst (fail_srlg "g" (fst (update_simulation E0 Flex rt1))))
    (fst (unfail_srlg E0 Flex "g" (fst (fail_srlg "g" (fst (update_simulation E0 Flex rt1)))))) E0_ok (rt1_wf _) (run_split _ _ X)).
  assert (In1 : In 0%nat (m_srs rt1)) by (vm_compute; auto).
  assert (Fi : forall x, In x (m_ifs rt1) -> i_failed (h_if (fst (update_simulation E0 Flex rt1)) x) = false).
  { clear. intros x Hx. vm_compute in Hx. in_tac; vm_compute; reflexivity. }
  assert (Fn : forall x, In x (m_nds rt1) -> n_failed (h_nd (fst (update_simulation E0 Flex rt1)) x) = false).
  { clear. intros x Hx. vm_compute in Hx. in_tac; vm_compute; reflexivity. }
  specialize (H In1 Fi Fn (run_split _ _ X1) (run_split _ _ X2)). clear Fi Fn X X1 X2.
  assert (Y : forallb (fun x => negb (i_failed (h_if (fst (unfail_srlg E0 Flex "g" (fst (fail_srlg "g" (fst (update_simulation E0 Flex rt1)))))) x))) (m_ifs rt1) = true).
  { apply forallb_forall. intros x Hx. rewrite (H x Hx). reflexivity. }
  clear H. vm_compute in Y. discriminate Y.
Qed.
Print Assumptions C64_round_trip_any_refuted.
