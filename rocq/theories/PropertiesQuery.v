(** PropertiesQuery.v - theorems about effective_metric, get_shortest_path and
    get_all_paths_reservable_bw. *)
From Verif Require Import Base Graph Objects Sim Api Build Spec SpecHist SpecCkt SpecMetric SpecSim SpecSig SpecFlow SpecQuery Nets PropertiesRoute
  GraphProofs ResProofs RouteProofs QuietProofs PathQuery QueryProofs SpecFlow.

Lemma ready_flex1 : sig_ready Flex flex1.
Proof. split; [vm_compute; nodup_tac|]. split; [intros i H; apply (flex1_costs i H)|]. intros X; discriminate X. Qed.
Lemma ready_perf1 : sig_ready Perf perf1.
Proof.
  split; [vm_compute; nodup_tac|]. split; [intros i H; apply (perf1_costs i H)|].
  intros _ i j Hi Hj A B. vm_compute in Hi, Hj. in_tac; vm_compute in A, B; try reflexivity; discriminate.
Qed.

(** ** C43 effective_metric *)
Theorem C43_effective_metric E k s l : env_ok E -> sig_ready k s -> (lsp_from s l <> lsp_to s l \/ node_of s (lsp_from s l)) ->
  exists s1 r, effective_metric E k l s = (s1, r) /\ only_metric s s1 l /\
    mstate_of (h_ls s1 l) = match mstate_of (h_ls s l) with
      | Pending c => if (0 <? c)%Z then Current (Some c) else Pending c
      | Current v => Current v
      end /\
    match mstate_of (h_ls s l) with
    | Pending c => if (0 <? c)%Z then r = Ok (MInt c) else exists msg, r = Err (ModelException msg)
    | Current (Some c) => r = Ok (MInt c)
    | Current None =>
        match l_path (h_ls s l) with
        | PInit | PUnrouted => r = Ok MUnrouted
        | _ => (exists c p, least_cost s (usable s) (lsp_from s l) p (lsp_to s l) /\ c = route_cost s p /\ r = Ok (MInt c)) \/
               ((forall p, ~ route s (usable s) (lsp_from s l) p (lsp_to s l)) /\ r = Ok MNone)
        end
    end.
Proof.
  intros HE SR Ne. destruct (effective_run E k HE s SR l Ne) as (s1 & r & R & _ & H). exists s1, r. split; [exact R|].
  destruct (effective_only E k l s s1 r R) as [O M0]. split; [exact O|].
  split; [rewrite M0; destruct (mstate_of (h_ls s l)) as [c|v]; simpl; [destruct (0 <? c)%Z|]; reflexivity|]. clear M0 O.
  unfold metric in H. destruct (mstate_of (h_ls s l)) as [c|[c|]]; auto.
  destruct (l_path (h_ls s l)); auto; destruct H as (m & M & ->); destruct m as [c|]; [left|right|left|right]; auto;
    destruct M as (q & L & Hc); exists c, q; auto.
Qed.
Print Assumptions C43_effective_metric.
Definition mm1 : st := net
  [nd "A"; nd "B"; nd "C"]
  [itf "ab" 1 100 0 1 1; itf "ba" 1 100 1 0 1; itf "bc" 1 100 1 2 2; itf "cb" 1 100 2 1 2; itf "ac" 5 100 0 2 3; itf "ca" 5 100 2 0 3]
  [] [mkLsp 0 2 "l0" (PRouted [4%nat] 5 0) RInit RInit None None None;
      mkLsp 0 2 "l1" (PRouted [4%nat] 5 0) RInit RInit None None (Some 7);
      mkLsp 0 2 "l2" PUnrouted RInit RInit None None None] [].
(** an LSP that takes the longer path still has the metric of the shorter one *)
Example C43_example : sig_ready Flex mm1 /\ lsp_from mm1 0 <> lsp_to mm1 0 /\
  snd (effective_metric E0 Flex 0 mm1) = Ok (MInt 2) /\ snd (effective_metric E0 Flex 1 mm1) = Ok (MInt 7) /\ snd (effective_metric E0 Flex 2 mm1) = Ok MUnrouted.
Proof.
  split. { split; [vm_compute; nodup_tac|]. split; [intros i H; vm_compute in H; in_tac; vm_compute; intros Z0; discriminate Z0|]. intros X; discriminate X. }
  split; [vm_compute; intros Z0; discriminate Z0|]. split; [vm_compute; reflexivity|]. split; vm_compute; reflexivity.
Qed.

(** ** C44 get_shortest_path *)
Theorem C44_shortest_path E k s u v bw : env_ok E -> sig_ready k s -> (u <> v \/ node_of s u) ->
  match get_shortest_path E k s u v bw with
  | (Some c, ps) =>
      (exists p, least_cost s (usable_bw s bw) u p v /\ c = route_cost s p) /\ NoDup ps /\
      (forall p, least_cost s (usable_bw s bw) u p v -> In p ps) /\
      forall p, In p ps <-> match k with
        | Perf => least_cost s (usable_bw s bw) u p v
        | Flex => exists q, least_cost s (usable_bw s bw) u q v /\ route_nodes s u p = route_nodes s u q /\ route s (wide s bw) u p v
        end
  | (None, ps) => ps = [] /\ forall p, ~ route s (usable_bw s bw) u p v
  end.
Proof.
  intros HE SR Hu. assert (X := shortest_run E k HE s SR u v bw Hu). destruct (get_shortest_path E k s u v bw) as [[c|] ps]; [|exact X].
  destruct X as (A & B & C). split; [exact A|]. split; [exact B|]. split; [|exact C]. intros p L. apply C. destruct k; [|exact L].
  exists p. split; [exact L|]. split; [reflexivity|]. destruct L as [R _]. clear - R.
  induction R as [|i p v Hi Ok R IH]; [constructor|]. apply route_cons; auto. destruct Ok as [_ W]. exact W.
Qed.
Print Assumptions C44_shortest_path.
Example C44_example : sig_ready Flex flex1 /\ sig_ready Perf perf1 /\
  get_shortest_path E0 Flex flex1 "A" "C" 50 = (Some 2, [[0%nat; 4%nat]; [2%nat; 4%nat]; [6%nat]]) /\
  get_shortest_path E0 Perf perf1 "A" "C" 50 = (Some 2, [[0%nat; 2%nat]; [4%nat]]) /\
  get_shortest_path E0 Perf perf1 "A" "C" 101 = (None, []) /\ get_shortest_path E0 Perf perf1 "A" "D" 0 = (None, []).
Proof. split; [exact ready_flex1|]. split; [exact ready_perf1|]. split; [vm_compute; reflexivity|]. split; [vm_compute; reflexivity|]. split; vm_compute; reflexivity. Qed.

(** A=B with a cheap link, a dear one and a failed one *)
Definition par1 : st := net
  [nd "A"; nd "B"]
  [itf "ab1" 1 100 0 1 1; itf "ba1" 1 100 1 0 1; itf "ab2" 5 100 0 1 2; itf "ba2" 5 100 1 0 2;
   if_failed true (itf "ab3" 1 100 0 1 3); if_failed true (itf "ba3" 1 100 1 0 3)] [] [] [].
Lemma par1_ready : sig_ready Flex par1.
Proof. split; [vm_compute; nodup_tac|]. split; [intros i H; vm_compute in H; in_tac; vm_compute; intros Z0; discriminate Z0|]. intros X; discriminate X. Qed.
Theorem C44_cost_refuted :
  ~ (forall E s u v bw c ps p, env_ok E -> sig_ready Flex s -> u <> v -> get_shortest_path E Flex s u v bw = (Some c, ps) -> In p ps -> route_cost s p = c).
Proof.
  intros H. specialize (H E0 par1 "A" "B" 0%Q 1 [[0%nat]; [2%nat]; [4%nat]] [2%nat] E0_ok par1_ready).
  assert (R : get_shortest_path E0 Flex par1 "A" "B" 0 = (Some 1, [[0%nat]; [2%nat]; [4%nat]])) by (vm_compute; reflexivity).
  assert (Ne : "A" <> "B") by discriminate. specialize (H Ne R). assert (I : In [2%nat] [[0%nat]; [2%nat]; [4%nat]]) by (simpl; auto).
  specialize (H I). vm_compute in H. discriminate H.
Qed.
Print Assumptions C44_cost_refuted.
Theorem C44_failed_refuted :
  ~ (forall E s u v bw c ps p i, env_ok E -> sig_ready Flex s -> u <> v -> get_shortest_path E Flex s u v bw = (Some c, ps) -> In p ps -> In i p ->
       i_failed (h_if s i) = false).
Proof.
  intros H. specialize (H E0 par1 "A" "B" 0%Q 1 [[0%nat]; [2%nat]; [4%nat]] [4%nat] 4%nat E0_ok par1_ready).
  assert (R : get_shortest_path E0 Flex par1 "A" "B" 0 = (Some 1, [[0%nat]; [2%nat]; [4%nat]])) by (vm_compute; reflexivity).
  assert (Ne : "A" <> "B") by discriminate. specialize (H Ne R). assert (I : In [4%nat] [[0%nat]; [2%nat]; [4%nat]]) by (simpl; auto).
  specialize (H I (or_introl eq_refl)). vm_compute in H. discriminate H.
Qed.
Print Assumptions C44_failed_refuted.

(** ** C45 get_all_paths_reservable_bw *)
Theorem C45_all_paths E k s u v f cutoff bw : env_ok E -> sig_ready k s -> node_of s u -> node_of s v ->
  exists ps, get_all_paths E k s u v f cutoff bw = Ok ps /\
    (forall p, In p ps -> simple_route s (wide s bw) u p v cutoff) /\
    (forall p, simple_route s (allowed s f bw) u p v cutoff -> In p ps) /\
    (k = Perf -> forall p, In p ps -> simple_route s (allowed s f bw) u p v cutoff) /\
    (k = Flex -> NoDup ps /\ forall p, In p ps -> exists q, simple_route s (allowed s f bw) u q v cutoff /\ route_nodes s u p = route_nodes s u q).
Proof.
  intros HE SR Hu Hv. destruct (all_paths_run E k HE s SR u v f cutoff bw Hu Hv) as (ps & R & N & C). exists ps. split; [exact R|].
  assert (W : forall q, route s (allowed s f bw) u q v -> route s (wide s bw) u q v).
  { intros q Q. clear - Q. induction Q as [|i p v Hi Ok R IH]; [constructor|]. apply route_cons; auto. apply Ok. }
  split; [|split; [|split]].
  - intros p Hp. apply C in Hp. destruct k.
    + destruct Hp as (q & (A1 & A2 & A3 & A4) & B1 & B2). assert (L : List.length p = List.length q).
      { apply (f_equal (@List.length string)) in B1. unfold route_nodes in B1. simpl in B1. rewrite !map_length in B1. lia. }
      split; [exact B2|]. rewrite B1. split; [exact A2|]. split; [|lia]. intros ->. destruct q; [congruence|discriminate L].
    + destruct Hp as (A1 & A2). split; [now apply W|exact A2].
  - intros p Hp. apply C. destruct k; [|exact Hp]. exists p. split; [exact Hp|]. split; [reflexivity|]. apply W. apply Hp.
  - intros K p Hp. apply C in Hp. destruct k; [discriminate K|exact Hp].
  - intros K. split; [now apply N|]. intros p Hp. apply C in Hp. destruct k; [|discriminate K]. destruct Hp as (q & A & B & _). eauto.
Qed.
Print Assumptions C45_all_paths.
Example C45_example : node_of flex1 "A" /\ node_of flex1 "C" /\
  get_all_paths E0 Flex flex1 "A" "C" false 5 50 = Ok [[0%nat; 4%nat]; [2%nat; 4%nat]; [6%nat]] /\
  get_all_paths E0 Flex flex1 "A" "C" false 1 50 = Ok [[6%nat]] /\ get_all_paths E0 Perf perf1 "C" "A" false 5 50 = Ok [[3%nat; 1%nat]; [5%nat]].
Proof.
  split; [exists 0%nat; split; [vm_compute; auto|reflexivity]|]. split; [exists 2%nat; split; [vm_compute; auto|reflexivity]|].
  split; [vm_compute; reflexivity|]. split; vm_compute; reflexivity.
Qed.
Theorem C45_failed_refuted :
  ~ (forall E s u v cutoff bw ps p i, env_ok E -> sig_ready Flex s -> node_of s u -> node_of s v ->
       get_all_paths E Flex s u v false cutoff bw = Ok ps -> In p ps -> In i p -> i_failed (h_if s i) = false).
Proof.
  intros H. specialize (H E0 par1 "A" "B" 10%nat 0%Q [[0%nat]; [2%nat]; [4%nat]] [4%nat] 4%nat E0_ok par1_ready).
  assert (A : node_of par1 "A") by (exists 0%nat; split; [vm_compute; auto|reflexivity]).
  assert (B : node_of par1 "B") by (exists 1%nat; split; [vm_compute; auto|reflexivity]).
  assert (R : get_all_paths E0 Flex par1 "A" "B" false 10 0 = Ok [[0%nat]; [2%nat]; [4%nat]]) by (vm_compute; reflexivity).
  assert (I : In [4%nat] [[0%nat]; [2%nat]; [4%nat]]) by (simpl; auto). specialize (H A B R I (or_introl eq_refl)). vm_compute in H. discriminate H.
Qed.
Print Assumptions C45_failed_refuted.
