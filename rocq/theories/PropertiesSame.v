(** PropertiesSame.v - models with LSPs: results that do not depend on the order
    of the objects (C89). *)
From Verif Require Import Base Graph Objects Sim Api Build Spec SpecHist SpecCkt SpecSim SpecMetric SpecSig SpecFlow SpecOrder SpecShort SpecTotal SpecSame Nets GraphProofs LeastProofs PropertiesRoute PropertiesOrder PropertiesTotal OrderLsps OrderShort LspExact PropertiesShort.
From Coq Require Import Permutation.

(** ** C89 The order of the objects, with LSPs *)
Theorem C89_same_success E E' k s t : env_ok E -> env_ok E' -> reordered s t -> well_posed s -> ends_known s -> cids_set k s -> lsps_usual k s -> ample s ->
  ((exists s', update_simulation E k s = (s', Ok tt)) <-> (exists t', update_simulation E' k t = (t', Ok tt))).
Proof. intros HE HE'. exact (lsps_succeed E E' k HE HE' s t). Qed.
Print Assumptions C89_same_success.

(** Scarce bandwidth may give the LSPs other ways in another order, but does not
    decide on success if there is one LSP per pair of nodes. *)
Theorem C89_same_success_lone E E' k s t : env_ok E -> env_ok E' -> reordered s t -> well_posed s -> ends_known s -> cids_set k s -> lsps_usual k s -> lone s ->
  ((exists s', update_simulation E k s = (s', Ok tt)) <-> (exists t', update_simulation E' k t = (t', Ok tt))).
Proof. intros HE HE'. exact (lone_succeed E E' k HE HE' s t). Qed.
Print Assumptions C89_same_success_lone.

(** Every LSP is routed in both orders, at the same cost and for the same
    bandwidth, or in none. *)
Theorem C89_same_lsps E E' k s t s' t' l : env_ok E -> env_ok E' -> reordered s t -> well_posed s -> ends_known s -> cids_set k s -> lsps_usual k s -> ample s ->
  update_simulation E k s = (s', Ok tt) -> update_simulation E' k t = (t', Ok tt) -> In l (m_lsps s) ->
  same_fate (l_path (h_ls s' l)) (l_path (h_ls t' l)) /\ same_amount (l_res (h_ls s' l)) (l_res (h_ls t' l)) /\ same_amount (l_setup (h_ls s' l)) (l_setup (h_ls t' l)).
Proof.
  intros HE HE' R WP EK CS LU Am U U' Hl. destruct (same_lsp E E' k HE HE' s t s' t' R WP EK LU Am U U' l Hl) as [A B].
  split; [exact A|]. split; [exact B|]. exact (same_setup E E' k HE HE' s t s' t' R WP EK LU Am U U' l Hl).
Qed.
Print Assumptions C89_same_lsps.

(** Every demand has the same paths (over the same LSPs or interfaces). *)
Theorem C89_same_paths E E' k s t s' t' d : env_ok E -> env_ok E' -> reordered s t -> well_posed s -> ends_known s -> cids_set k s -> lsps_usual k s -> ample s ->
  ends_agree k s -> shortcuts_off s ->
  update_simulation E k s = (s', Ok tt) -> update_simulation E' k t = (t', Ok tt) -> In d (m_dms s) ->
  same_paths (d_path (h_dm s' d)) (d_path (h_dm t' d)).
Proof. intros HE HE' R WP EK CS LU Am EA Off U U' Hd. exact (same_dpaths E E' k HE HE' s t s' t' R WP EK CS LU Am U U' EA Off d Hd). Qed.
Print Assumptions C89_same_paths.

(** If no LSP has two equally good ways, LSPs take the same ways and interfaces
    carry the same traffic. *)
Theorem C89_same_ways E E' k s t s' t' l : env_ok E -> env_ok E' -> reordered s t -> well_posed s -> ends_known s -> cids_set k s -> lsps_usual k s -> ample s -> sole_roads s ->
  update_simulation E k s = (s', Ok tt) -> update_simulation E' k t = (t', Ok tt) -> In l (m_lsps s) ->
  same_way (l_path (h_ls s' l)) (l_path (h_ls t' l)).
Proof. intros HE HE' R WP EK CS LU Am So U U' Hl. exact (same_lway E E' k HE HE' s t s' t' R WP EK LU Am U U' l Hl So). Qed.
Print Assumptions C89_same_ways.

Theorem C89_same_traffic E E' k s t s' t' i : env_ok E -> env_ok E' -> reordered s t -> well_posed s -> ends_known s -> cids_set k s -> lsps_usual k s -> ample s -> sole_roads s ->
  ends_agree k s -> shortcuts_off s ->
  update_simulation E k s = (s', Ok tt) -> update_simulation E' k t = (t', Ok tt) -> In i (m_ifs s) ->
  same_traffic (i_traffic (h_if s' i)) (i_traffic (h_if t' i)).
Proof. intros HE HE' R WP EK CS LU Am So EA Off U U' Hi. exact (same_iftraffic E E' k HE HE' s t s' t' R WP EK CS LU Am U U' EA Off So i Hi). Qed.
Print Assumptions C89_same_traffic.

(** With IGP shortcuts the paths of a demand are the same if all its least-cost
    ways visit the same nodes. *)
Theorem C89_same_paths_shortcuts E E' s t s' t' d : env_ok E -> env_ok E' -> reordered s t -> well_posed s -> ends_known s -> cids_set Flex s -> lsps_usual Flex s -> ample s ->
  ends_agree Flex s -> keys_unique s -> keys_unique t -> refs_ok s -> node_texts s ->
  update_simulation E Flex s = (s', Ok tt) -> update_simulation E' Flex t = (t', Ok tt) -> In d (m_dms s) -> one_road s d ->
  same_paths (d_path (h_dm s' d)) (d_path (h_dm t' d)).
Proof. intros HE HE' R WP EK CS LU Am EA KU KUt RO NT U U' Hd One. exact (short_dpaths E E' HE HE' s t s' t' R WP EK CS LU Am U U' EA KU KUt RO NT d Hd One). Qed.
Print Assumptions C89_same_paths_shortcuts.

Theorem C89_same_traffic_shortcuts E E' s t s' t' i : env_ok E -> env_ok E' -> reordered s t -> well_posed s -> ends_known s -> cids_set Flex s -> lsps_usual Flex s -> ample s -> sole_roads s ->
  ends_agree Flex s -> keys_unique s -> keys_unique t -> refs_ok s -> node_texts s -> (forall d, In d (m_dms s) -> one_road s d) ->
  update_simulation E Flex s = (s', Ok tt) -> update_simulation E' Flex t = (t', Ok tt) -> In i (m_ifs s) ->
  same_traffic (i_traffic (h_if s' i)) (i_traffic (h_if t' i)).
Proof. intros HE HE' R WP EK CS LU Am So EA KU KUt RO NT One U U' Hi. exact (short_traffic E E' HE HE' s t s' t' R WP EK CS LU Am U U' EA KU KUt RO NT So i One Hi). Qed.
Print Assumptions C89_same_traffic_shortcuts.

(** *** Concrete models *)
Definition upb (s : st) (i : nat) : bool := negb (i_failed (h_if s i)) && i_rsvp (h_if s i).
Definition apart (s : st) (l : nat) : bool :=
  let G := mkG (nx_edges Flex (map (edge_of s) (filter (upb s) (m_ifs s)))) (node_names s) in
  match nx_asp E0 G (lsp_from s l) (lsp_to s l) with
  | NxPaths nps => let L := iface_paths Flex s G nps in
      forallb (fun p => forallb (fun q => negb (Nat.eqb (List.length p) (List.length q)) || if list_eq_dec Nat.eq_dec p q then true else false) L) L
  | NxNoPath => true
  | NxNodeNotFound => false
  end.
Lemma sole_by s : NoDup (m_ifs s) -> (forall i, In i (m_ifs s) -> 1 <= i_cost (h_if s i)) -> forallb (apart s) (m_lsps s) = true -> sole_roads s.
Proof.
  intros N C A l p q Hl [[Bp Mp] Hp] [[Bq Mq] Hq]. rewrite forallb_forall in A. specialize (A l Hl). unfold apart in A.
  assert (X := asp_paths E0 Flex s (upb s) (node_names s) E0_ok N C (fun H => match H with eq_refl => I end) (lsp_from s l) (lsp_to s l)).
  assert (UP : forall i, In i (m_ifs s) -> (rsvp_up s i <-> upb s i = true)).
  { intros i _. unfold rsvp_up, upb. destruct (i_failed (h_if s i)), (i_rsvp (h_if s i)); simpl; intuition congruence. }
  assert (LC : forall r, least_cost s (rsvp_up s) (lsp_from s l) r (lsp_to s l) -> least_cost s (fun i => upb s i = true) (lsp_from s l) r (lsp_to s l)).
  { intros r H. eapply roads_least; [|exact UP|exact H]. split; [reflexivity|]. intros i _. tauto. }
  destruct (nx_asp E0 _ (lsp_from s l) (lsp_to s l)) as [nps| |]; [|destruct X as [_ X]; destruct (X p); apply LC; split; auto|discriminate].
  destruct X as (_ & _ & X & _). rewrite forallb_forall in A.
  assert (Ip := proj2 (X p) (LC p (conj Bp Mp))). assert (Iq := proj2 (X q) (LC q (conj Bq Mq))).
  specialize (A p Ip). rewrite forallb_forall in A. specialize (A q Iq). assert (E1 := Hp q (conj Bq Mq)). assert (E2 := Hq p (conj Bp Mp)).
  assert (E3 : List.length p = List.length q) by lia. rewrite E3, Nat.eqb_refl in A. simpl in A. destruct (list_eq_dec Nat.eq_dec p q); [assumption|discriminate].
Qed.

Definition alone (s : st) (d : nat) : bool :=
  let G := mkG (nx_edges Flex (map (edge_of s) (filter (upb s) (m_ifs s)))) (node_names s) in
  match nx_asp E0 G (dmd_from s d) (dmd_to s d) with
  | NxPaths nps => let L := map (route_nodes s (dmd_from s d)) (iface_paths Flex s G nps) in
      forallb (fun p => forallb (fun q => if list_eq_dec string_dec p q then true else false) L) L
  | NxNoPath => true
  | NxNodeNotFound => false
  end.
Lemma one_by s d : NoDup (m_ifs s) -> (forall i, In i (m_ifs s) -> 1 <= i_cost (h_if s i)) -> alone s d = true -> one_road s d.
Proof.
  intros N C A p q Lp Lq. unfold alone in A.
  assert (X := asp_paths E0 Flex s (upb s) (node_names s) E0_ok N C (fun H => match H with eq_refl => I end) (dmd_from s d) (dmd_to s d)).
  assert (UP : forall i, In i (m_ifs s) -> (rsvp_up s i <-> upb s i = true)).
  { intros i _. unfold rsvp_up, upb. destruct (i_failed (h_if s i)), (i_rsvp (h_if s i)); simpl; intuition congruence. }
  assert (LC : forall r, least_cost s (rsvp_up s) (dmd_from s d) r (dmd_to s d) -> least_cost s (fun i => upb s i = true) (dmd_from s d) r (dmd_to s d)).
  { intros r H. eapply roads_least; [|exact UP|exact H]. split; [reflexivity|]. intros i _. tauto. }
  destruct (nx_asp E0 _ (dmd_from s d) (dmd_to s d)) as [nps| |]; [|destruct X as [_ X]; destruct (X p); apply LC; auto|discriminate].
  destruct X as (_ & _ & X & _). rewrite forallb_forall in A.
  assert (Ip := proj2 (X p) (LC p Lp)). assert (Iq := proj2 (X q) (LC q Lq)).
  specialize (A _ (in_map _ _ _ Ip)). rewrite forallb_forall in A. specialize (A _ (in_map _ _ _ Iq)). destruct (list_eq_dec string_dec _ _); [assumption|discriminate].
Qed.

(** Two LSPs between A and C and one from D to A with a configured metric; A has IGP
    shortcuts, and a demand from A to D takes an LSP for a part of its way.
    Backwards the demand's paths come in another order. *)
Definition ring (sc : bool) : st := net [mkNode "A" false 0 0 [] sc; nd "B"; nd "C"; nd "D"]
  [itf "ab" 1 100 0 1 1; itf "ba" 1 100 1 0 1; itf "bc" 1 100 1 2 2; itf "cb" 1 100 2 1 2; itf "ac" 3 100 0 2 3; itf "ca" 3 100 2 0 3; itf "cd" 1 100 2 3 4; itf "dc" 1 100 3 2 4]
  [dmd 0 2 10 "d0"; dmd 0 3 5 "d1"; dmd 3 0 3 "d2"; dmd 1 3 4 "d3"]
  [lsp_ 0 2 "l0"; mkLsp 0 2 "l1" PInit RInit RInit (Some 5%Q) None None; mkLsp 3 0 "l2" PInit RInit RInit None None (Some 7)] [].
Ltac ring_tac :=
  split; [apply backwards_reordered|]; split; [posed0_tac|]; split; [known_tac|]; split; [cids_tac|];
  split; [usual_tac; try (clear; intros a b a' b' Ha Hb Ha' Hb'; vm_compute in Ha, Ha', Hb, Hb'; in_tac; vm_compute; intros X; try discriminate X; auto)|];
  split; [intros i H F R; vm_compute in H; in_tac; vm_compute; discriminate|];
  split; [apply sole_by; [once_tac|intros i H; vm_compute in H; in_tac; vm_compute; discriminate|vm_compute; reflexivity]|];
  split; [agree_tac|].
Example C89_example k : let s := ring false in
  reordered s (backwards s) /\ well_posed s /\ ends_known s /\ cids_set k s /\ lsps_usual k s /\ ample s /\ sole_roads s /\ ends_agree k s /\ shortcuts_off s /\
  snd (update_simulation E0 k s) = Ok tt /\ snd (update_simulation E0 k (backwards s)) = Ok tt /\
  d_path (h_dm (fst (update_simulation E0 k s)) 0) = DPaths [[ILsp 0]; [ILsp 1]]%nat /\ d_path (h_dm (fst (update_simulation E0 k (backwards s))) 0) = DPaths [[ILsp 1]; [ILsp 0]]%nat.
Proof.
  intros s; subst s. destruct k; ring_tac; (split; [intros n H; vm_compute in H; in_tac; reflexivity|]); repeat split; vm_compute; reflexivity.
Qed.
Example C89_example_shortcuts : let s := ring true in
  reordered s (backwards s) /\ well_posed s /\ ends_known s /\ cids_set Flex s /\ lsps_usual Flex s /\ ample s /\ sole_roads s /\ ends_agree Flex s /\
  keys_unique s /\ keys_unique (backwards s) /\ refs_ok s /\ node_texts s /\ (forall d, In d (m_dms s) -> one_road s d) /\
  snd (update_simulation E0 Flex s) = Ok tt /\ snd (update_simulation E0 Flex (backwards s)) = Ok tt /\
  d_path (h_dm (fst (update_simulation E0 Flex s)) 1) = DPaths [[ILsp 0; IIf 6]; [ILsp 1; IIf 6]]%nat.
Proof.
  intros s; subst s. ring_tac. split; [net_tac|]. split; [net_tac|]. split; [refs_tac|]. split; [ntexts_tac|].
  split; [intros d H; apply one_by; [once_tac|intros i Hi; vm_compute in Hi; in_tac; vm_compute; discriminate|vm_compute in H; in_tac; vm_compute; reflexivity]|].
  repeat split; vm_compute; reflexivity.
Qed.

(** With two equally good ways an LSP takes the one random.choice gives. *)
Definition square : st := net [nd "A"; nd "B"; nd "C"; nd "D"]
  [itf "ab" 1 100 0 1 1; itf "ba" 1 100 1 0 1; itf "bd" 1 100 1 3 2; itf "db" 1 100 3 1 2; itf "ac" 1 100 0 2 3; itf "ca" 1 100 2 0 3; itf "cd" 1 100 2 3 4; itf "dc" 1 100 3 2 4]
  [dmd 0 3 10 "d"] [lsp_ 0 3 "l"] [].
Definition E1 : env := env_impl (fun _ => 1%nat).
Definition square0 : st := fst (update_simulation E0 Perf square).
Definition square1 : st := fst (update_simulation E1 Perf square).
Lemma square0_run : update_simulation E0 Perf square = (square0, Ok tt). Proof. unfold square0. apply run_split. vm_compute. reflexivity. Qed.
Lemma square1_run : update_simulation E1 Perf square = (square1, Ok tt). Proof. unfold square1. apply run_split. vm_compute. reflexivity. Qed.
Theorem C89_ties_refuted :
  ~ (forall E E' k s t s' t' i, env_ok E -> env_ok E' -> reordered s t -> well_posed s -> ends_known s -> cids_set k s -> lsps_usual k s -> ample s ->
       ends_agree k s -> shortcuts_off s ->
       update_simulation E k s = (s', Ok tt) -> update_simulation E' k t = (t', Ok tt) -> In i (m_ifs s) ->
       same_traffic (i_traffic (h_if s' i)) (i_traffic (h_if t' i))).
Proof.
  intros H. specialize (H E0 E1 Perf square square square0 square1 0%nat E0_ok (env_impl_ok _)).
  assert (R : reordered square square) by (clear; constructor; reflexivity).
  assert (P : well_posed square) by (clear; posed0_tac). assert (K : ends_known square) by (clear; known_tac). assert (C : cids_set Perf square) by (clear; cids_tac).
  assert (U : lsps_usual Perf square) by (clear; usual_tac). assert (Am : ample square) by (clear; intros i H F R; vm_compute in H; in_tac; vm_compute; discriminate).
  assert (EA : ends_agree Perf square) by (clear; agree_tac). assert (Off : shortcuts_off square) by (clear; intros n H; vm_compute in H; in_tac; reflexivity).
  specialize (H R P K C U Am EA Off square0_run square1_run (or_introl eq_refl)). clear -H. vm_compute in H. discriminate H.
Qed.
Print Assumptions C89_ties_refuted.

(** With IGP shortcuts and least-cost ways over different nodes the paths do depend
    on the order. *)
Definition two3 : st := fst (update_simulation E0 Flex (backwards two1)).
Lemma two3_run : update_simulation E0 Flex (backwards two1) = (two3, Ok tt). Proof. unfold two3. apply run_split. vm_compute. reflexivity. Qed.
Theorem C89_shortcuts_refuted :
  ~ (forall E E' s t s' t' d, env_ok E -> env_ok E' -> reordered s t -> well_posed s -> ends_known s -> cids_set Flex s -> lsps_usual Flex s -> ample s -> sole_roads s ->
       ends_agree Flex s -> keys_unique s -> keys_unique t -> refs_ok s -> node_texts s ->
       update_simulation E Flex s = (s', Ok tt) -> update_simulation E' Flex t = (t', Ok tt) -> In d (m_dms s) ->
       same_paths (d_path (h_dm s' d)) (d_path (h_dm t' d))).
Proof.
  intros H.
  specialize (H E0 E0 two1 (backwards two1) two2 two3 0%nat E0_ok E0_ok (backwards_reordered _)).
  assert (P : well_posed two1) by (clear; posed1_tac). assert (K : ends_known two1) by (clear; known_tac). assert (C : cids_set Flex two1) by (clear; cids_tac).
  assert (NT : node_texts two1) by (clear; ntexts_tac).
  assert (U : lsps_usual Flex two1) by (clear; usual_tac; clear; ntexts_tac). assert (Am : ample two1) by (clear; intros i H F R; vm_compute in H; in_tac; vm_compute; discriminate).
  assert (So : sole_roads two1) by (clear; apply sole_by; [once_tac|intros i H; vm_compute in H; in_tac; vm_compute; discriminate|vm_compute; reflexivity]).
  assert (EA : ends_agree Flex two1) by (clear; agree_tac). assert (KU : keys_unique two1) by (clear; net_tac). assert (KU' : keys_unique (backwards two1)) by (clear; net_tac).
  assert (RF : refs_ok two1) by (clear; refs_tac).
  specialize (H P K C U Am So EA KU KU' RF NT two1_run two3_run (or_introl eq_refl)). clear -H.
  assert (X : d_path (h_dm two2 0) = DPaths [[IIf 0; IIf 2; IIf 4]; [IIf 6; ILsp 1]]%nat) by (vm_compute; reflexivity).
  assert (Y : d_path (h_dm two3 0) = DPaths [[IIf 6; IIf 8; IIf 10]; [IIf 0; ILsp 0]]%nat) by (vm_compute; reflexivity).
  rewrite X, Y in H. simpl in H. destruct (H [IIf 0; IIf 2; IIf 4]%nat) as [Z _]. destruct (Z (or_introl eq_refl)) as [W|[W|[]]]; discriminate W.
Qed.
Print Assumptions C89_shortcuts_refuted.
