(** PropertiesWider.v - links added to a model without LSPs (C114). *)
From Verif Require Import Base Graph Objects Sim Api Build Spec SpecHist SpecCkt SpecSim SpecMetric SpecFlow SpecOrder SpecFail SpecWhatIf SpecTotal SpecMore SpecCost SpecExn SpecWider Nets GraphProofs RoundProofs
  PropertiesValidate PropertiesRoute PropertiesFail PropertiesOrder OrderProofs RepairProofs WhatIf WhatIfMore WhatIfApi PropertiesWhatIf PropertiesTotal PropertiesMore WhatCost WiderProofs LaidProofs.
From Coq Require Import Lqa.

(** ** C114 Added links *)
(** A routed demand stays routed, and no path gets dearer. *)
Theorem C114_routed E E' k s t s' t' d : env_ok E -> env_ok E' -> plain k s -> plain k t -> wider s t ->
  update_simulation E k s = (s', Ok tt) -> update_simulation E' k t = (t', Ok tt) -> In d (m_dms s) ->
  (d_path (h_dm s' d) <> DUnrouted -> d_path (h_dm t' d) <> DUnrouted) /\
  (forall p q, takes s' d p -> takes t' d q -> route_cost t q <= route_cost s p).
Proof.
  intros HE HE' P P' W U U' Hd. assert (ND' := proj1 (proj1 (proj2 P'))). assert (C' := proj1 (proj2 (proj1 (proj2 P')))).
  split; [exact (wide_routed s t W ND' C' E E' k s' t' HE HE' P P' U U' d Hd)|]. intros p q. exact (wide_costs s t W E E' k s' t' HE HE' P P' U U' d p q Hd).
Qed.
Print Assumptions C114_routed.
Theorem C114_delivered E E' k s t s' t' : env_ok E -> env_ok E' -> plain k s -> plain k t -> wider s t -> (forall d, In d (m_dms s) -> (0 <= d_traffic (h_dm s d))%Q) ->
  update_simulation E k s = (s', Ok tt) -> update_simulation E' k t = (t', Ok tt) -> (routed_total s' <= routed_total t')%Q.
Proof.
  intros HE HE' P P' W Pos U U'. assert (ND' := proj1 (proj1 (proj2 P'))). assert (C' := proj1 (proj2 (proj1 (proj2 P')))). exact (wide_delivered s t W ND' C' E E' k s' t' HE HE' P P' U U' Pos).
Qed.
Print Assumptions C114_delivered.

(** A demand whose paths use nothing new has its old paths, and puts on every interface what it did. *)
Theorem C114_unused E E' k s t s' t' d : env_ok E -> env_ok E' -> plain k s -> plain k t -> wider s t ->
  update_simulation E k s = (s', Ok tt) -> update_simulation E' k t = (t', Ok tt) -> In d (m_dms s) -> (forall i, on_a_path t' d i -> ~ is_new s t i) ->
  same_paths (d_path (h_dm s' d)) (d_path (h_dm t' d)) /\ forall i x y, adds k s' d i x -> adds k t' d i y -> (x == y)%Q.
Proof.
  intros HE HE' P P' W U U' Hd H. assert (ND' := proj1 (proj1 (proj2 P'))). assert (C' := proj1 (proj2 (proj1 (proj2 P')))).
  apply (wide_same s t W ND' C' E E' k s' t' HE HE' P P' U U' d Hd). intros i Hi. destruct (in_dec Nat.eq_dec i (m_ifs s)) as [|N]; [assumption|exfalso].
  apply (H i Hi). split; [|exact N]. destruct Hi as (ps & p & A & B & C).
  assert (Hd' : In d (m_dms t)) by (rewrite (wd_dms _ _ W); exact Hd).
  destruct (run_routes E' k t t' HE' P' U' d Hd') as [[A1 _]|(L & o & es & A1 & _ & _ & A2 & _)]; [congruence|]. rewrite A1 in A. injection A as <-. apply in_map_iff in B as (q & <- & Hq).
  unfold if_path in C. apply in_map_iff in C as (y & Y & Hy). injection Y as ->. apply A2 in Hq. exact (proj1 (IgpProofs.route_all _ _ _ _ _ i (proj1 Hq) Hy)).
Qed.
Print Assumptions C114_unused.

(** A path over an added link takes it once and one way; before and after it goes the cheapest ways
    of the old model. *)
Theorem C114_through E E' k s t s' t' i j a b d x y : env_ok E -> env_ok E' -> plain k s -> plain k t -> wider s t -> one_link s t i j a b ->
  update_simulation E k s = (s', Ok tt) -> update_simulation E' k t = (t', Ok tt) -> In d (m_dms s) -> takes t' d (x ++ i :: y) ->
  best_way s (dmd_from s d) x a /\ best_way s b y (dmd_to s d).
Proof.
  intros HE HE' P P' W OL U U' Hd T. assert (C' := proj1 (proj2 (proj1 (proj2 P')))). apply (takes_t s t W E' k t' HE' P' U' d _ Hd) in T.
  exact (link_through s t W C' i j a b _ x y _ OL T).
Qed.
Print Assumptions C114_through.
(** Conversely the paths cost no more than any way over the link, and a way over it that costs no more
    than they do is one of them. *)
Theorem C114_least E E' k s t s' t' i j a b d x y : env_ok E -> env_ok E' -> plain k s -> plain k t -> wider s t -> one_link s t i j a b ->
  update_simulation E k s = (s', Ok tt) -> update_simulation E' k t = (t', Ok tt) -> In d (m_dms s) ->
  i_failed (h_if t i) = false -> available (unreserved t) i -> way s (dmd_from s d) x a -> way s b y (dmd_to s d) ->
  (exists q, takes t' d q) /\ (forall q, takes t' d q -> route_cost t q <= route_cost s x + i_cost (h_if t i) + route_cost s y) /\
  (forall q, takes t' d q -> route_cost t q = route_cost s x + i_cost (h_if t i) + route_cost s y -> takes t' d (x ++ i :: y)).
Proof.
  intros HE HE' P P' W OL U U' Hd F A Wx Wy. assert (ND' := proj1 (proj1 (proj2 P'))). assert (C' := proj1 (proj2 (proj1 (proj2 P')))).
  assert (Hi : In i (m_ifs t)) by (apply (proj2 (ol_new _ _ _ _ _ _ OL i)); now left).
  assert (Wt : way t (dmd_from s d) (x ++ i :: y) (dmd_to s d)) by (apply (link_join s t i j a b OL); [now apply (wide_to s t W)|now apply (wide_to s t W)|exact Hi|now split]).
  assert (Ct : route_cost t (x ++ i :: y) = route_cost s x + i_cost (h_if t i) + route_cost s y).
  { rewrite PathProofs.route_cost_app. simpl. rewrite (wide_cost_way s t W _ _ _ Wx), (wide_cost_way s t W _ _ _ Wy). lia. }
  split; [|split].
  - destruct (wide_ex t ND' C' _ _ _ Wt) as [q Q]. exists q. now apply (takes_t s t W E' k t' HE' P' U' d q Hd).
  - intros q T. apply (takes_t s t W E' k t' HE' P' U' d q Hd) in T. rewrite <- Ct. apply T, Wt.
  - intros q T X. apply (takes_t s t W E' k t' HE' P' U' d q Hd) in T. apply (takes_t s t W E' k t' HE' P' U' d _ Hd). split; [exact Wt|]. intros r R. rewrite Ct, <- X. now apply T.
Qed.
Print Assumptions C114_least.

(** A link that in both directions costs more than some way there is changes nothing and carries nothing. *)
Theorem C114_dear E E' k s t s' t' i j a b : env_ok E -> env_ok E' -> plain k s -> plain k t -> wider s t -> one_link s t i j a b ->
  update_simulation E k s = (s', Ok tt) -> update_simulation E' k t = (t', Ok tt) ->
  (exists r, way s a r b /\ route_cost s r < i_cost (h_if t i)) -> (exists r, way s b r a /\ route_cost s r < i_cost (h_if t j)) ->
  (forall d, In d (m_dms s) -> same_paths (d_path (h_dm s' d)) (d_path (h_dm t' d))) /\
  (forall x, In x (m_ifs s) -> same_traffic (i_traffic (h_if s' x)) (i_traffic (h_if t' x))) /\
  (forall x, x = i \/ x = j -> if i_failed (h_if t x) then i_traffic (h_if t' x) = TDown else exists q, i_traffic (h_if t' x) = TNum q /\ (q == 0)%Q).
Proof.
  intros HE HE' P P' W OL U U' C1 C2. assert (ND' := proj1 (proj1 (proj2 P'))). assert (C' := proj1 (proj2 (proj1 (proj2 P')))).
  assert (N := link_unused s t W E' k t' HE' P' U' i j a b OL C1 C2). destruct (wide_traffic s t W ND' C' E E' k s' t' HE HE' P P' U U' N) as [T1 T2].
  split; [|split; [exact T1|]].
  - intros d Hd. exact (proj1 (wide_same s t W ND' C' E E' k s' t' HE HE' P P' U U' d Hd (fun x => N d x Hd))).
  - intros x Hx. apply T2. now apply (ol_new _ _ _ _ _ _ OL).
Qed.
Print Assumptions C114_dear.

(** A successful add_circuit makes such a model, and update_simulation succeeds on it if it did before. *)
Theorem C114_add_circuit E k a b na nb ca cb cap c s t : env_ok E -> allocated s -> plain k s -> In a (m_nds s) -> In b (m_nds s) -> fits k s (nd_name s a) (nd_name s b) ->
  add_circuit E k a b na nb ca cb cap c s = (t, Ok tt) ->
  exists i j, wider s t /\ one_link s t i j (nd_name s a) (nd_name s b) /\ i_cost (h_if t i) = ca /\ i_cost (h_if t j) = cb /\
    i_failed (h_if t i) = false /\ i_failed (h_if t j) = false /\ available (unreserved t) i /\ available (unreserved t) j /\ m_ifs t = (m_ifs s ++ [i; j])%list /\ plain k t /\
    forall E' E'' s', env_ok E' -> env_ok E'' -> update_simulation E' k s = (s', Ok tt) -> exists t', update_simulation E'' k t = (t', Ok tt).
Proof.
  intros HE Al P Ha Hb Ft R. destruct P as (NL & WP & EK & CS & EA & KU). destruct (add_circuit_laid E k a b na nb ca cb cap c s t HE Al (proj1 WP) CS EA Ft R) as (i & j & L).
  assert (Pt := ld_plain _ _ _ _ _ _ _ _ _ _ _ _ L (proj1 WP) Ft Ha Hb (conj NL (conj WP (conj EK (conj CS (conj EA KU)))))). exists i, j. split; [exact (ld_wider _ _ _ _ _ _ _ _ _ _ _ _ L)|]. split; [exact (ld_link _ _ _ _ _ _ _ _ _ _ _ _ L)|].
  split; [apply (ld_new_i _ _ _ _ _ _ _ _ _ _ _ _ L)|]. split; [apply (ld_new_j _ _ _ _ _ _ _ _ _ _ _ _ L)|].
  split; [apply (ld_new _ _ _ _ _ _ _ _ _ _ _ _ L); auto|]. split; [apply (ld_new _ _ _ _ _ _ _ _ _ _ _ _ L); auto|]. split; [apply (ld_open_new _ _ _ _ _ _ _ _ _ _ _ _ L); auto|]. split; [apply (ld_open_new _ _ _ _ _ _ _ _ _ _ _ _ L); auto|].
  split; [exact (ld_ifs _ _ _ _ _ _ _ _ _ _ _ _ L)|]. split; [exact Pt|]. intros E' E'' s' HE' HE'' U. destruct (proj1 (C67_succeeds_exactly E' k s HE' NL WP EK CS) (ex_intro _ s' U)) as [D F].
  destruct Pt as (NLt & WPt & EKt & CSt & _). apply (C67_succeeds_exactly E'' k t HE'' NLt WPt EKt CSt). split; [exact (ld_demands _ _ _ _ _ _ _ _ _ _ _ _ L D)|exact (ld_fit _ _ _ _ _ _ _ _ _ _ _ _ L Ft F)].
Qed.
Print Assumptions C114_add_circuit.

(** A=B costs 10, B=C costs 1; A=C is added at cost [c]. *)
Definition base : st := net [nd "A"; nd "B"; nd "C"; nd "D"]
  [itf "ab" 10 100 0 1 1; itf "ba" 10 100 1 0 1; itf "bc" 1 10 1 2 2; itf "cb" 1 10 2 1 2] [dmd 0 1 50 "d0"; dmd 1 2 5 "d1"; dmd 0 3 1 "d2"] [] [].
Definition base2 : st := fst (update_simulation E0 Flex base).
Definition more (c : Z) : st := fst (add_circuit E0 Flex 0 2 "ac" "ca" c c 100 (CInt 9) base).
Definition more2 (c : Z) : st := fst (update_simulation E0 Flex (more c)).
Lemma base_run : update_simulation E0 Flex base = (base2, Ok tt). Proof. unfold base2. apply run_split. vm_compute. reflexivity. Qed.
Lemma more_add c : c = 1 \/ c = 20 -> add_circuit E0 Flex 0 2 "ac" "ca" c c 100 (CInt 9) base = (more c, Ok tt). Proof. intros [-> | ->]; unfold more; apply run_split; vm_compute; reflexivity. Qed.
Lemma more_run c : c = 1 \/ c = 20 -> update_simulation E0 Flex (more c) = (more2 c, Ok tt). Proof. intros [-> | ->]; unfold more2; apply run_split; vm_compute; reflexivity. Qed.
Lemma base_plain : plain Flex base.
Proof. split; [reflexivity|]. split; [posed0_tac|]. split; [known_tac|]. split; [cids_tac|]. split; [agree_tac|]. vm_compute; nodup_tac. Qed.
Lemma base_alloc : allocated base. Proof. unfold allocated. apply refs_below; vm_compute; reflexivity. Qed.
Lemma base_fits : fits Flex base "A" "C". Proof. split; [discriminate|intros H; discriminate H]. Qed.
Lemma more_wider c : c = 1 \/ c = 20 -> exists i j, wider base (more c) /\ one_link base (more c) i j "A" "C" /\ i_cost (h_if (more c) i) = c /\ i_cost (h_if (more c) j) = c /\
  i_failed (h_if (more c) i) = false /\ i_failed (h_if (more c) j) = false /\ available (unreserved (more c)) i /\ available (unreserved (more c)) j /\ m_ifs (more c) = (m_ifs base ++ [i; j])%list /\ plain Flex (more c).
Proof.
  intros Hc. assert (A : In 0%nat (m_nds base)) by (vm_compute; auto). assert (B : In 2%nat (m_nds base)) by (vm_compute; auto).
  destruct (C114_add_circuit E0 Flex 0 2 "ac" "ca" c c 100 (CInt 9) base (more c) E0_ok base_alloc base_plain A B base_fits (more_add c Hc)) as (i & j & W & O & X1 & X2 & X3 & X4 & X5 & X6 & X7 & X8 & _).
  exists i, j. split; [exact W|]. split; [exact O|]. repeat (split; [assumption|]). exact X8.
Qed.
Lemma way_from s i p v : In i (m_ifs s) -> considered (unreserved s) false 0 false i = true -> way s (rem s i) p v -> way s (loc s i) (i :: p) v.
Proof. intros Hi H R. unfold way in *. change (loc s i) with (loc (unreserved s) i). constructor; [exact Hi|now apply RouteProofs.considered_usable|exact R]. Qed.
Example C114_example : d_path (h_dm base2 0) = DPaths [[IIf 0]]%nat /\ d_path (h_dm (more2 1) 0) = DPaths [[IIf 100; IIf 3]]%nat /\ d_path (h_dm (more2 20) 0) = DPaths [[IIf 0]]%nat /\
  (exists r, way base "A" r "C" /\ route_cost base r < 20) /\ (exists r, way base "C" r "A" /\ route_cost base r < 20).
Proof.
  split; [vm_compute; reflexivity|]. split; [vm_compute; reflexivity|]. split; [vm_compute; reflexivity|].
  split; [exists [0; 2]%nat|exists [3; 1]%nat]; (split; [|vm_compute; reflexivity]).
  - apply (way_from base 0%nat [2%nat]); [vm_compute; auto|vm_compute; reflexivity|]. apply (way_from base 2%nat []); [vm_compute; auto|vm_compute; reflexivity|constructor].
  - apply (way_from base 3%nat [1%nat]); [vm_compute; auto|vm_compute; reflexivity|]. apply (way_from base 1%nat []); [vm_compute; auto|vm_compute; reflexivity|constructor].
Qed.
(** More links may load an old link more, even beyond its capacity. *)
Theorem C114_load_refuted :
  ~ (forall E E' k s t s' t' i q r, env_ok E -> env_ok E' -> plain k s -> plain k t -> wider s t ->
       update_simulation E k s = (s', Ok tt) -> update_simulation E' k t = (t', Ok tt) -> In i (m_ifs s) ->
       i_traffic (h_if s' i) = TNum q -> i_traffic (h_if t' i) = TNum r -> (r <= q)%Q \/ (r <= i_cap (h_if t i))%Q).
Proof.
  intros H. destruct (more_wider 1 (or_introl eq_refl)) as (i & j & W & _ & _ & _ & _ & _ & _ & _ & _ & P').
  assert (A : exists q, i_traffic (h_if base2 3) = TNum q /\ (q == 0)%Q) by (clear; eexists; split; [vm_compute; reflexivity|vm_compute; reflexivity]).
  assert (B : exists r, i_traffic (h_if (more2 1) 3) = TNum r /\ (r == 50)%Q) by (clear; eexists; split; [vm_compute; reflexivity|vm_compute; reflexivity]).
  assert (C : i_cap (h_if (more 1) 3) = 10%Q) by (clear; vm_compute; reflexivity). assert (I : In 3%nat (m_ifs base)) by (clear; vm_compute; auto).
  destruct A as (q & A1 & A2), B as (r & B1 & B2). assert (X := H E0 E0 Flex base (more 1) base2 (more2 1) 3%nat q r E0_ok E0_ok base_plain P' W base_run (more_run 1 (or_introl eq_refl)) I A1 B1).
  rewrite C, A2, B2 in X. clear - X. destruct X as [X|X]; vm_compute in X; apply X; reflexivity.
Qed.
Print Assumptions C114_load_refuted.
