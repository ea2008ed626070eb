(** MirrorProofs.v - least-cost routes the other way, and from and to the nodes on the way. *)
From Verif Require Import Base Graph Objects Sim Api Spec SpecCkt SpecSim SpecFlow SpecOrder GraphProofs MonadProofs CircuitProofs PathProofs RouteProofs LeastProofs IgpProofs Frames ApiFrames ApiProofs ObjProofs OrderProofs SpecWhatIf WhatIf SpecCost.

(** Lists related one to one *)
Lemma related_length {A B} (r : A -> B -> Prop) (l : list A) : NoDup l -> forall m,
  (forall x, In x l -> exists y, In y m /\ r x y) -> (forall x x' y, In x l -> In x' l -> r x y -> r x' y -> x = x') -> (List.length l <= List.length m)%nat.
Proof.
  induction 1 as [|x l Hx N IH]; intros m T J; [simpl; lia|]. destruct (T x (or_introl eq_refl)) as (y & Hy & R).
  apply in_split in Hy as (m1 & m2 & ->). rewrite app_length. simpl. rewrite Nat.add_succ_r. apply le_n_S. rewrite <- app_length. apply IH.
  - intros z Hz. destruct (T z (or_intror Hz)) as (w & Hw & R'). exists w. split; [|exact R']. rewrite in_app_iff in Hw |- *. simpl in Hw. destruct Hw as [Hw|[<-|Hw]]; auto.
    exfalso. apply Hx. rewrite (J x z y (or_introl eq_refl) (or_intror Hz) R R'). exact Hz.
  - intros a b w Ha Hb. apply J; right; assumption.
Qed.

Section Mirror.
Variables (k : kind) (s : st).
Hypothesis Ev : even_links k s.
Notation RT := (route s (usable s)).
Lemma reverse_sym i j : is_reverse k s i j -> is_reverse k s j i.
Proof. intros (A & B & [C|C]); split; auto; split; auto. Qed.
Lemma mirror_one i : In i (m_ifs s) -> usable s i -> exists j, In j (m_ifs s) /\ usable s j /\ is_reverse k s i j /\ i_cost (h_if s j) = i_cost (h_if s i).
Proof. intros Hi Hu. destruct (Ev i Hi Hu) as [(j & Hj & Rj & _) A]. exists j. destruct (A j Hj Rj). auto. Qed.
Lemma mirror_route u p v : RT u p v -> exists q, RT v q u /\ opposite k s p q /\ route_cost s q = route_cost s p.
Proof.
  induction 1 as [n|i p v Hi Hu Rt (q & Rq & Oq & Cq)]; [exists []; split; [constructor|]; split; [constructor|reflexivity]|].
  destruct (mirror_one i Hi Hu) as (j & Hj & Uj & (A & B & D) & C). exists (q ++ [j])%list. split; [|split].
  - apply (route_app _ _ _ _ _ _ _ Rq). rewrite B, A. constructor; auto. constructor.
  - unfold opposite. simpl. apply Forall2_app; [exact Oq|]. constructor; [split; auto|constructor].
  - rewrite route_cost_app. simpl. lia.
Qed.
Lemma mirror_unique p p' q : (forall i, In i p -> In i (m_ifs s) /\ usable s i) -> (forall i, In i p' -> In i (m_ifs s) /\ usable s i) -> (forall i, In i q -> In i (m_ifs s) /\ usable s i) ->
  opposite k s p q -> opposite k s p' q -> p = p'.
Proof.
  unfold opposite. intros Hp Hp' Hq A B. rewrite <- (rev_involutive p), <- (rev_involutive p'). f_equal.
  assert (Gp : forall i, In i (rev p) -> In i (m_ifs s)) by (intros i X; apply in_rev in X; now apply Hp).
  assert (Gp' : forall i, In i (rev p') -> In i (m_ifs s)) by (intros i X; apply in_rev in X; now apply Hp').
  clear Hp Hp'. revert Gp Gp' B. generalize (rev p'). induction A as [|i j x q H F IH]; intros y Gp Gp' B; inversion B; subst; [reflexivity|]. f_equal.
  - destruct (Hq j (or_introl eq_refl)) as [Hj Uj]. destruct (Ev j Hj Uj) as [(z & _ & _ & Z) _]. rewrite (Z i), (Z x0); auto using reverse_sym.
    + apply Gp'. left; auto.
    + apply Gp. left; auto.
  - apply IH; auto.
    + intros z Hz. apply Hq. right; auto.
    + intros z Hz. apply Gp. right; auto.
    + intros z Hz. apply Gp'. right; auto.
Qed.
Lemma mirror_least u p v : least_cost s (usable s) u p v -> exists q, least_cost s (usable s) v q u /\ opposite k s p q /\ route_cost s q = route_cost s p.
Proof.
  intros [Rt M]. destruct (mirror_route _ _ _ Rt) as (q & Rq & O & C). exists q. split; [|auto]. split; [exact Rq|]. intros r Rr.
  destruct (mirror_route _ _ _ Rr) as (r' & Rr' & _ & C'). specialize (M r' Rr'). lia.
Qed.
End Mirror.

Section Paths.
Variables (E : env) (k : kind) (s s' : st).
Hypothesis HE : env_ok E.
Hypothesis WP : well_posed s.
Hypothesis U : update_simulation E k s = (s', Ok tt).
Hypothesis SF : same_failures s s'.
Lemma dms_kept : m_dms s' = m_dms s.
Proof. assert (A := update_input E k s). rewrite U in A. apply A. Qed.
Let Dms := dms_kept.
Lemma igp_routes d : igp_demand k s' d ->
  (d_path (h_dm s' d) = DUnrouted /\ forall p, ~ least_cost s' (usable s') (dmd_from s' d) p (dmd_to s' d)) \/
  exists L, d_path (h_dm s' d) = DPaths (map if_path L) /\ L <> [] /\ NoDup L /\ forall p, In p L <-> least_cost s' (usable s') (dmd_from s' d) p (dmd_to s' d).
Proof.
  intros (Hd & NL & NS). rewrite Dms in Hd. destruct WP as (N & C & T). assert (A := igp_paths E k HE s s' d N C T U SF Hd NL NS).
  destruct (d_path (h_dm s' d)) as [|ps]; [left; auto|]. right. destruct A as (L & -> & Ne & ND & A). exists L. auto.
Qed.
Lemma igp_routes_none d : In d (m_dms s) -> no_lsp_for s' d -> (d_path (h_dm s' d) = DUnrouted <-> forall p, ~ route s' (usable s') (dmd_from s' d) p (dmd_to s' d)).
Proof. destruct WP as (N & C & T). intros Hd NL. exact (igp_unrouted E k HE s s' d N C T U SF Hd NL). Qed.
Lemma takes_least d p : igp_demand k s' d -> (takes s' d p <-> least_cost s' (usable s') (dmd_from s' d) p (dmd_to s' d)).
Proof.
  intros Hd. destruct (igp_routes d Hd) as [[A B]|(L & A & _ & _ & B)].
  - split; [intros (ps & X & _); congruence|intros X; destruct (B p X)].
  - split.
    + intros (ps & X & Y). rewrite A in X. injection X as <-. apply in_if_path in Y. now apply B.
    + intros X. exists (map if_path L). split; [exact A|]. apply in_map. now apply B.
Qed.

Lemma mirror_paths d e : even_links k s' -> igp_demand k s' d -> igp_demand k s' e -> dmd_from s' e = dmd_to s' d -> dmd_to s' e = dmd_from s' d ->
  opposite_paths k s' (d_path (h_dm s' d)) (d_path (h_dm s' e)).
Proof.
  intros Ev Hd He Fr To. destruct (igp_routes d Hd) as [[-> A]|(L & -> & Ne & NL & A)], (igp_routes e He) as [[-> B]|(M & -> & Ne' & NM & B)]; rewrite Fr, To in B.
  - exact I.
  - destruct M as [|q M]; [congruence|]. destruct (mirror_least k s' Ev _ _ _ (proj1 (B q) (or_introl eq_refl))) as (p & Lp & _). exact (A p Lp).
  - destruct L as [|q L]; [congruence|]. destruct (mirror_least k s' Ev _ _ _ (proj1 (A q) (or_introl eq_refl))) as (p & Lp & _). exact (B p Lp).
  - simpl. rewrite !map_length.
    assert (X : forall u v L M, NoDup L -> (forall p, In p L <-> least_cost s' (usable s') u p v) -> (forall p, In p M <-> least_cost s' (usable s') v p u) -> (List.length L <= List.length M)%nat).
    { clear - Ev. intros u v L M N A B. apply (related_length (fun p q => opposite k s' p q /\ In q M) L N).
      - intros p Hp. apply A in Hp. destruct (mirror_least k s' Ev _ _ _ Hp) as (q & Lq & O & _). exists q. apply B in Lq. auto.
      - intros p p' q Hp Hp' [O Hq] [O' _]. apply A in Hp, Hp'. apply B in Hq. refine (mirror_unique k s' Ev p p' q _ _ _ O O'); intros i Hi; eapply route_all; eauto; [apply Hp|apply Hp'|apply Hq]. }
    split.
    + apply Nat.le_antisymm; [exact (X _ _ L M NL A B)|exact (X _ _ M L NM B A)].
    + intros p Hp. apply in_if_path, A in Hp. destruct (mirror_least k s' Ev _ _ _ Hp) as (q & Lq & O & C). exists q. split; [|auto]. apply in_if_path. now apply B.
Qed.

(** ** From and to the nodes on the way *)
Lemma route_here ok u p v : route s' ok u p v -> forall w, route s' ok u p w -> w = v.
Proof. intros A w B. exact (route_end _ _ _ _ _ _ B A). Qed.
Lemma rest_paths d e x y z : igp_demand k s' d -> igp_demand k s' e -> takes s' d (x ++ y) -> dmd_to s' e = dmd_to s' d -> dmd_from s' e = ends_at s' (dmd_from s' d) x ->
  (takes s' e z <-> takes s' d (x ++ z)).
Proof.
  intros Hd He T To Fr. rewrite (takes_least e z He), (takes_least d _ Hd) in *. rewrite (takes_least d _ Hd) in T. rewrite To.
  destruct T as [Rt M]. apply route_app_inv in Rt as (n & R1 & R2).
  assert (Hn : dmd_from s' e = n).
  { rewrite Fr. clear - R1. induction R1 as [m|i p v Hi Ho R IH]; [reflexivity|exact IH]. }
  rewrite Hn. split.
  - intros [Rz Mz]. split; [exact (route_app _ _ _ _ _ _ _ R1 Rz)|]. intros q Rq. specialize (M q Rq). specialize (Mz y R2). rewrite route_cost_app in *. lia.
  - intros [Rz Mz]. apply route_app_inv in Rz as (m & Z1 & Z2). rewrite (route_here _ _ _ _ R1 m Z1) in Z2. split; [exact Z2|]. intros q Rq.
    specialize (Mz (x ++ q)%list (route_app _ _ _ _ _ _ _ R1 Rq)). rewrite !route_cost_app in Mz. lia.
Qed.
Lemma start_paths d e x y z : igp_demand k s' d -> igp_demand k s' e -> takes s' d (x ++ y) -> dmd_from s' e = dmd_from s' d -> dmd_to s' e = ends_at s' (dmd_from s' d) x ->
  (takes s' e z <-> takes s' d (z ++ y)).
Proof.
  intros Hd He T Fr To. rewrite (takes_least e z He), (takes_least d _ Hd) in *. rewrite (takes_least d _ Hd) in T. rewrite Fr.
  destruct T as [Rt M]. apply route_app_inv in Rt as (n & R1 & R2).
  assert (Hn : dmd_to s' e = n).
  { rewrite To. clear - R1. induction R1 as [m|i p v Hi Ho R IH]; [reflexivity|exact IH]. }
  rewrite Hn. split.
  - intros [Rz Mz]. split; [exact (route_app _ _ _ _ _ _ _ Rz R2)|]. intros q Rq. specialize (M q Rq). specialize (Mz x R1). rewrite route_cost_app in *. lia.
  - intros [Rz Mz]. apply route_app_inv in Rz as (m & Z1 & Z2).
    assert (m = n). { clear - Z2 R2. inversion R2; subst; inversion Z2; subst; auto. } subst m. split; [exact Z1|]. intros q Rq.
    specialize (Mz (q ++ y)%list (route_app _ _ _ _ _ _ _ Rq R2)). rewrite !route_cost_app in Mz. lia.
Qed.
Lemma triangle d e f p q : igp_demand k s' d -> igp_demand k s' e -> igp_demand k s' f -> dmd_from s' e = dmd_from s' d -> dmd_to s' e = dmd_from s' f -> dmd_to s' f = dmd_to s' d ->
  takes s' e p -> takes s' f q -> (exists r, takes s' d r) /\ forall r, takes s' d r -> route_cost s' r <= route_cost s' p + route_cost s' q.
Proof.
  intros Hd He Hf A B C Tp Tq. apply (takes_least e p He) in Tp. apply (takes_least f q Hf) in Tq. rewrite A, B in Tp. rewrite C in Tq. destruct Tp as [Rp _], Tq as [Rq _].
  assert (Rt := route_app _ _ _ _ _ _ _ Rp Rq). split.
  - destruct (igp_routes d Hd) as [[Z0 X]|(L & X & Ne & _ & Y)].
    + exfalso. destruct Hd as (Hd & NL & _). rewrite Dms in Hd. destruct (igp_routes_none d Hd NL) as [W _]. exact (W Z0 _ Rt).
    + destruct L as [|r L]; [congruence|]. exists r. exact (proj2 (takes_least d r Hd) (proj1 (Y r) (or_introl eq_refl))).
  - intros r Hr. apply (takes_least d r Hd) in Hr. rewrite <- route_cost_app. apply Hr, Rt.
Qed.
End Paths.

Lemma even_run E k s s' : env_ok E -> plain k s -> update_simulation E k s = (s', Ok tt) -> even_config k s -> even_links k s'.
Proof.
  intros HE P U Ev. destruct P as (NL & WP & EK & CS & EA & KU). assert (en := ended_run k E s s' HE NL WP CS EA U). assert (Al := en_alike _ _ en).
  destruct (proj1 (succeeds E k HE s NL WP EK CS) (ex_intro _ s' U)) as [D F].
  assert (C := config_update E k s). rewrite U in C. simpl in C.
  assert (Ifs : m_ifs s' = m_ifs s) by apply (cf_sets _ _ _ C).
  assert (Lo : forall i, loc s' i = loc s i) by exact (cf_loc k s s' C). assert (Re : forall i, rem s' i = rem s i) by exact (cf_rem k s s' C).
  assert (Rv : forall i j, is_reverse k s' i j <-> is_reverse k s i j).
  { intros i j. unfold is_reverse. rewrite !Lo, !Re. destruct (kind_dec k) as [Hk|Hk].
    - rewrite (proj2 (cf_if _ _ _ C i) Hk), (proj2 (cf_if _ _ _ C j) Hk). reflexivity.
    - split; intros (A & B & _); auto. }
  intros i Hi Ui. rewrite Ifs in Hi |- *. assert (Ui' : usable (unreserved s) i) by (apply (alike_usable s' (unreserved s)); [apply alike_sym, Al|rewrite Ifs; exact Hi|exact Ui]).
  destruct F as (PU & _ & _ & _ & NP). destruct (PU i Hi (proj2 Ui')) as [(j & Hj & Aj & J1 & J2) One]. simpl in Hj.
  split.
  - destruct (kind_dec k) as [Hk|Hk].
    + destruct (One Hk (CS Hk i Hi)) as [_ (x & Hx & (X1 & X2 & X3) & X)]. exists x. simpl in Hx. split; [exact Hx|]. split.
      * apply Rv. split; [symmetry; exact X2|]. split; [symmetry; exact X1|]. right. symmetry. exact X3.
      * intros y Hy Ry. apply Rv in Ry as (Y1 & Y2 & Y3). apply (X y Hy). split; [symmetry; exact Y2|]. split; [symmetry; exact Y1|]. destruct Y3 as [Y3|Y3]; [rewrite Hk in Y3; discriminate Y3|symmetry; exact Y3].
    + exists j. split; [exact Hj|]. split; [apply Rv; split; [symmetry; exact J2|]; split; [symmetry; exact J1|left; exact Hk]|].
      intros y Hy Ry. apply Rv in Ry as (Y1 & Y2 & _). destruct (NP Hk) as [N1 _]. apply (NoDup_map_inj _ _ y j N1 Hy Hj).
      change (ends_text (loc s y) (rem s y) = ends_text (loc s j) (rem s j)). change (loc s j = rem s i) in J1. change (rem s j = loc s i) in J2. congruence.
  - intros x Hx Rx. apply Rv in Rx. destruct (Ev i x Hi Hx Rx) as [Cx Ax]. split.
    + apply (alike_usable (unreserved s) s'); [exact Al|exact Hx|]. split; [|apply Ax, Ui'].
      change (i_failed (h_if s x) = false). rewrite <- (EA i x Hi Hx Rx). exact (proj1 Ui').
    + destruct (al_data _ _ Al i Hi) as (-> & _). destruct (al_data _ _ Al x Hx) as (-> & _). exact Cx.
Qed.
