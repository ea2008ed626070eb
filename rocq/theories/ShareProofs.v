(** ShareProofs.v - the entries of path_detail of a demand on IGP paths. *)
From Verif Require Import Base Graph Objects Sim Spec SpecCkt SpecSim SpecMetric SpecFlow GraphProofs MonadProofs RoundProofs ResProofs ObjProofs CircuitProofs
  ValidateProofs GroupProofs PathProofs QuietProofs RouteProofs LeastProofs IgpProofs Ecmp TrafficProofs.
From Coq Require Import Lqa.

(** ** set(...) of the interfaces of some paths *)
Lemma dedup_In {A} (eqb : A -> A -> bool) l x : In x (dedup_by eqb l) -> In x l.
Proof. induction l as [|y l IH]; simpl; auto. intros [->|H]; auto. apply filter_In in H as [H _]. auto. Qed.
Lemma dedup_spec {A} (eqb : A -> A -> bool) l : (forall x y, In x l -> In y l -> (eqb x y = true <-> x = y)) ->
  NoDup (dedup_by eqb l) /\ forall x, In x (dedup_by eqb l) <-> In x l.
Proof.
  induction l as [|y l IH]; intros H; [split; [constructor|tauto]|].
  destruct IH as [N I]; [intros; apply H; simpl; auto|]. simpl. split.
  - constructor; [|now apply NoDup_filter]. intros X. apply filter_In in X as [_ X].
    assert (Y : eqb y y = true) by (apply H; simpl; auto). rewrite Y in X. discriminate.
  - intros x. rewrite filter_In, I. split; [tauto|]. intros [->|Hx]; auto. destruct (eqb y x) eqn:Ex; [|auto].
    left. apply H in Ex; simpl; auto.
Qed.
Lemma dedup_map {A B} (f : A -> B) (eqa : A -> A -> bool) (eqb : B -> B -> bool) l : (forall x y, eqb (f x) (f y) = eqa x y) ->
  dedup_by eqb (map f l) = map f (dedup_by eqa l).
Proof.
  intros H. induction l as [|x l IH]; auto. simpl. rewrite IH. f_equal. generalize (dedup_by eqa l). intros m.
  induction m as [|y m IHm]; auto. simpl. rewrite H. destruct (eqa x y); simpl; auto. now f_equal.
Qed.
Lemma concat_if_paths L : List.concat (map if_path L) = map IIf (List.concat L).
Proof. induction L as [|p L IH]; auto. simpl. rewrite IH. unfold if_path. now rewrite map_app. Qed.

Definition used (s : st) (L : list (list nat)) : list nat := dedup_by (iface_eqb s) (List.concat L).
Lemma item_set_used s L : item_set s (map if_path L) = map IIf (used s L).
Proof. unfold item_set, used. rewrite concat_if_paths. now apply dedup_map. Qed.

Section Entries.
Variables (k : kind) (s : st) (L : list (list nat)) (T : Q).
Hypothesis U : if_keys_unique s.
Hypothesis HL : forall p i, In p L -> In i p -> In i (m_ifs s).

Lemma used_spec : NoDup (used s L) /\ forall i, In i (used s L) <-> exists p, In p L /\ In i p.
Proof.
  destruct (dedup_spec (iface_eqb s) (List.concat L)) as [A B].
  - intros x y Hx Hy. apply in_concat in Hx as (p & ? & ?). apply in_concat in Hy as (q & ? & ?). apply iface_eqb_eq; eauto.
  - split; [exact A|]. intros i. unfold used. rewrite B. rewrite in_concat. reflexivity.
Qed.
Definition nexts (n : string) : list nat := filter (fun i => String.eqb (loc s i) n) (used s L).
Lemma nexts_nodup n : NoDup (nexts n).
Proof. apply NoDup_filter, used_spec. Qed.
Lemma nexts_in n i : In i (nexts n) <-> loc s i = n /\ exists p, In p L /\ In i p.
Proof. unfold nexts. rewrite filter_In, String.eqb_eq. destruct used_spec as [_ X]. rewrite X. tauto. Qed.
Lemma next_hops n : next_hop_count s (map IIf (used s L)) n = Z.of_nat (List.length (nexts n)).
Proof.
  unfold next_hop_count, nexts. f_equal. generalize (used s L). intros l. induction l as [|i l IH]; auto. simpl.
  change (ilocal s i) with (loc s i). destruct (String.eqb (loc s i) n); simpl; auto.
Qed.

Let c (i : nat) : Z := Z.of_nat (List.length (nexts (loc s i))).
Fixpoint prod (p : list nat) : Z := match p with [] => 1 | i :: t => c i * prod t end.
Lemma c_pos p i : In p L -> In i p -> 1 <= c i.
Proof.
  intros Hp Hi. unfold c. assert (X : In i (nexts (loc s i))) by (apply nexts_in; eauto). destruct (nexts (loc s i)); [destruct X|simpl; lia].
Qed.
Lemma splits_max p : (forall i, In i p -> 1 <= c i) -> forall a, 1 <= a ->
  fold_left Z.max (map snd (splits_along s (map IIf (used s L)) a (if_path p))) a = a * prod p.
Proof.
  induction p as [|i p IH]; intros H a Ha; [simpl; lia|]. cbn [if_path map splits_along item_src snd fold_left prod].
  rewrite next_hops. change (ilocal s i) with (loc s i). fold (c i). fold (if_path p). cbn [snd]. assert (C := H i (or_introl eq_refl)).
  assert (A : a <= a * c i) by nia.
  rewrite Z.max_r by lia. rewrite IH; [lia| |nia]. intros; apply H; simpl; auto.
Qed.
Lemma entry_value p : In p L -> p <> [] -> exists e, path_entry k s (item_set s (map if_path L)) T (if_path p) = Ok e /\
  entry_path e = if_path p /\ pi_traffic e = (let t := T / inject_Z (prod p) in match k with Flex => t | Perf => round4 t end)%Q.
Proof.
  intros Hp Np. unfold path_entry. rewrite item_set_used. destruct p as [|i p]; [congruence|].
  cbn [if_path map splits_along item_src snd Zmax_list]. rewrite next_hops. change (ilocal s i) with (loc s i). fold (c i). fold (if_path p).
  assert (C : forall x, In x (i :: p) -> 1 <= c x) by (intros x Hx; eapply c_pos; eauto). assert (C0 := C i (or_introl eq_refl)).
  replace (1 * c i) with (c i) by lia. rewrite splits_max; [|intros; apply C; simpl; auto|auto]. 
  eexists. split; [reflexivity|]. destruct k; split; reflexivity.
Qed.
Lemma deg_c i : deg nexts (loc s i) = inject_Z (c i).
Proof. reflexivity. Qed.
Lemma prod_w p : (forall i, In i p -> 1 <= c i) -> (T / inject_Z (prod p) == T * w (loc s) nexts p)%Q.
Proof.
  intros H. unfold Qdiv. apply Qmult_comp; [reflexivity|]. induction p as [|i p IH]; [reflexivity|]. cbn [prod w].
  rewrite inject_Z_mult, Qinv_mult_distr, IH, deg_c; [reflexivity|]. intros; apply H; simpl; auto.
Qed.
End Entries.

(** path_detail against the paths *)
Definition shares (k : kind) (T : Q) (W : list nat -> Q) (L : list (list nat)) (es : list pinfo) : Prop :=
  Forall2 (fun p e => entry_path e = if_path p /\ 
    match k with Flex => pi_traffic e == T * W p | Perf => rounds 10000 (T * W p) (pi_traffic e) end)%Q L es.

Lemma shares_paths k T W L es : shares k T W L es -> map entry_path es = map if_path L.
Proof. induction 1 as [|p e L es [H _] _ IH]; simpl; congruence. Qed.
Lemma shares_sum T W L es (f : list item -> bool) : shares Flex T W L es ->
  (total (filter (fun e => f (entry_path e)) es) == T * sumq (fun p => b2q (f (if_path p)) * W p) L)%Q.
Proof.
  unfold total. induction 1 as [|p e L es [H1 H2] _ IH]; [unfold sumq; simpl; ring|]. rewrite sumq_cons. cbn [filter]. rewrite H1.
  destruct (f (if_path p)); unfold b2q at 1; simpl; rewrite IH, ?H2; ring.
Qed.
Lemma shares_total T W L es : shares Flex T W L es -> (total es == T * sumq W L)%Q.
Proof. unfold total. induction 1 as [|p e L es [H1 H2] _ IH]; [unfold sumq; simpl; ring|]. rewrite sumq_cons. simpl. rewrite IH, H2. ring. Qed.
Lemma shares_perf T W L es : shares Perf T W L es -> (Qabs (total es - T * sumq W L) <= inject_Z (Z.of_nat (List.length es)) * (1 # 20000))%Q.
Proof.
  unfold total. induction 1 as [|p e L es [H1 H2] _ IH].
  - assert (X : (Qsum (map pi_traffic []) - T * sumq W [] == 0)%Q) by (unfold sumq; cbn [map Qsum fold_right]; ring). rewrite X. discriminate.
  - rewrite sumq_cons. simpl map. cbn [Qsum fold_right List.length]. fold (Qsum (map pi_traffic es)). destruct H2 as (z & _ & H2 & _).
    rewrite Nat2Z.inj_succ. unfold Z.succ. rewrite inject_Z_plus.
    setoid_replace (pi_traffic e + Qsum (map pi_traffic es) - T * (W p + sumq W L))%Q
      with (- (T * W p - pi_traffic e) + (Qsum (map pi_traffic es) - T * sumq W L))%Q by ring.
    eapply Qle_trans; [apply Qabs_triangle|]. rewrite Qabs_opp. change (inject_Z 1) with 1%Q. change (1 # (2 * 10000))%Q with (1 # 20000)%Q in H2. lra.
Qed.

Lemma crosses_in i p : crosses i (if_path p) = true <-> In i p.
Proof.
  unfold crosses, if_path. rewrite existsb_exists. split.
  - intros (x & Hx & E). apply in_map_iff in Hx as (j & <- & Hj). apply Nat.eqb_eq in E. now subst.
  - intros H. exists (IIf i). split; [now apply in_map|apply Nat.eqb_refl].
Qed.
Lemma crosses_memn i p : crosses i (if_path p) = memn i p.
Proof. apply eq_true_iff_eq. rewrite crosses_in. symmetry. apply memn_in. Qed.
Lemma visits_in s u n p : visits s u n (if_path p) = true <-> In n (route_nodes s u p).
Proof.
  unfold visits, route_nodes, if_path. rewrite orb_true_iff, String.eqb_eq, existsb_exists. simpl. split; intros [H|H]; auto; right.
  - destruct H as (x & Hx & E). apply in_map_iff in Hx as (j & <- & Hj). apply String.eqb_eq in E. subst. now apply in_map.
  - apply in_map_iff in H as (j & <- & Hj). exists (IIf j). split; [now apply in_map|apply String.eqb_refl].
Qed.
Lemma visits_mems s u n p : visits s u n (if_path p) = mems n (nodes (rem s) u p).
Proof. apply eq_true_iff_eq. rewrite visits_in. symmetry. apply mems_in. Qed.
Lemma shares_cross k T W L es i : shares k T W L es -> ((exists e, In e es /\ crosses i (entry_path e) = true) <-> exists p, In p L /\ In i p).
Proof.
  intros H. assert (P := shares_paths _ _ _ _ _ H). split.
  - intros (e & He & C). assert (X : In (entry_path e) (map if_path L)) by (rewrite <- P; now apply in_map).
    apply in_map_iff in X as (p & E & Hp). rewrite <- E in C. apply crosses_in in C. eauto.
  - intros (p & Hp & Hi). assert (X : In (if_path p) (map entry_path es)) by (rewrite P; now apply in_map).
    apply in_map_iff in X as (e & E & He). exists e. split; auto. rewrite E. now apply crosses_in.
Qed.

(** ** The demands of a simulation *)
Section Done.
Variable E : env.
Variable k : kind.
Hypothesis HE : env_ok E.
Variables s s1 s2 s3 s4 s' : st.
Hypothesis Sm : simulated E k s s1 s2 s3 s4 s'.
Hypothesis N : NoDup (m_ifs s).

Lemma sm_detail d : In d (m_dms s) -> match d_path (h_dm s' d) with
  | DUnrouted => d_detail (h_dm s' d) = d_detail (h_dm s d)
  | DPaths ps => exists A, plan E k s3 d ps = Ok (A, d_detail (h_dm s' d))
  end.
Proof.
  intros Hd. destruct (util_run _ _ _ _ (sm_util _ _ _ _ _ _ _ _ Sm)) as [_ X].
  destruct (sm_rest _ _ _ _ _ _ _ _ Sm HE N) as (_ & _ & -> & _).
  pose proof (sm_23 _ _ _ _ _ _ _ _ Sm) as F. pose proof (sm_34 _ _ _ _ _ _ _ _ Sm) as F'.
  destruct (sm_12 _ _ _ _ _ _ _ _ Sm) as (_ & _ & _ & A4 & _ & _ & _ & A8 & _).
  assert (Hd3 : In d (m_dms s3)) by (rewrite (rs_dms _ _ _ (df_same _ _ _ F)), A4; exact Hd). specialize (X d Hd3).
  rewrite (tf_path _ _ _ F'). destruct (d_path (h_dm s3 d)); auto. rewrite X, (df_detail _ _ _ F). destruct (A8 d) as (p & ->). reflexivity.
Qed.
Lemma sm_traffic d : d_traffic (h_dm s' d) = d_traffic (h_dm s d) /\ d_traffic (h_dm s3 d) = d_traffic (h_dm s d).
Proof.
  destruct (sm_rest _ _ _ _ _ _ _ _ Sm HE N) as (_ & _ & -> & _). destruct (sm_12 _ _ _ _ _ _ _ _ Sm) as (_ & _ & _ & _ & _ & _ & _ & A8 & _).
  rewrite (rs_traffic E _ _ _ (sm_24 _ _ _ _ _ _ _ _ Sm)), (rs_traffic E _ _ _ (df_same _ _ _ (sm_23 _ _ _ _ _ _ _ _ Sm))).
  destruct (A8 d) as (p & ->). auto.
Qed.
Lemma sm_keys3 : if_keys_unique s -> if_keys_unique s3.
Proof.
  unfold if_keys_unique. destruct (sm_12 _ _ _ _ _ _ _ _ Sm) as (A1 & A2 & _ & _ & _ & A6 & _). pose proof (df_same _ _ _ (sm_23 _ _ _ _ _ _ _ _ Sm)) as R.
  rewrite (rs_ifs _ _ _ R), A2. rewrite (map_ext (if_key s3) (if_key s)); auto. intros i. unfold if_key.
  change (loc s3 i) with (ilocal s3 i). rewrite (rs_local _ _ _ R). destruct (rs_idata _ _ _ R i) as (-> & _). unfold ilocal, loc. rewrite A1.
  destruct (A6 i) as (t & q & ->). reflexivity.
Qed.
End Done.
