(** FailProofs.v - fail_interface, fail_node, fail_srlg: exactly what goes down. *)
From Verif Require Import Base Graph Objects Sim Api Spec SpecCkt SpecFail MonadProofs ObjProofs ApiProofs QueryProofs CircuitProofs ValidateProofs.

(** ** Composition of brought_down *)
Lemma downed_trans a b c : downed a b -> downed b c -> downed a c.
Proof.
  unfold downed. intros (S1 & C1 & T1 & I1 & _) (S2 & C2 & T2 & I2 & F2 & R2).
  split; [eapply same_if_data_trans; eauto|]. repeat split; congruence.
Qed.


Section BD.
Variables (s s' : st) (P N : nat -> Prop).
Hypothesis B : brought_down s s' P N.

Lemma bd_name n : n_name (h_nd s' n) = n_name (h_nd s n).
Proof. destruct (bd_nodes_else _ _ _ _ B n) as [->|[_ ->]]; reflexivity. Qed.
Lemma bd_nsrlgs n : n_srlgs (h_nd s' n) = n_srlgs (h_nd s n).
Proof. destruct (bd_nodes_else _ _ _ _ B n) as [->|[_ ->]]; reflexivity. Qed.
Lemma bd_data x : same_if_data (h_if s x) (h_if s' x) /\ i_cid (h_if s' x) = i_cid (h_if s x).
Proof.
  destruct (bd_ifs_else _ _ _ _ B x) as [->|[_ D]]; [split; auto using same_if_data_refl|].
  destruct D as (D & C & _). auto.
Qed.
Lemma bd_loc x : loc s' x = loc s x.
Proof. unfold loc. rewrite bd_name. destruct (bd_data x) as [(_&_&_&->&_) _]. reflexivity. Qed.
Lemma bd_rem x : rem s' x = rem s x.
Proof. unfold rem. rewrite bd_name. destruct (bd_data x) as [(_&_&_&_&->&_) _]. reflexivity. Qed.
Lemma bd_key x : if_key s' x = if_key s x.
Proof. unfold if_key. rewrite bd_loc. destruct (bd_data x) as [(->&_) _]. reflexivity. Qed.
Lemma bd_mifs : m_ifs s' = m_ifs s. Proof. apply B. Qed.
Lemma bd_mnds : m_nds s' = m_nds s. Proof. apply B. Qed.
Lemma bd_other i j : other_end s' i j <-> other_end s i j.
Proof.
  unfold other_end. rewrite bd_mifs, !bd_loc, !bd_rem. destruct (bd_data i) as [_ ->], (bd_data j) as [_ ->]. reflexivity.
Qed.
Lemma bd_nfailed n : n_failed (h_nd s n) = true -> n_failed (h_nd s' n) = true.
Proof. destruct (bd_nodes_else _ _ _ _ B n) as [->|[_ ->]]; auto. Qed.
End BD.

Lemma bd_refl s P N : (forall i, In i (m_ifs s) -> ~ P i) -> (forall n, ~ N n) -> brought_down s s P N.
Proof.
  intros HP HN. constructor; auto using same_sets_refl.
  - intros n Hn. elim (HN n Hn).
  - intros i Hi H. elim (HP i Hi H).
Qed.

Lemma bd_trans s s1 s2 P1 N1 P2 N2 : brought_down s s1 P1 N1 -> brought_down s1 s2 P2 N2 ->
  brought_down s s2 (fun i => P1 i \/ P2 i) (fun n => N1 n \/ N2 n).
Proof.
  intros B1 B2. assert (OE := bd_other _ _ _ _ B1). assert (MI := bd_mifs _ _ _ _ B1).
  assert (Later : forall x, downed (h_if s x) (h_if s1 x) -> downed (h_if s x) (h_if s2 x)).
  { intros x D. destruct (bd_ifs_else _ _ _ _ B2 x) as [->|[_ D2]]; auto. eapply downed_trans; eauto. }
  assert (Early : forall x, downed (h_if s1 x) (h_if s2 x) -> downed (h_if s x) (h_if s2 x)).
  { intros x D. destruct (bd_ifs_else _ _ _ _ B1 x) as [<-|[_ D2]]; auto. }
  constructor.
  - eapply same_sets_trans; [apply B1|apply B2].
  - rewrite (bd_dm _ _ _ _ B2). apply B1.
  - rewrite (bd_ls _ _ _ _ B2). apply B1.
  - rewrite (bd_ckts _ _ _ _ B2). apply B1.
  - rewrite (bd_groups _ _ _ _ B2). apply B1.
  - intros n [H|H]; [|now apply B2]. apply (bd_nfailed _ _ _ _ B2). now apply B1.
  - intros n. destruct (bd_nodes_else _ _ _ _ B2 n) as [E2|[H2 E2]]; destruct (bd_nodes_else _ _ _ _ B1 n) as [E1|[H1 E1]].
    + left. congruence.
    + right. split; auto. congruence.
    + right. split; auto. congruence.
    + right. split; auto. rewrite E2, E1. reflexivity.
  - intros i Hi [H|H].
    + destruct (bd_ifs _ _ _ _ B1 i Hi H) as (D & j & J & Dj). split; auto. exists j. split; auto.
    + rewrite <- MI in Hi. destruct (bd_ifs _ _ _ _ B2 i Hi H) as (D & j & J & Dj). split; auto. exists j. split; [apply OE; auto|auto].
  - intros x. destruct (bd_ifs_else _ _ _ _ B2 x) as [E2|[H2 D2]].
    + rewrite E2. destruct (bd_ifs_else _ _ _ _ B1 x) as [E1|[H1 D1]]; auto. right. split; auto.
      destruct H1 as (i & Hi & Pi & Hx). exists i. auto.
    + right. split; auto. destruct H2 as (i & Hi & Pi & Hx). exists i. rewrite MI in Hi. split; auto. split; auto.
      destruct Hx as [Hx|Hx]; auto. right. apply OE; auto.
Qed.

Lemma bd_ext s s' P N P' N' : brought_down s s' P N -> (forall i, In i (m_ifs s) -> P i <-> P' i) -> (forall n, N n <-> N' n) ->
  brought_down s s' P' N'.
Proof.
  intros B HP HN. destruct B. constructor; auto.
  - intros n H. apply bd_nodes, HN, H.
  - intros n. destruct (bd_nodes_else n) as [H|[H1 H2]]; auto. right. split; auto. now apply HN.
  - intros i Hi H. apply bd_ifs; auto. now apply HP.
  - intros x. destruct (bd_ifs_else x) as [H|[(i & Hi & Pi & Hx) D]]; auto. right. split; auto. exists i. split; auto. split; auto. now apply HP.
Qed.

(** A loop whose body brings down [P x], [N x] for each [x]. *)
Lemma mfor_bd {A} (l : list A) body (P N : A -> nat -> Prop) s s' u :
  mfor l body s = (s', Ok u) ->
  (forall x s1 s2 P1 N1, In x l -> brought_down s s1 P1 N1 -> h_sr s1 = h_sr s -> body x s1 = (s2, Ok tt) ->
     brought_down s1 s2 (P x) (N x) /\ h_sr s2 = h_sr s1) ->
  brought_down s s' (fun i => exists x, In x l /\ P x i) (fun n => exists x, In x l /\ N x n) /\ h_sr s' = h_sr s.
Proof.
  intros H Hb.
  refine (mfor_inv l body (fun done st => brought_down s st (fun i => exists x, In x done /\ P x i) (fun n => exists x, In x done /\ N x n) /\ h_sr st = h_sr s) _ s s' u _ H).
  - intros done x rest s1 s2 El [B R] Hx. destruct (Hb x s1 s2 _ _ ltac:(rewrite El; apply in_or_app; right; left; auto) B R Hx) as [B2 R2].
    split; [|congruence]. eapply bd_ext; [eapply bd_trans; eauto| |].
    + intros i _. split.
      * intros [(y & Hy & Py)|Hp]; [exists y|exists x]; split; auto; apply in_or_app; simpl; auto.
      * intros (y & Hy & Py). apply in_app_or in Hy as [Hy|[->|[]]]; eauto.
    + intros i. split.
      * intros [(y & Hy & Py)|Hp]; [exists y|exists x]; split; auto; apply in_or_app; simpl; auto.
      * intros (y & Hy & Py). apply in_app_or in Hy as [Hy|[->|[]]]; eauto.
  - split; auto. apply bd_refl; [intros i _ (x & [] & _)|intros n (x & [] & _)].
Qed.

(** ** fail_interface *)
Lemma fail_interface_bd s iname nname s' : NoDup (map (if_key s) (m_ifs s)) -> fail_interface iname nname s = (s', Ok tt) ->
  brought_down s s' (fun i => if_key s i = (iname, nname)) (fun _ => False) /\ h_sr s' = h_sr s /\
  exists i, In i (m_ifs s) /\ if_key s i = (iname, nname).
Proof.
  intros U H. destruct (fail_interface_exact _ _ _ _ _ H) as [(e & X & _)|(_ & i & j & Hi & Ki & J & O & D & Else)]; [discriminate|].
  destruct O as (S & Hn & Hs & Hd & Hl & Hc & Hg). split; [|split; eauto].
  constructor; auto.
  - intros n. left. now rewrite Hn.
  - intros x Hx Kx. assert (x = i) by (apply (NoDup_map_inj (if_key s) (m_ifs s)); auto; congruence). subst x.
    split; [apply D; auto|]. exists j. split; auto.
  - intros x. destruct (Nat.eq_dec x i) as [->|Ni]; [|destruct (Nat.eq_dec x j) as [->|Nj]].
    + right. split; [exists i; auto|apply D; auto].
    + right. split; [exists i; auto|apply D; auto].
    + left. auto.
Qed.

Lemma bd_keys s s' P N : brought_down s s' P N -> NoDup (map (if_key s) (m_ifs s)) -> NoDup (map (if_key s') (m_ifs s')).
Proof. intros B U. rewrite (bd_mifs _ _ _ _ B), (map_ext _ (if_key s)); auto. apply (bd_key _ _ _ _ B). Qed.

(** ** fail_node *)
Lemma ifaces_of_name_In s n i : In i (ifaces_of_name s n) <-> In i (m_ifs s) /\ loc s i = n.
Proof. unfold ifaces_of_name. rewrite filter_In, loc_eq, String.eqb_eq. reflexivity. Qed.

Lemma fail_node_bd s nname s' : NoDup (map (if_key s) (m_ifs s)) -> NoDup (map (nd_name s) (m_nds s)) ->
  fail_node nname s = (s', Ok tt) ->
  brought_down s s' (fun i => loc s i = nname) (fun n => In n (m_nds s) /\ nd_name s n = nname) /\ h_sr s' = h_sr s /\
  exists n, In n (m_nds s) /\ nd_name s n = nname.
Proof.
  intros U V. unfold fail_node. rewrite bind_gets. intros H. apply bind_ok in H as (s1 & u & H1 & H2).
  assert (B : brought_down s s1 (fun i => loc s i = nname) (fun _ => False) /\ h_sr s1 = h_sr s).
  { destruct (mfor_bd _ _ (fun x i => if_key s i = if_key s x) (fun _ _ => False) _ _ _ H1) as [B R].
    - intros x a b P1 N1 Hx B R Hb. rewrite bind_gets in Hb.
      assert (U1 := bd_keys _ _ _ _ B U). destruct (fail_interface_bd _ _ _ _ U1 Hb) as (B2 & R2 & _). split; auto.
      eapply bd_ext; [exact B2| |tauto]. intros i _. cbv beta. rewrite (bd_key _ _ _ _ B).
      apply ifaces_of_name_In in Hx as [_ Hx]. unfold if_key. rewrite Hx.
      destruct (bd_data _ _ _ _ B x) as [(->&_) _]. reflexivity.
    - split; auto. eapply bd_ext; [exact B| |].
      + intros i Hi. split.
        * intros (x & Hx & K). apply ifaces_of_name_In in Hx as [_ Hx]. unfold if_key in K. congruence.
        * intros L. exists i. split; auto. apply ifaces_of_name_In; auto.
      + intros n. split; [intros (_ & _ & [])|tauto]. }
  destruct B as [B R]. rewrite bind_reads in H2. assert (G := get_node_spec s1 nname).
  destruct (get_node s1 nname) as [n|e]; [|discriminate]. destruct G as [G1 G2].
  rewrite (bd_mnds _ _ _ _ B) in G1. assert (G3 : nd_name s n = nname) by (unfold nd_name in *; rewrite <- G2; symmetry; apply (bd_name _ _ _ _ B)).
  injection H2 as <-. split; [|split; [exact R|eauto]].
  assert (B2 : brought_down s1 (upd_nd n (nd_failed true) s1) (fun _ => False) (eq n)).
  { constructor; try reflexivity; try tauto.
    - repeat split.
    - intros m <-. simpl. now rewrite fupd_same.
    - intros m. simpl. apply fupd_cases; intros; subst; auto. }
  eapply bd_ext; [eapply bd_trans; eauto|simpl; tauto|].
  intros m. split; [intros [[]|<-]; auto|]. intros [M1 M2]. right.
  apply (NoDup_map_inj (nd_name s) (m_nds s)); auto. congruence.
Qed.

(** ** fail_srlg *)

Lemma srlgs_eqb_In a b : srlgs_eqb a b = true -> forall x, In x a <-> In x b.
Proof.
  unfold srlgs_eqb. rewrite andb_true_iff, !forallb_forall. intros [H1 H2] x. split; intros Hx.
  - apply mem_nat_In. auto.
  - apply mem_nat_In. auto.
Qed.

Lemma mem_srlg_nodes s g n : In n (m_nds s) -> (mem_nd s n (srlg_nodes s g) = true <-> In g (n_srlgs (h_nd s n))).
Proof.
  intros Hn. split.
  - unfold mem_nd. rewrite existsb_exists. intros (m & Hm & E). apply filter_In in Hm as [_ Hm]. apply mem_nat_In in Hm.
    unfold node_eqb in E. apply orb_true_iff in E as [E|E]; [apply Nat.eqb_eq in E; now subst|].
    cbv zeta in E. rewrite !andb_true_iff in E. destruct E as [[_ E] _]. apply (srlgs_eqb_In _ _ E). auto.
  - intros H. apply mem_nd_refl. apply filter_In. split; auto. now apply mem_nat_In.
Qed.

Lemma mem_srlg_ifaces s g i : NoDup (map (if_key s) (m_ifs s)) -> In i (m_ifs s) ->
  (mem_if s i (srlg_ifaces s g) = true <-> In g (i_srlgs (h_if s i))).
Proof.
  intros U Hi. rewrite mem_if_In; auto.
  - unfold srlg_ifaces. rewrite filter_In, mem_nat_In. tauto.
  - intros j Hj. apply filter_In in Hj. tauto.
Qed.

Lemma fail_srlg_bd s name s' : NoDup (map (if_key s) (m_ifs s)) -> NoDup (map (nd_name s) (m_nds s)) ->
  fail_srlg name s = (s', Ok tt) ->
  exists g, In g (m_srs s) /\ srlg_name s g = name /\
  brought_down s s' (fun i => In g (i_srlgs (h_if s i)) \/ on_failed s g i)
                    (fun n => In n (m_nds s) /\ In g (n_srlgs (h_nd s n))) /\
  h_sr s' g = sr_set true (h_sr s g) /\ forall g', g' <> g -> h_sr s' g' = h_sr s g'.
Proof.
  intros U V. unfold fail_srlg. rewrite bind_reads. destruct (get_srlg s name) as [g|e] eqn:G; [|discriminate].
  apply get_srlg_spec in G as [G1 G2]. rewrite bind_gets. intros H. exists g. split; auto. split; auto.
  apply bind_ok in H as (s1 & u & H1 & H). rewrite bind_gets in H. apply bind_ok in H as (s2 & u2 & H2 & H).
  assert (B1 : brought_down s s1 (on_failed s g) (fun n => In n (m_nds s) /\ In g (n_srlgs (h_nd s n))) /\ h_sr s1 = h_sr s).
  { destruct (mfor_bd _ _ (fun x i => In g (n_srlgs (h_nd s x)) /\ loc s i = nd_name s x) (fun x n => In g (n_srlgs (h_nd s x)) /\ n = x) _ _ _ H1) as [B R].
    - intros x a b P1 N1 Hx B R Hb. rewrite bind_gets in Hb.
      assert (Hx' : In x (m_nds a)) by (rewrite (bd_mnds _ _ _ _ B); auto).
      assert (M := mem_srlg_nodes a g x Hx'). rewrite (bd_nsrlgs _ _ _ _ B) in M.
      destruct (mem_nd a x (srlg_nodes a g)).
      + rewrite bind_gets in Hb. assert (M1 : In g (n_srlgs (h_nd s x))) by (apply M; auto).
        assert (V1 : NoDup (map (nd_name a) (m_nds a))).
        { rewrite (bd_mnds _ _ _ _ B), (map_ext _ (nd_name s)); auto. apply (bd_name _ _ _ _ B). }
        destruct (fail_node_bd _ _ _ (bd_keys _ _ _ _ B U) V1 Hb) as (B2 & R2 & _). split; auto.
        eapply bd_ext; [exact B2| |].
        * intros i _. simpl. rewrite (bd_loc _ _ _ _ B), (bd_name _ _ _ _ B). unfold nd_name. tauto.
        * intros n. simpl. rewrite (bd_mnds _ _ _ _ B). unfold nd_name. rewrite !(bd_name _ _ _ _ B). split.
          -- intros [N1' N2]. split; auto. apply (NoDup_map_inj (nd_name s) (m_nds s)); auto.
          -- intros [_ ->]. auto.
      + assert (M1 : ~ In g (n_srlgs (h_nd s x))) by (intros C; apply M in C; discriminate).
        injection Hb as <-. split; auto. apply bd_refl; tauto.
    - split; auto. eapply bd_ext; [exact B| |].
      + intros i _. unfold on_failed. split; intros (n & N1 & N2 & N3); exists n; auto.
      + intros n. split; [intros (x & X1 & X2 & ->); auto|intros [X1 X2]; exists n; auto]. }
  destruct B1 as [B1 R1].
  assert (B2 : brought_down s1 s2 (fun i => In g (i_srlgs (h_if s i))) (fun _ => False) /\ h_sr s2 = h_sr s1).
  { destruct (mfor_bd _ _ (fun x i => In g (i_srlgs (h_if s x)) /\ i = x) (fun _ _ => False) _ _ _ H2) as [B R].
    - intros x a b P1 N1 Hx B R Hb. rewrite bind_gets in Hb.
      assert (U1 := bd_keys _ _ _ _ B (bd_keys _ _ _ _ B1 U)).
      assert (Hx' : In x (m_ifs a)) by (rewrite (bd_mifs _ _ _ _ B); auto).
      assert (M := mem_srlg_ifaces a g x U1 Hx').
      assert (Es : i_srlgs (h_if a x) = i_srlgs (h_if s x)).
      { destruct (bd_data _ _ _ _ B x) as [(_&_&_&_&_&->&_) _]. destruct (bd_data _ _ _ _ B1 x) as [(_&_&_&_&_&->&_) _]. reflexivity. }
      rewrite Es in M. destruct (mem_if a x (srlg_ifaces a g)).
      + rewrite bind_gets in Hb. assert (M1 : In g (i_srlgs (h_if s x))) by (apply M; auto).
        destruct (fail_interface_bd _ _ _ _ U1 Hb) as (B2 & R2 & _). split; auto.
        eapply bd_ext; [exact B2| |tauto]. intros i Hi. simpl. split.
        * intros K. split; auto. apply (NoDup_map_inj (if_key a) (m_ifs a)); auto.
        * intros [_ ->]. reflexivity.
      + assert (M1 : ~ In g (i_srlgs (h_if s x))) by (intros C; apply M in C; discriminate).
        injection Hb as <-. split; auto. apply bd_refl; tauto.
    - split; auto. eapply bd_ext; [exact B| |].
      + intros i Hi. split; [intros (x & _ & X & ->); auto|intros X; exists i; auto].
      + intros n. split; [intros (_ & _ & [])|tauto]. }
  destruct B2 as [B2 R2]. injection H as <-.
  assert (B3 : brought_down s s2 (fun i => In g (i_srlgs (h_if s i)) \/ on_failed s g i) (fun n => In n (m_nds s) /\ In g (n_srlgs (h_nd s n)))).
  { eapply bd_ext; [eapply bd_trans; eauto| |]; simpl; tauto. }
  split.
  - destruct B3. constructor; auto.
  - simpl. rewrite R2, R1. split; [now rewrite fupd_same|]. intros g' Hg. apply fupd_other. auto.
Qed.
