(** RepairProofs.v - unfail_interface and the invariant over histories of
    failures and repairs (C28, C30, C33), and when fail_node and fail_srlg
    return. *)
From Verif Require Import Base Graph Objects Sim Api Spec SpecCkt SpecFail GraphProofs MonadProofs Frames ApiFrames ObjProofs ApiProofs QueryProofs CircuitProofs ValidateProofs PathProofs FailProofs.

Definition up (r : iface) : iface := if_res 0%Q (if_failed false r).

(** ** The parts of the state that the conditions below read *)
Record stat (k : kind) (s s' : st) : Prop := {
  st_sets : same_sets s s';
  st_nd : forall n, n_name (h_nd s' n) = n_name (h_nd s n) /\ n_srlgs (h_nd s' n) = n_srlgs (h_nd s n);
  st_sr : forall g, sr_name (h_sr s' g) = sr_name (h_sr s g);
  st_dm : forall d, d_src (h_dm s' d) = d_src (h_dm s d) /\ d_dst (h_dm s' d) = d_dst (h_dm s d) /\ d_name (h_dm s' d) = d_name (h_dm s d);
  st_ls : forall d, l_src (h_ls s' d) = l_src (h_ls s d) /\ l_dst (h_ls s' d) = l_dst (h_ls s d) /\ l_name (h_ls s' d) = l_name (h_ls s d);
  st_if : forall i, i_name (h_if s' i) = i_name (h_if s i) /\ i_node (h_if s' i) = i_node (h_if s i) /\
    i_rem (h_if s' i) = i_rem (h_if s i) /\ i_srlgs (h_if s' i) = i_srlgs (h_if s i) /\
    (k = Flex -> i_cid (h_if s' i) = i_cid (h_if s i)) }.

Lemma stat_refl k s : stat k s s.
Proof. constructor; auto using same_sets_refl. Qed.
Lemma stat_trans k a b c : stat k a b -> stat k b c -> stat k a c.
Proof.
  intros H1 H2. constructor.
  - eapply same_sets_trans; [apply H1|apply H2].
  - intros n. destruct (st_nd _ _ _ H1 n), (st_nd _ _ _ H2 n). split; congruence.
  - intros g. rewrite (st_sr _ _ _ H2). apply H1.
  - intros d. destruct (st_dm _ _ _ H1 d) as (?&?&?), (st_dm _ _ _ H2 d) as (?&?&?). repeat split; congruence.
  - intros d. destruct (st_ls _ _ _ H1 d) as (?&?&?), (st_ls _ _ _ H2 d) as (?&?&?). repeat split; congruence.
  - intros d. destruct (st_if _ _ _ H1 d) as (?&?&?&?&X1), (st_if _ _ _ H2 d) as (?&?&?&?&X2). repeat split; try congruence.
    intros Hk. rewrite (X2 Hk). auto.
Qed.

Section Stat.
Variables (k : kind) (s s' : st).
Hypothesis H : stat k s s'.
Lemma stat_ifs : m_ifs s' = m_ifs s. Proof. apply H. Qed.
Lemma stat_nds : m_nds s' = m_nds s. Proof. apply H. Qed.
Lemma stat_loc x : loc s' x = loc s x.
Proof. unfold loc. destruct (st_if _ _ _ H x) as (_ & -> & _). apply H. Qed.
Lemma stat_rem x : rem s' x = rem s x.
Proof. unfold rem. destruct (st_if _ _ _ H x) as (_ & _ & -> & _). apply H. Qed.
Lemma stat_key x : if_key s' x = if_key s x.
Proof. unfold if_key. rewrite stat_loc. destruct (st_if _ _ _ H x) as (-> & _). reflexivity. Qed.
Lemma stat_name x : nd_name s' x = nd_name s x.
Proof. apply H. Qed.
Lemma stat_rev i j : is_reverse k s' i j <-> is_reverse k s i j.
Proof.
  unfold is_reverse. rewrite !stat_loc, !stat_rem. destruct (kind_dec k) as [Hk|Hk]; [|tauto].
  destruct (st_if _ _ _ H i) as (_&_&_&_&->); auto. destruct (st_if _ _ _ H j) as (_&_&_&_&->); auto. reflexivity.
Qed.
Lemma stat_wf : wf_net k s -> wf_net k s'.
Proof.
  intros (U & R & C & L). split; [|split; [|split]].
  - destruct U as (U1 & U2 & U3 & U4 & U5). destruct (st_sets _ _ _ H) as (M1 & M2 & M3 & M4 & M5). unfold keys_unique. rewrite M1, M2, M3, M4, M5.
    rewrite (map_ext (if_key s') (if_key s)) by apply stat_key. rewrite (map_ext (nd_name s') (nd_name s)) by apply stat_name.
    rewrite (map_ext (srlg_name s') (srlg_name s)) by (intros g; apply H).
    assert (N : forall n, n_name (h_nd s' n) = n_name (h_nd s n)) by (intros n; apply (st_nd _ _ _ H n)).
    rewrite (map_ext (dmd_key s') (dmd_key s)). 2:{ intros d. unfold dmd_key, dmd_from, dmd_to. destruct (st_dm _ _ _ H d) as (->&->&->). now rewrite !N. }
    rewrite (map_ext (lsp_key s') (lsp_key s)). 2:{ intros d. unfold lsp_key, lsp_from, lsp_to. destruct (st_ls _ _ _ H d) as (->&->&->). now rewrite !N. }
    auto.
  - destruct R as (R1 & R2 & R3). destruct (st_sets _ _ _ H) as (M1 & M2 & M3 & M4 & M5). unfold refs_ok. rewrite M1, M2, M3, M4.
    split; [|split].
    + intros i Hi. destruct (st_if _ _ _ H i) as (_ & -> & -> & _). auto.
    + intros d Hd. destruct (st_dm _ _ _ H d) as (->&->&_). auto.
    + intros d Hd. destruct (st_ls _ _ _ H d) as (->&->&_). auto.
  - intros Hk i. rewrite stat_ifs. intros Hi. destruct (st_if _ _ _ H i) as (_&_&_&_&->); auto.
  - intros i. rewrite stat_ifs. intros Hi. destruct (L i Hi) as (j & Hj & Rj & Uj). exists j. split; auto. split; [now apply stat_rev|].
    intros x Hx Rx. apply Uj; auto. now apply stat_rev.
Qed.
Lemma stat_srlgs i : i_srlgs (h_if s' i) = i_srlgs (h_if s i).
Proof. apply (st_if _ _ _ H i). Qed.
End Stat.

Lemma stat_upd_if k i f s :
  (forall r, i_name (f r) = i_name r /\ i_node (f r) = i_node r /\ i_rem (f r) = i_rem r /\ i_srlgs (f r) = i_srlgs r /\ (k = Flex -> i_cid (f r) = i_cid r)) ->
  stat k s (upd_if i f s).
Proof.
  intros Hf. constructor; auto; [repeat split|]. intros x. simpl. apply fupd_cases; intros; subst; auto.
Qed.
Lemma stat_upd_nd k n b s : stat k s (upd_nd n (nd_failed b) s).
Proof. constructor; auto; [repeat split|]. intros x. simpl. apply fupd_cases; intros; subst; auto. Qed.
Lemma stat_upd_sr k n b s : stat k s (upd_sr n (sr_set b) s).
Proof. constructor; auto; [repeat split|]. intros x. simpl. apply fupd_cases; intros; subst; auto. Qed.
Lemma stat_down k i s : stat k s (upd_if i down s).
Proof. apply stat_upd_if. intros r. repeat split. Qed.

(** ** The invariant *)
Definition inv (k : kind) (s : st) : Prop := wf_net k s /\ srlg_sound k s /\ consistent k s.

Lemma other_rev k s i j : other_end s i j -> is_reverse k s i j.
Proof. intros (H1 & H2 & H3 & H4). repeat split; auto. Qed.
Lemma rev_sym k s i j : is_reverse k s i j -> is_reverse k s j i.
Proof. intros (H1 & H2 & H3). split; auto. split; auto. destruct H3; auto. Qed.

Lemma linked_pair k s i j : linked k s -> In i (m_ifs s) -> In j (m_ifs s) -> is_reverse k s i j ->
  (forall x, In x (m_ifs s) -> is_reverse k s i x -> x = j) /\ (forall x, In x (m_ifs s) -> is_reverse k s j x -> x = i).
Proof.
  intros L Hi Hj R. split; intros x Hx Rx.
  - destruct (L i Hi) as (y & _ & _ & U). rewrite (U x), (U j); auto.
  - destruct (L j Hj) as (y & _ & _ & U). rewrite (U x), (U i); auto. now apply rev_sym.
Qed.

(** What the invariant reads of the failure state *)
Lemma inv_same k s s' : stat k s s' -> (forall i, i_failed (h_if s' i) = i_failed (h_if s i)) ->
  (forall n, n_failed (h_nd s' n) = n_failed (h_nd s n)) -> (forall g, sr_failed (h_sr s' g) = sr_failed (h_sr s g)) ->
  inv k s -> inv k s'.
Proof.
  intros S FI FN FS (W & (S1 & S2 & S3) & C1 & C2).
  assert (G : forall gs, in_failed_srlg s' gs <-> in_failed_srlg s gs).
  { intros gs. unfold in_failed_srlg. split; intros (g & Hg & X); exists g; (split; [auto|]); [rewrite <- FS|rewrite FS]; auto. }
  split; [eapply stat_wf; eauto|]. split; [split; [|split]|split].
  - intros i. rewrite (stat_ifs _ _ _ S), (stat_srlgs _ _ _ S), FI, G. auto.
  - intros n. rewrite (stat_nds _ _ _ S), FN, G. destruct (st_nd _ _ _ S n) as [_ ->]. auto.
  - intros i j. rewrite (stat_ifs _ _ _ S), (stat_rev _ _ _ S), !(stat_srlgs _ _ _ S). auto.
  - intros i. rewrite (stat_ifs _ _ _ S), FI. unfold ends_up. rewrite !FN. destruct (st_if _ _ _ S i) as (_&->&->&_). intros. apply C1; auto.
  - intros i j. rewrite (stat_ifs _ _ _ S), (stat_rev _ _ _ S), !FI. apply C2.
Qed.

Definition KI (k : kind) (s s' : st) : Prop := inv k s -> inv k s'.
Lemma KI_preorder k : preorder (KI k).
Proof. constructor; unfold KI; auto. Qed.

Lemma down_if r : down r = if_res 0%Q (if_failed true r). Proof. reflexivity. Qed.

(** Both ends of a link set to one state. *)
Lemma inv_pair k s s' i j b : inv k s -> stat k s s' -> In i (m_ifs s) -> In j (m_ifs s) -> is_reverse k s i j ->
  (forall n, h_nd s' n = h_nd s n) -> (forall g, h_sr s' g = h_sr s g) ->
  (forall x, i_failed (h_if s' x) = if (Nat.eqb x i || Nat.eqb x j)%bool then b else i_failed (h_if s x)) ->
  (b = false -> ends_up s i /\ ends_up s j /\ ~ in_failed_srlg s (i_srlgs (h_if s i)) /\ ~ in_failed_srlg s (i_srlgs (h_if s j))) ->
  inv k s'.
Proof.
  intros (W & (S1 & S2 & S3) & C1 & C2) S Hi Hj R FN FS FI Hb.
  assert (L := proj2 (proj2 (proj2 W))). destruct (linked_pair _ _ _ _ L Hi Hj R) as [U1 U2].
  assert (G : forall gs, in_failed_srlg s' gs <-> in_failed_srlg s gs).
  { intros gs. unfold in_failed_srlg. split; intros (g & Hg & X); exists g; (split; [auto|]); [rewrite <- FS|rewrite FS]; auto. }
  assert (Cs : forall x, (x = i \/ x = j) /\ i_failed (h_if s' x) = b \/ (x <> i /\ x <> j) /\ i_failed (h_if s' x) = i_failed (h_if s x)).
  { intros x. rewrite FI. destruct (Nat.eqb_spec x i), (Nat.eqb_spec x j); simpl; auto. }
  split; [eapply stat_wf; eauto|]. split; [split; [|split]|split].
  - intros x. rewrite (stat_ifs _ _ _ S), (stat_srlgs _ _ _ S), G. intros Hx Gx. destruct (Cs x) as [[E ->]|[_ ->]]; auto.
    destruct b; auto. destruct (Hb eq_refl) as (_ & _ & N1 & N2). destruct E; subst; tauto.
  - intros n. rewrite (stat_nds _ _ _ S), FN, G. auto.
  - intros x y. rewrite (stat_ifs _ _ _ S), (stat_rev _ _ _ S), !(stat_srlgs _ _ _ S). auto.
  - intros x. rewrite (stat_ifs _ _ _ S). unfold ends_up. rewrite !FN. destruct (st_if _ _ _ S x) as (_&->&->&_). intros Hx Fx.
    destruct (Cs x) as [[E E']|[_ E']]; rewrite E' in Fx; [|apply C1; auto].
    destruct (Hb Fx) as (X1 & X2 & _). destruct E; subst; auto.
  - intros x y. rewrite (stat_ifs _ _ _ S), (stat_rev _ _ _ S). intros Hx Hy Rx.
    destruct (Cs x) as [[E ->]|[[N1 N2] ->]]; destruct (Cs y) as [[E' ->]|[[N1' N2'] ->]]; auto.
    + exfalso. destruct E; subst; [apply N2'|apply N1']; auto.
    + exfalso. apply rev_sym in Rx. destruct E'; subst; [apply N2|apply N1]; auto.
Qed.

(** ** fail_interface *)
Lemma KI_fail_interface k iname nname : pres (KI k) (fail_interface iname nname).
Proof.
  intros s I. destruct (fail_interface iname nname s) as [s' r] eqn:H. simpl.
  destruct (fail_interface_exact _ _ _ _ _ H) as [(e & _ & ->)|(_ & i & j & Hi & Ki & J & O & D & Else)]; auto.
  destruct O as (Ss & Hn & Hs & Hd & Hl & _).
  assert (DA : forall x, same_if_data (h_if s x) (h_if s' x) /\ i_cid (h_if s' x) = i_cid (h_if s x)).
  { intros x. destruct (Nat.eq_dec x i) as [->|N1]; [|destruct (Nat.eq_dec x j) as [->|N2]].
    - destruct (D i) as (A & B & _); auto.
    - destruct (D j) as (A & B & _); auto.
    - rewrite Else by auto. split; auto using same_if_data_refl. }
  apply (inv_pair k s s' i j true); auto.
  - constructor; auto.
    + intros n. now rewrite Hn.
    + intros g. now rewrite Hs.
    + intros d. now rewrite Hd.
    + intros d. now rewrite Hl.
    + intros x. destruct (DA x) as [(A1&_&_&A2&A3&A4&_) A5]. auto.
  - apply J.
  - now apply other_rev.
  - intros n. now rewrite Hn.
  - intros g. now rewrite Hs.
  - intros x. destruct (Nat.eqb_spec x i) as [->|N1]; [apply D; auto|]. destruct (Nat.eqb_spec x j) as [->|N2]; [apply D; auto|].
    simpl. now rewrite Else.
  - discriminate.
Qed.

(** ** validation *)
Lemma cframe_stat k s s' : cframe k s s' -> stat k s s'.
Proof.
  intros F. assert (X := cf_data _ _ _ F). destruct F. constructor.
  - repeat split; auto.
  - intros n. now rewrite cf_nd.
  - intros g. now rewrite cf_sr.
  - intros d. now rewrite cf_dm.
  - intros d. now rewrite cf_ls.
  - intros i. destruct (X i) as (->&_&_&->&->&_&_&_&->&_). repeat split. intros Hk. destruct (cf_if i) as (b & c & -> & E). simpl. auto.
Qed.

Lemma wf_nodup k s : wf_net k s -> NoDup (m_ifs s).
Proof. intros ((U & _) & _). eapply NoDup_map_inv; eauto. Qed.

Lemma cframe_inv k s s' : cframe k s s' -> inv k s -> inv k s'.
Proof.
  intros F I. apply (inv_same k s); auto.
  - now apply cframe_stat.
  - intros i. apply (cf_data _ _ _ F i).
  - intros n. now rewrite (cf_nd _ _ _ F).
  - intros n. now rewrite (cf_sr _ _ _ F).
Qed.

Lemma KI_validate E k : env_ok E -> pres (KI k) (validate_model E k).
Proof.
  intros HE s I. apply (cframe_inv k s); auto. destruct I as (W & _ & _ & A). apply validate_agree; auto.
  - eapply wf_nodup; eauto.
  - apply W.
Qed.

Lemma KI_if k i f s : (forall r, i_name (f r) = i_name r /\ i_node (f r) = i_node r /\ i_rem (f r) = i_rem r /\ i_srlgs (f r) = i_srlgs r /\
  i_cid (f r) = i_cid r /\ i_failed (f r) = i_failed r) -> KI k s (upd_if i f s).
Proof.
  intros Hf I. apply (inv_same k s); auto.
  - apply stat_upd_if. intros r. destruct (Hf r) as (?&?&?&?&?&?). auto.
  - intros x. simpl. apply fupd_cases; intros; subst; auto. apply Hf.
Qed.
Lemma KI_ls k l f s : (forall r, l_src (f r) = l_src r /\ l_dst (f r) = l_dst r /\ l_name (f r) = l_name r) -> KI k s (upd_ls l f s).
Proof.
  intros Hf I. apply (inv_same k s); auto. constructor; auto; [repeat split|]. intros x. simpl. apply fupd_cases; intros; subst; auto.
Qed.
Lemma KI_dm k l f s : (forall r, d_src (f r) = d_src r /\ d_dst (f r) = d_dst r /\ d_name (f r) = d_name r) -> KI k s (upd_dm l f s).
Proof.
  intros Hf I. apply (inv_same k s); auto. constructor; auto; [repeat split|]. intros x. simpl. apply fupd_cases; intros; subst; auto.
Qed.
Lemma KI_id k s s' : h_if s' = h_if s -> h_nd s' = h_nd s -> h_sr s' = h_sr s -> h_dm s' = h_dm s -> h_ls s' = h_ls s -> same_sets s s' -> KI k s s'.
Proof.
  intros A B C D F G I. apply (inv_same k s); auto.
  - constructor; auto; intros; rewrite ?A, ?B, ?C, ?D, ?F; auto.
  - intros; now rewrite A.
  - intros; now rewrite B.
  - intros; now rewrite C.
Qed.

Ltac ki_if := intros ? ? ? Hf; apply KI_if; intros r; rewrite (Hf r); destruct r; simpl; auto 10.

Lemma KI_update E k : env_ok E -> pres (KI k) (update_simulation E k).
Proof.
  intros HE. apply pres_update_simulation_val; try apply KI_preorder.
  - intros l f s Hf. apply KI_ls. intros r. rewrite (Hf r). auto.
  - intros l f s Hf. apply KI_ls. intros r. rewrite (Hf r). auto.
  - intros g s. apply KI_id; auto; repeat split.
  - intros s. apply KI_id; auto; repeat split.
  - ki_if.
  - now apply KI_validate.
  - intros l f s Hf. apply KI_dm. intros r. rewrite (Hf r). auto.
  - intros l f s Hf. apply KI_dm. intros r. rewrite (Hf r). auto.
Qed.

(** ** unfail_interface *)
Definition infs (s : st) (gs : list nat) : bool := existsb (fun g => sr_failed (h_sr s g)) gs.
Lemma infs_iff s gs : infs s gs = true <-> in_failed_srlg s gs.
Proof. unfold infs, in_failed_srlg. apply existsb_exists. Qed.
Lemma infs_false s gs : infs s gs = false <-> ~ in_failed_srlg s gs.
Proof. rewrite <- infs_iff. destruct (infs s gs); split; congruence. Qed.

Lemma set_failed_false_run i s : iface_set_failed i false s =
  if infs s (i_srlgs (h_if s i)) then
    (upd_if i down s, Err (ModelException "Interface must be failed since it is a member of one or more SRLGs that are failed"))
  else if negb (n_failed (h_nd s (i_node (h_if s i)))) && negb (n_failed (h_nd s (i_rem (h_if s i))))
       then (upd_if i (if_failed false) s, Ok tt) else (upd_if i down s, Ok tt).
Proof.
  unfold iface_set_failed. rewrite bind_gets, bind_gets. unfold infs. destruct (existsb _ _); [reflexivity|].
  rewrite bind_gets, bind_gets. destruct (_ && _); reflexivity.
Qed.


Inductive unfailed (E : env) (k : kind) (s : st) (b : bool) (i j : nat) (s' : st) (r : res unit) : Prop :=
| uf_node : ~ (ends_up s i) -> s' = s -> r = (if b then Err (ModelException "Local and/or remote node are failed; cannot have unfailed interface on failed node.") else Ok tt) ->
    unfailed E k s b i j s' r
| uf_remote : ends_up s i -> in_failed_srlg s (i_srlgs (h_if s j)) -> s' = upd_if j down s ->
    (exists m, r = Err (ModelException m)) -> unfailed E k s b i j s' r
| uf_local s1 : ends_up s i -> ~ in_failed_srlg s (i_srlgs (h_if s j)) -> in_failed_srlg s (i_srlgs (h_if s i)) ->
    only_ifs s s1 -> (forall x, h_if s1 x = if Nat.eqb x j then up (h_if s x) else h_if s x) ->
    s' = upd_if i down s1 -> (exists m, r = Err (ModelException m)) -> unfailed E k s b i j s' r
| uf_both s1 : ends_up s i -> ~ in_failed_srlg s (i_srlgs (h_if s j)) -> ~ in_failed_srlg s (i_srlgs (h_if s i)) ->
    only_ifs s s1 -> s_next s1 = s_next s -> s_rng s1 = s_rng s -> (forall x, h_if s1 x = if (Nat.eqb x i || Nat.eqb x j)%bool then up (h_if s x) else h_if s x) ->
    (s', r) = validate_model E k s1 -> unfailed E k s b i j s' r.

Lemma get_node_ref s n : NoDup (map (nd_name s) (m_nds s)) -> In n (m_nds s) -> get_node s (n_name (h_nd s n)) = Ok n.
Proof.
  intros U Hn. assert (G := get_node_spec s (n_name (h_nd s n))). destruct (get_node s _) as [m|e].
  - destruct G as [G1 G2]. f_equal. apply (NoDup_map_inj (nd_name s) (m_nds s)); auto.
  - exfalso. destruct G as [_ G]. apply (G n Hn). reflexivity.
Qed.

Lemma res_failed_up t i x : h_if (upd_if i (if_res 0%Q) (upd_if i (if_failed false) t)) x = if Nat.eqb x i then up (h_if t x) else h_if t x.
Proof. simpl. unfold fupd. rewrite (Nat.eqb_sym x i). destruct (Nat.eqb_spec i x) as [->|]; auto. rewrite Nat.eqb_refl. reflexivity. Qed.

Lemma unfail_interface_run E k s iname nname b s' r : keys_unique s -> refs_ok s ->
  unfail_interface E k iname nname b s = (s', r) ->
  (exists e, r = Err e /\ s' = s /\
     ((forall i, In i (m_ifs s) -> if_key s i <> (iname, nname)) \/
      exists i, In i (m_ifs s) /\ if_key s i = (iname, nname) /\ get_remote_interface s i = Err e)) \/
  (exists i j, In i (m_ifs s) /\ if_key s i = (iname, nname) /\ get_remote_interface s i = Ok j /\ other_end s i j /\
     unfailed E k s b i j s' r).
Proof.
  intros U R. destruct U as (U1 & U2 & _). destruct R as (R1 & _). unfold unfail_interface. rewrite bind_reads.
  assert (G := get_interface_spec s iname nname). destruct (get_interface s iname nname) as [i|e] eqn:Gi.
  2:{ intros H; injection H as <- <-. left. exists e. split; auto. split; auto. left. destruct G as [_ [G|G]]; auto.
      intros i Hi K. apply (G (i_node (h_if s i))); [apply R1; auto|]. unfold if_key in K. injection K as _ K. exact K. }
  destruct G as [Hi Ki]. rewrite bind_reads. destruct (get_remote_interface s i) as [j|e] eqn:Gr.
  2:{ intros H; injection H as <- <-. left. exists e. split; auto. split; auto. right. exists i. auto. }
  assert (J := get_remote_ok _ _ _ Hi Gr). destruct (R1 i Hi) as [Ra Rb]. assert (Hj := proj1 J). destruct (R1 j Hj) as [Rc Rd].
  intros H. right. exists i, j. split; auto. split; auto. split; auto. split; auto. revert H.
  assert (Ej : i_node (h_if s j) = i_rem (h_if s i)).
  { apply (NoDup_map_inj (nd_name s) (m_nds s)); auto. apply J. }
  assert (Ei : i_rem (h_if s j) = i_node (h_if s i)).
  { apply (NoDup_map_inj (nd_name s) (m_nds s)); auto. apply J. }
  rewrite bind_reads. unfold ilocal at 1. rewrite get_node_ref by auto. rewrite bind_gets.
  destruct (n_failed (h_nd s (i_node (h_if s i)))) eqn:Fa.
  { unfold bind at 1. simpl. destruct b; intros H; injection H as <- <-; apply uf_node; auto; intros [X _]; congruence. }
  unfold bind at 1. unfold bind at 1. unfold reads at 1. unfold ilocal at 1. rewrite get_node_ref by auto. unfold gets at 1. rewrite Ej.
  destruct (n_failed (h_nd s (i_rem (h_if s i)))) eqn:Fb; cbn [negb].
  { destruct b; intros H; injection H as <- <-; apply uf_node; auto; intros [_ X]; congruence. }
  assert (EU : ends_up s i) by (split; auto).
  destruct (infs s (i_srlgs (h_if s j))) eqn:Fj.
  { unfold bind at 1. rewrite set_failed_false_run, Fj. intros H; injection H as <- <-.
    apply uf_remote; auto; [now apply infs_iff|eauto]. }
  assert (Sj : iface_set_failed j false s = (upd_if j (if_failed false) s, Ok tt)).
  { rewrite set_failed_false_run, Fj, Ej, Ei, Fa, Fb. reflexivity. }
  rewrite (bind_run _ _ _ _ _ Sj), bind_modify. set (s1 := upd_if j (if_res 0%Q) (upd_if j (if_failed false) s)).
  assert (X1 : forall x, h_if s1 x = if Nat.eqb x j then up (h_if s x) else h_if s x).
  { intros x. unfold s1. simpl. unfold fupd. rewrite (Nat.eqb_sym x j). destruct (Nat.eqb_spec j x) as [->|]; auto. rewrite Nat.eqb_refl. reflexivity. }
  assert (O1 : only_ifs s s1) by (repeat split).
  assert (Di : i_srlgs (h_if s1 i) = i_srlgs (h_if s i) /\ i_node (h_if s1 i) = i_node (h_if s i) /\ i_rem (h_if s1 i) = i_rem (h_if s i)).
  { rewrite X1. destruct (Nat.eqb i j); repeat split. }
  destruct Di as (D1 & D2 & D3).
  assert (Fi' : infs s1 (i_srlgs (h_if s1 i)) = infs s (i_srlgs (h_if s i))) by (rewrite D1; reflexivity).
  destruct (infs s (i_srlgs (h_if s i))) eqn:Fi.
  { unfold bind at 1. rewrite set_failed_false_run, Fi'. intros H; injection H as <- <-.
    apply (uf_local _ _ _ _ _ _ _ _ s1); auto; [now apply infs_false|now apply infs_iff|eauto]. }
  assert (Si : iface_set_failed i false s1 = (upd_if i (if_failed false) s1, Ok tt)).
  { rewrite set_failed_false_run, Fi', D2, D3. change (h_nd s1) with (h_nd s). rewrite Fa, Fb. reflexivity. }
  rewrite (bind_run _ _ _ _ _ Si), bind_modify. set (s2 := upd_if i (if_res 0%Q) (upd_if i (if_failed false) s1)).
  intros H. apply (uf_both _ _ _ _ _ _ _ _ s2); auto; try (now apply infs_false).
  intros x. unfold s2. rewrite res_failed_up. rewrite X1. destruct (Nat.eqb x i), (Nat.eqb x j); reflexivity.
Qed.

Lemma only_ifs_stat k s s' : only_ifs s s' -> (forall x, h_if s' x = h_if s x \/ h_if s' x = up (h_if s x) \/ h_if s' x = down (h_if s x)) -> stat k s s'.
Proof.
  intros (A & B & C & D & F & _) X. constructor; auto; intros; rewrite ?B, ?C, ?D, ?F; auto.
  destruct (X i) as [->|[->| ->]]; repeat split.
Qed.

Lemma same_srlg_failed k s i j : srlg_sound k s -> In i (m_ifs s) -> In j (m_ifs s) -> is_reverse k s i j ->
  (in_failed_srlg s (i_srlgs (h_if s i)) <-> in_failed_srlg s (i_srlgs (h_if s j))).
Proof.
  intros (_ & _ & S) Hi Hj R. unfold in_failed_srlg. split; intros (g & Hg & F); exists g; (split; [|auto]).
  - apply (S i j); auto.
  - apply (S i j); auto.
Qed.

Lemma other_ends_up s i j : keys_unique s -> refs_ok s -> In i (m_ifs s) -> In j (m_ifs s) -> loc s i = rem s j -> rem s i = loc s j ->
  ends_up s i -> ends_up s j.
Proof.
  intros (_ & U & _) (R & _) Hi Hj L1 L2 [A B]. destruct (R i Hi) as [Ra Rb], (R j Hj) as [Rc Rd].
  assert (i_node (h_if s i) = i_rem (h_if s j)) by (apply (NoDup_map_inj (nd_name s) (m_nds s)); auto).
  assert (i_rem (h_if s i) = i_node (h_if s j)) by (apply (NoDup_map_inj (nd_name s) (m_nds s)); auto).
  split; congruence.
Qed.

Lemma upd_same_failed j s x : i_failed (h_if s j) = true -> i_failed (h_if (upd_if j down s) x) = i_failed (h_if s x).
Proof. intros H. simpl. apply fupd_cases; intros; subst; auto. Qed.

Lemma KI_unfail_interface E k iname nname b : env_ok E -> pres (KI k) (unfail_interface E k iname nname b).
Proof.
  intros HE s I. destruct (unfail_interface E k iname nname b s) as [s' r] eqn:H. simpl.
  assert (W := proj1 I). destruct W as (U & R & CS & L). assert (So := proj1 (proj2 I)).
  destruct (unfail_interface_run _ _ _ _ _ _ _ _ U R H) as [(e & _ & -> & _)|(i & j & Hi & Ki & Gr & J & X)]; auto.
  assert (RV := other_rev k _ _ _ J). assert (Hj := proj1 J). assert (SF := same_srlg_failed k s i j So Hi Hj RV).
  destruct X as [_ -> _|EU Fj -> _|s1 EU NFj Fi O X1 -> _|s1 EU NFj NFi O _ _ X1 V]; auto.
  - apply (inv_same k s); auto.
    + apply stat_down.
    + intros x. apply upd_same_failed. apply So; auto.
  - tauto.
  - assert (I1 : inv k s1).
    { apply (inv_pair k s s1 i j false); auto.
      - apply only_ifs_stat; auto. intros x. rewrite X1. destruct (_ || _); auto.
      - intros n. destruct O as (_ & -> & _). auto.
      - intros n. destruct O as (_ & _ & -> & _). auto.
      - intros x. rewrite X1. destruct (_ || _); auto.
      - intros _. split; auto. split; auto. apply (other_ends_up s i j); auto; apply RV. }
    assert (K := KI_validate E k HE s1 I1). rewrite <- V in K. exact K.
Qed.

(** ** nodes *)
Lemma inv_nd k s n b : inv k s -> (In n (m_nds s) -> in_failed_srlg s (n_srlgs (h_nd s n)) -> b = true) ->
  (b = true -> forall i, In i (m_ifs s) -> i_failed (h_if s i) = false -> i_node (h_if s i) <> n /\ i_rem (h_if s i) <> n) ->
  inv k (upd_nd n (nd_failed b) s).
Proof.
  intros (W & (S1 & S2 & S3) & C1 & C2) Hs Hb. assert (S := stat_upd_nd k n b s).
  split; [eapply stat_wf; eauto|]. split; [split; [|split]|split].
  - exact S1.
  - intros m Hm. simpl in *. apply fupd_cases; intros E G; subst; simpl in *; [|apply S2; auto]. apply Hs; auto.
  - intros i j Hi Hj Rv. apply (S3 i j); auto. now apply (stat_rev _ _ _ S).
  - intros i Hi Fi. destruct (C1 i Hi Fi) as [A B]. split; simpl; apply fupd_cases; intros E; auto; simpl; destruct b; auto;
      destruct (Hb eq_refl i Hi Fi); congruence.
  - intros i j Hi Hj Rv. apply (C2 i j); auto. now apply (stat_rev _ _ _ S).
Qed.

Lemma KI_node_up k n : pres (KI k) (node_set_failed n false).
Proof.
  intros s I. unfold node_set_failed. rewrite bind_gets. destruct (existsb _ _) eqn:X.
  - unfold bind, modify, raise. simpl. apply inv_nd; auto. intros _ i Hi Fi.
    destruct I as (W & (S1 & S2 & S3) & C1 & C2). destruct W as (_ & (R & _) & _). destruct (R i Hi) as [Ra Rb]. destruct (C1 i Hi Fi) as [A B].
    assert (F : In n (m_nds s) -> n_failed (h_nd s n) = true) by (intros Hn; apply S2; auto; apply existsb_exists in X; exact X).
    split; intros E0; subst n; [rewrite (F Ra) in A|rewrite (F Rb) in B]; discriminate.
  - unfold modify. simpl. apply inv_nd; auto; [|discriminate]. intros _ G. exfalso. apply existsb_exists in G. unfold in_failed_srlg in G. congruence.
Qed.


Lemma node_down_inv k s n : inv k s -> In n (m_nds s) ->
  (forall i, In i (m_ifs s) -> loc s i = nd_name s n -> i_failed (h_if s i) = true) -> inv k (upd_nd n (nd_failed true) s).
Proof.
  intros I Hn Hd. apply inv_nd; auto. intros _ i Hi Fi. destruct I as (W & _ & _ & C2). split; intros E.
  - rewrite (Hd i Hi) in Fi; [discriminate|]. unfold loc, nd_name. now rewrite E.
  - destruct W as (_ & _ & _ & L). destruct (L i Hi) as (j & Hj & Rj & _).
    rewrite (C2 i j Hi Hj Rj) in Fi. rewrite (Hd j Hj) in Fi; [discriminate|].
    destruct Rj as (_ & Rj & _). unfold nd_name. rewrite <- Rj. unfold rem. now rewrite E.
Qed.

Lemma KI_fail_node k nname : pres (KI k) (fail_node nname).
Proof.
  intros s I. destruct (fail_node nname s) as [s' r] eqn:H. simpl.
  unfold fail_node in H. rewrite bind_gets in H.
  assert (PL : pres (KI k) (mfor (ifaces_of_name s nname) (fun i => nm <- gets (fun s => i_name (h_if s i)) ;; fail_interface nm nname))).
  { apply pres_mfor; [apply KI_preorder|]. intros. apply pres_bind_gets. intros. apply KI_fail_interface. }
  match type of H with bind ?m _ _ = _ => destruct (m s) as [s1 [u|e]] eqn:Hm end.
  2:{ unfold bind at 1 in H. rewrite Hm in H. injection H as <- <-. exact (pres_run _ _ _ _ _ PL Hm I). }
  assert (I1 : inv k s1) by (exact (pres_run _ _ _ _ _ PL Hm I)).
  rewrite (bind_run _ _ _ _ _ Hm), bind_reads in H. assert (G := get_node_spec s1 nname).
  destruct (get_node s1 nname) as [n|e] eqn:Gn; [|injection H as <- <-; exact I1]. destruct G as [G1 G2].
  injection H as <- _. apply node_down_inv; auto. rewrite G2. intros i Hi Li.
  destruct (mfor_bd _ _ (fun x i => if_key s i = if_key s x) (fun _ _ => False) _ _ _ Hm) as [B Rs].
  - intros x a b P1 N1 Hx B R Hb. rewrite bind_gets in Hb.
    assert (U1 := bd_keys _ _ _ _ B (proj1 (proj1 (proj1 I)))). destruct (fail_interface_bd _ _ _ _ U1 Hb) as (B2 & R2 & _). split; auto.
    eapply bd_ext; [exact B2| |tauto]. intros y _. cbv beta. rewrite (bd_key _ _ _ _ B).
    apply ifaces_of_name_In in Hx as [_ Hx]. unfold if_key. rewrite Hx.
    destruct (bd_data _ _ _ _ B x) as [(->&_) _]. reflexivity.
  - rewrite (bd_mifs _ _ _ _ B) in Hi. rewrite (bd_loc _ _ _ _ B) in Li.
    destruct (bd_ifs _ _ _ _ B i Hi) as [D _]; [|apply D]. exists i. split; auto. apply ifaces_of_name_In; auto.
Qed.

Lemma KI_unfail_node E k nname : env_ok E -> pres (KI k) (unfail_node E k nname).
Proof.
  intros HE. assert (HR := KI_preorder k). unfold unfail_node. apply (pres_bind _ HR); [apply (pres_reads _ HR)|intro n].
  apply (pres_bind _ HR); [apply KI_node_up|intros _].
  repeat (pres_step HR); first [now apply KI_unfail_interface].
Qed.

(** ** SRLGs *)
Lemma KI_sr_off k g s : KI k s (upd_sr g (sr_set false) s).
Proof.
  intros I. destruct I as (W & (S1 & S2 & S3) & C1 & C2).
  assert (G : forall gs, in_failed_srlg (upd_sr g (sr_set false) s) gs -> in_failed_srlg s gs).
  { intros gs (x & Hx & F). exists x. split; auto. revert F. simpl. apply fupd_cases; intros; subst; auto. discriminate. }
  split; [eapply stat_wf; [apply stat_upd_sr|exact W]|]. split; [split; [|split]|split]; [| |exact S3|exact C1|exact C2].
  - intros i Hi Gi. apply S1; auto.
  - intros i Hi Gi. apply S2; auto.
Qed.

Lemma KI_unfail_srlg E k name : env_ok E -> pres (KI k) (unfail_srlg E k name).
Proof.
  intros HE. assert (HR := KI_preorder k). unfold unfail_srlg. apply (pres_bind _ HR); [apply (pres_reads _ HR)|intro g].
  apply (pres_bind _ HR); [apply pres_modify; intros; apply KI_sr_off|intros _].
  repeat (pres_step HR); apply pres_ignore; auto; first [now apply KI_unfail_node|now apply KI_unfail_interface].
Qed.

Lemma KI_fail_srlg k name : pres (KI k) (fail_srlg name).
Proof.
  intros s I. destruct (fail_srlg name s) as [s' r] eqn:H. simpl. assert (HR := KI_preorder k).
  assert (H0 := H). unfold fail_srlg in H. rewrite bind_reads in H. destruct (get_srlg s name) as [g|e] eqn:Gg; [|injection H as <- _; exact I].
  rewrite bind_gets in H.
  match type of H with bind ?m _ _ = _ => assert (P1 : pres (KI k) m) end.
  { repeat (pres_step HR); apply KI_fail_node. }
  match type of H with bind ?m _ _ = _ => destruct (m s) as [s1 [u|e]] eqn:Hm end.
  2:{ unfold bind at 1 in H. rewrite Hm in H. injection H as <- <-. exact (pres_run _ _ _ _ _ P1 Hm I). }
  rewrite (bind_run _ _ _ _ _ Hm), bind_gets in H. assert (I1 : inv k s1) by (exact (pres_run _ _ _ _ _ P1 Hm I)).
  match type of H with bind ?m _ _ = _ => assert (P2 : pres (KI k) m) end.
  { repeat (pres_step HR); apply KI_fail_interface. }
  match type of H with bind ?m _ _ = _ => destruct (m s1) as [s2 [u2|e]] eqn:Hm2 end.
  2:{ unfold bind at 1 in H. rewrite Hm2 in H. injection H as <- <-. exact (pres_run _ _ _ _ _ P2 Hm2 I1). }
  rewrite (bind_run _ _ _ _ _ Hm2) in H. assert (I2 : inv k s2) by (exact (pres_run _ _ _ _ _ P2 Hm2 I1)).
  injection H as <- <-. destruct I as (((U1 & U2 & _) & _) & _).
  destruct (fail_srlg_bd _ _ _ U1 U2 H0) as (g' & Hg' & Ng' & B & _).
  assert (g' = g).
  { unfold get_srlg in Gg. destruct (filter _ (m_srs s)) as [|x [|]] eqn:Fx; try discriminate. injection Gg as <-.
    assert (In g' [x]) as [->|[]]; [|reflexivity]. rewrite <- Fx. apply filter_In. split; auto. apply String.eqb_eq; auto. }
  subst g'. destruct I2 as (W & (S1 & S2 & S3) & C1 & C2).
  assert (X : forall gs, in_failed_srlg (upd_sr g (sr_set true) s2) gs -> In g gs \/ (in_failed_srlg s2 gs)).
  { intros gs (x & Hx & F). revert F. simpl. apply fupd_cases; intros; subst; auto. right. exists x. auto. }
  assert (MI := bd_mifs _ _ _ _ B). assert (MN := bd_mnds _ _ _ _ B). simpl in MI, MN.
  split; [eapply stat_wf; [apply stat_upd_sr|exact W]|]. split; [split; [|split]|split]; [| |exact S3|exact C1|exact C2].
  - intros i Hi Gi. destruct (X _ Gi) as [Z|Z]; [|apply S1; auto]. simpl in Hi, Z. rewrite MI in Hi.
    destruct (bd_ifs _ _ _ _ B i Hi) as [D _]; [|apply D]. left.
    destruct (bd_data _ _ _ _ B i) as [(_&_&_&_&_&E&_) _]. simpl in E. now rewrite <- E.
  - intros n Hn Gn. destruct (X _ Gn) as [Z|Z]; [|apply S2; auto]. simpl in Hn, Z. rewrite MN in Hn.
    apply (bd_nodes _ _ _ _ B). split; auto. assert (E := bd_nsrlgs _ _ _ _ B n). simpl in E. now rewrite <- E.
Qed.

(** ** Interface.fail_interface and Interface.unfail_interface *)
Lemma KI_iface_fail k i s : In i (m_ifs s) -> KI k s (fst (iface_fail i s)).
Proof.
  intros Hi I. unfold iface_fail. rewrite bind_reads. destruct (get_remote_interface s i) as [j|e] eqn:Gr; [|exact I].
  assert (J := get_remote_ok _ _ _ Hi Gr). cbn [bind]. change (inv k (upd_if j down (upd_if i down s))).
  apply (inv_pair k s _ i j true); auto.
  - eapply stat_trans; apply stat_down.
  - apply J.
  - now apply other_rev.
  - intros x. destruct (upd_down_downed s j i x) as [D Else]. destruct (Nat.eqb_spec x i) as [->|N1]; [apply D; auto|].
    destruct (Nat.eqb_spec x j) as [->|N2]; [apply D; auto|]. now rewrite Else.
  - discriminate.
Qed.

Lemma KI_iface_unfail k i s : In i (m_ifs s) -> KI k s (fst (iface_unfail i s)).
Proof.
  intros Hi I. assert (I0 := I). destruct I0 as ((U & R & CS & L) & So & C).
  unfold iface_unfail. rewrite bind_reads. destruct (get_remote_interface s i) as [j|e] eqn:Gr; [|exact I].
  assert (J := get_remote_ok _ _ _ Hi Gr). rewrite !bind_gets.
  assert (RV := other_rev k _ _ _ J). assert (Hj := proj1 J). assert (SF := same_srlg_failed k s i j So Hi Hj RV).
  destruct (n_failed (h_nd s (i_node (h_if s i)))) eqn:Fa; [exact I|].
  destruct (n_failed (h_nd s (i_rem (h_if s i)))) eqn:Fb; [exact I|]. cbn [negb andb].
  assert (EU : ends_up s i) by (split; auto).
  assert (EJ : ends_up s j) by (apply (other_ends_up s i j); auto; apply RV). destruct EJ as [Fc Fd].
  destruct (infs s (i_srlgs (h_if s i))) eqn:Fi.
  { unfold bind at 1. rewrite set_failed_false_run, Fi. cbn [fst]. apply (inv_same k s); auto; [apply stat_down|].
    intros x. apply upd_same_failed. apply So; auto. now apply infs_iff. }
  assert (Fj : infs s (i_srlgs (h_if s j)) = false) by (apply infs_false; apply infs_false in Fi; tauto).
  assert (Si : iface_set_failed i false s = (upd_if i (if_failed false) s, Ok tt)).
  { rewrite set_failed_false_run, Fi, Fa, Fb. reflexivity. }
  rewrite (bind_run _ _ _ _ _ Si). rewrite set_failed_false_run.
  assert (Ej : i_srlgs (h_if (upd_if i (if_failed false) s) j) = i_srlgs (h_if s j) /\
    i_node (h_if (upd_if i (if_failed false) s) j) = i_node (h_if s j) /\ i_rem (h_if (upd_if i (if_failed false) s) j) = i_rem (h_if s j)).
  { simpl. apply fupd_cases; intros; subst; repeat split. }
  destruct Ej as (-> & -> & ->). change (infs (upd_if i (if_failed false) s)) with (infs s). rewrite Fj.
  change (h_nd (upd_if i (if_failed false) s)) with (h_nd s). rewrite Fc, Fd. cbn [negb andb fst].
  apply (inv_pair k s _ i j false); auto.
  - eapply stat_trans; apply stat_upd_if; intros r; repeat split.
  - intros x. simpl. unfold fupd. rewrite (Nat.eqb_sym x i), (Nat.eqb_sym x j).
    destruct (Nat.eqb_spec j x) as [->|]; simpl; [now rewrite orb_true_r|]. destruct (Nat.eqb_spec i x) as [->|]; reflexivity.
  - intros _. apply infs_false in Fi, Fj. split; auto. split; [split; auto|auto].
Qed.

(** ** Histories *)
Lemma sets_preorder : preorder same_sets.
Proof. constructor; [apply same_sets_refl|apply same_sets_trans]. Qed.
Lemma sets_set_failed i b : pres same_sets (iface_set_failed i b).
Proof. unfold iface_set_failed. repeat (pres_step sets_preorder); apply pres_modify; intros; repeat split. Qed.
Lemma sets_node_failed i b : pres same_sets (node_set_failed i b).
Proof. unfold node_set_failed. repeat (pres_step sets_preorder); apply pres_modify; intros; repeat split. Qed.
Lemma sets_update E k : pres same_sets (update_simulation E k).
Proof. intros s. destruct (update_input E k s) as [(S & _) _]. exact S. Qed.
Lemma sets_validate E k : pres same_sets (validate_model E k).
Proof. intros s. apply (val_frame_validate E k s). Qed.

Lemma sets_op E k o s : failure_op s o -> pres same_sets (run_op E k o).
Proof.
  assert (HR := sets_preorder). assert (UI : forall i n b, pres same_sets (unfail_interface E k i n b)).
  { intros. apply (pres_unfail_interface _ _ _ HR); auto using sets_set_failed, sets_validate. intros; apply pres_modify; intros; repeat split. }
  assert (UN : forall n, pres same_sets (unfail_node E k n)).
  { intros. unfold unfail_node. repeat (pres_step HR); auto using sets_node_failed. }
  destruct o; simpl; try tauto; intros _.
  - apply sets_update.
  - apply sets_validate.
  - apply (pres_fail_interface _ HR); apply sets_set_failed.
  - apply UI.
  - apply (pres_fail_node _ HR); [apply sets_set_failed|apply sets_node_failed].
  - apply UN.
  - apply (pres_fail_srlg _ HR); [apply sets_set_failed|apply sets_node_failed|]. intros; apply pres_modify; intros; repeat split.
  - unfold unfail_srlg. repeat (pres_step HR); try (apply pres_ignore; now auto). apply pres_modify; intros; repeat split.
  - apply (pres_set_manual_metric _ HR). intros l' f s0 _. repeat split.
  - unfold iface_set_cost. repeat (pres_step HR). apply pres_modify; intros; repeat split.
  - unfold iface_set_capacity. repeat (pres_step HR). apply pres_modify; intros; repeat split.
  - apply (pres_iface_fail _ HR). apply sets_set_failed.
  - apply (pres_iface_unfail _ HR). apply sets_set_failed.
  - unfold discard. repeat (pres_step HR). apply (pres_traffic_on_lsp _ _ _ HR); [intros ? ? ? _|intros ? ?]; repeat split.
  - unfold discard. repeat (pres_step HR). apply (pres_effective_metric _ _ _ HR). intros ? ? ? _. repeat split.
Qed.

Lemma KI_op E k o s : env_ok E -> failure_op s o -> KI k s (fst (run_op E k o s)).
Proof.
  intros HE. assert (HR := KI_preorder k). destruct o; simpl; try tauto; intros Hi.
  - apply KI_update; auto.
  - apply KI_validate; auto.
  - apply KI_fail_interface.
  - apply KI_unfail_interface; auto.
  - apply KI_fail_node.
  - apply KI_unfail_node; auto.
  - apply KI_fail_srlg.
  - apply KI_unfail_srlg; auto.
  - apply (pres_set_manual_metric _ HR). intros l' f s0 Hf. apply KI_ls. intros r. rewrite (Hf r). auto.
  - revert s Hi. match goal with |- forall s, _ -> KI _ s (fst (?m s)) => assert (P : pres (KI k) m); [|intros s _; apply P] end.
    unfold iface_set_cost. repeat (pres_step HR). apply pres_modify; intros. apply KI_if. intros r. repeat split.
  - revert s Hi. match goal with |- forall s, _ -> KI _ s (fst (?m s)) => assert (P : pres (KI k) m); [|intros s _; apply P] end.
    unfold iface_set_capacity. repeat (pres_step HR). apply pres_modify; intros. apply KI_if. intros r. repeat split.
  - now apply KI_iface_fail.
  - now apply KI_iface_unfail.
  - revert s Hi. match goal with |- forall s, _ -> KI _ s (fst (?m s)) => assert (P : pres (KI k) m); [|intros s _; apply P] end.
    unfold discard. repeat (pres_step HR). apply (pres_traffic_on_lsp _ _ _ HR).
    + intros l' f s0 Hf. apply KI_ls. intros r. rewrite (Hf r). auto.
    + intros g s0. apply KI_id; auto; repeat split.
  - revert s Hi. match goal with |- forall s, _ -> KI _ s (fst (?m s)) => assert (P : pres (KI k) m); [|intros s _; apply P] end.
    unfold discard. repeat (pres_step HR). apply (pres_effective_metric _ _ _ HR).
    intros l' f s0 Hf. apply KI_ls. intros r. rewrite (Hf r). auto.
Qed.

Lemma failure_op_sets s s' o : same_sets s s' -> failure_op s o -> failure_op s' o.
Proof. intros (S & _). destruct o; simpl; auto; now rewrite S. Qed.

Lemma history_inv E k : env_ok E -> forall l s, (forall o, In o l -> failure_op s o) -> inv k s -> inv k (run_ops E k l s).
Proof.
  intros HE. induction l as [|o l IH]; intros s Hl I; simpl; auto. apply IH.
  - intros o' Ho. apply (failure_op_sets s); [|apply Hl; right; auto]. apply (sets_op E k o s). apply Hl; left; auto.
  - apply (KI_op E k o s HE); auto. apply Hl; left; auto.
Qed.
