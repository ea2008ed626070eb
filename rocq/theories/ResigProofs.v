(** ResigProofs.v - signalling a routed LSP again for another bandwidth. *)
From Verif Require Import Base Graph Objects Sim Spec SpecSig GraphProofs MonadProofs RoundProofs ResProofs ObjProofs PathProofs Frames CircuitProofs RouteProofs LeastProofs SigProofs.


Section Resignal.
Variables (E : env) (k : kind).
Variables (s : st) (l : nat) (bw : Q) (cur : list nat) (c0 : Z) (b0 old : Q).
Hypothesis Path : l_path (h_ls s l) = PRouted cur c0 b0.
Hypothesis Res : l_res (h_ls s l) = RNum old.
Let cands := paths_for_routed_lsp E k s (lsp_from s l) (lsp_to s l) cur old bw.

Lemma find_path_run s' : find_rsvp_path_w_bw E k l bw s = (s', Ok tt) ->
  (cands = [] /\ s' = s) \/
  (exists p b, In p cands /\ Qmin_list (map (eff_reservable s cur old) p) = Some b /\ only_signals s l s' /\ h_if s' = h_if s /\
     l_path (h_ls s' l) = PRouted p (route_cost s p) b /\ l_res (h_ls s' l) = RNum bw /\
     l_setup (h_ls s' l) = RNum (match l_cfg (h_ls s l) with Some c => if Qeq_bool c 0 then bw else c | None => bw end)).
Proof.
  unfold find_rsvp_path_w_bw. rewrite bind_reads. unfold lsp_interfaces. rewrite Path. rewrite bind_reads. rewrite Res. cbn [num_bw]. rewrite bind_gets.
  change (lsrc s l) with (lsp_from s l). change (ldst s l) with (lsp_to s l). fold cands. intros H.
  apply bind_ok in H as (s1 & infos & H1 & H).
  assert (X : s1 = s /\ Forall2 (fun p r => match Qmin_list (map (eff_reservable s cur old) p) with None => Err ValueError | Some b => Ok (PRouted p (route_cost s p) b) end = Ok r) cands infos).
  { revert H1. generalize cands. clear. intros cs H1. revert infos s1 H1. induction cs as [|p cs IH]; intros infos s1 H1; cbn [mmap] in H1.
    - apply ret_ok in H1 as [-> ->]. auto.
    - apply bind_ok in H1 as (s2 & r & H2 & H1). rewrite bind_gets in H2. apply bind_ok in H1 as (s3 & rs & H3 & H1).
      apply ret_ok in H1 as [-> ->].
      assert (Y : s2 = s /\ match Qmin_list (map (eff_reservable s cur old) p) with None => Err ValueError | Some b => Ok (PRouted p (route_cost s p) b) end = Ok r).
      { destruct (Qmin_list (map (eff_reservable s cur old) p)) as [b|]; [|now apply raise_ok in H2]. apply ret_ok in H2 as [-> ->]. rewrite Zsum_cost. auto. }
      destruct Y as [-> Y]. apply IH in H3 as [-> H3]. auto. }
  destruct X as [-> X].
  assert (Y : forall info s0, In info infos -> (s0 = s \/ s0 = bump_rng s) ->
     (modify (upd_ls l (ls_path info)) ;;; modify (upd_ls l (ls_res (RNum bw))) ;;; set_setup_bw l bw) s0 = (s', Ok tt) ->
     exists p b, In p cands /\ Qmin_list (map (eff_reservable s cur old) p) = Some b /\ only_signals s l s' /\ h_if s' = h_if s /\
     l_path (h_ls s' l) = PRouted p (route_cost s p) b /\ l_res (h_ls s' l) = RNum bw /\
     l_setup (h_ls s' l) = RNum (match l_cfg (h_ls s l) with Some c => if Qeq_bool c 0 then bw else c | None => bw end)).
  { intros info s0 Hin Hs0 HR. rewrite bind_modify, bind_modify in HR.
    assert (Z : exists p b, In p cands /\ Qmin_list (map (eff_reservable s cur old) p) = Some b /\ info = PRouted p (route_cost s p) b).
    { clear -X Hin. induction X as [|p r ps rs H X IH]; [destruct Hin|]. destruct Hin as [->|Hin].
      - destruct (Qmin_list _) as [b|] eqn:M; [|discriminate]. injection H as <-. exists p, b. simpl; auto.
      - destruct (IH Hin) as (p' & b & A & B & C). exists p', b. simpl; auto. }
    destruct Z as (p & b & Hp & Hb & ->). exists p, b. split; auto. split; auto.
    destruct (set_setup_run (upd_ls l (ls_res (RNum bw)) (upd_ls l (ls_path (PRouted p (route_cost s p) b)) s0)) l bw) as [R|(e & R & _)]; rewrite R in HR; [|discriminate].
    injection HR as <-. 
    assert (L0 : h_ls s0 = h_ls s) by (destruct Hs0 as [->| ->]; reflexivity).
    assert (I0 : h_if s0 = h_if s) by (destruct Hs0 as [->| ->]; reflexivity).
    split; [|split; [exact I0|]].
    - constructor; try (destruct Hs0 as [->| ->]; reflexivity).
      + destruct Hs0 as [->| ->]; repeat split.
      + intros i. simpl. rewrite I0. destruct (h_if s i); reflexivity.
      + intros m Hm. simpl. rewrite !fupd_other by auto. now rewrite L0.
      + simpl. rewrite !fupd_same. rewrite L0. reflexivity.
    - simpl. rewrite !fupd_same. simpl. rewrite L0. auto. }
  destruct infos as [|info [|info2 infos]].
  - left. inversion X. apply ret_ok in H as [-> _]. auto.
  - right. apply (Y info s); simpl; auto.
  - right. unfold random_choice in H. apply bind_ok in H as (s1 & a & H2 & H). rewrite bind_gets, bind_modify in H2. apply ret_ok in H2 as [-> ->].
    eapply Y; [| |exact H]; [|auto]. apply nth_In. apply Nat.mod_upper_bound. discriminate.
Qed.

Lemma only_signals_trans a b c m : only_signals a m b -> only_signals b m c -> only_signals a m c.
Proof.
  intros [] []. constructor; try congruence.
  - destruct os_sets as (?&?&?&?&?), os_sets0 as (?&?&?&?&?). repeat split; congruence.
  - intros i. rewrite os_if0, os_if. reflexivity.
  - intros x Hx. rewrite os_ls0, os_ls; auto.
  - rewrite os_l0, os_l. reflexivity.
Qed.
Lemma only_signals_if a h m : (forall i, if_ex_res (h_if a i) (h i)) -> only_signals a m (with_if a h).
Proof. intros H. constructor; auto; [repeat split|]. simpl. destruct (h_ls a m); reflexivity. Qed.

(** Both loops over interface reservations *)
Lemma move_run p new t : NoDup cur -> NoDup p -> exists h, 
  (mfor cur (fun i => add_reserved i (- old)%Q) ;;; mfor p (fun i => add_reserved i new)) t = (with_if t h, Ok tt) /\
  (forall i, if_ex_res (h_if t i) (h i)) /\ forall i, moved cur p old new i (i_res (h_if t i)) (i_res (h i)).
Proof.
  intros N1 N2. destruct (reserve_run (- old) cur t) as (h1 & R1 & F1 & Off1 & On1).
  destruct (reserve_run new p (with_if t h1)) as (h2 & R2 & F2 & Off2 & On2).
  exists h2. split; [|split].
  - rewrite (bind_run _ _ _ _ _ R1). rewrite R2. reflexivity.
  - intros i. specialize (F1 i). specialize (F2 i). unfold if_ex_res in *. simpl in F2. rewrite F2, F1. reflexivity.
  - intros i. assert (RD : rounds 10 (i_res (h_if t i)) (reserved_bw t i)) by apply roundd_rounds.
    destruct (in_dec Nat.eq_dec i cur) as [Hc|Hc]; destruct (in_dec Nat.eq_dec i p) as [Hp|Hp].
    + left. split; auto. split; auto. exists (reserved_bw t i), (reserved_bw (with_if t h1) i). split; auto. split.
      * unfold reserved_bw at 2. simpl. rewrite On1 by auto. apply roundd_rounds.
      * rewrite On2 by auto. reflexivity.
    + right; left. split; auto. split; auto. exists (reserved_bw t i). split; auto. rewrite Off2 by auto. simpl. rewrite On1 by auto. reflexivity.
    + right; right; left. split; auto. split; auto. exists (reserved_bw t i). split; auto. rewrite On2 by auto. unfold reserved_bw at 1. simpl. rewrite Off1 by auto. reflexivity.
    + right; right; right. split; auto. split; auto. rewrite Off2 by auto. simpl. rewrite Off1 by auto. reflexivity.
Qed.

Lemma optimize_run s' : optimize_lsp E k bw l s = (s', Ok tt) ->
  (cands = [] /\ s' = s) \/
  (exists p b, In p cands /\ Qmin_list (map (eff_reservable s cur old) p) = Some b /\ only_signals s l s' /\
     l_path (h_ls s' l) = PRouted p (route_cost s p) b /\ l_res (h_ls s' l) = RNum bw /\
     l_setup (h_ls s' l) = RNum (match l_cfg (h_ls s l) with Some c => if Qeq_bool c 0 then bw else c | None => bw end) /\
     ((old == bw)%Q -> h_if s' = h_if s) /\
     (~ (old == bw)%Q -> NoDup cur -> NoDup p -> forall i, moved cur p old bw i (i_res (h_if s i)) (i_res (h_if s' i)))).
Proof.
  unfold optimize_lsp. rewrite bind_reads. unfold lsp_interfaces at 1. rewrite Path. rewrite bind_reads. rewrite Res. cbn [num_bw].
  intros H. apply bind_ok in H as (s1 & [] & H1 & H). destruct (find_path_run _ H1) as [[C ->]|(p & b & Hp & Hb & F & I & P & R & S)].
  - left. split; auto. rewrite bind_reads, Res in H. cbn [num_bw] in H. 
    replace (Qeqb old old) with true in H by (symmetry; apply Qeq_bool_iff; reflexivity). now apply ret_ok in H as [-> _].
  - right. exists p, b. split; auto. split; auto. rewrite bind_reads, R in H. cbn [num_bw] in H.
    destruct (Qeqb old bw) eqn:Q.
    + apply ret_ok in H as [-> _]. split; auto. split; auto. split; auto. split; auto. split; auto. intros N. exfalso. apply N. now apply Qeq_bool_iff.
    + assert (NQ : ~ (old == bw)%Q) by (intros X; apply Qeq_bool_iff in X; unfold Qeqb in Q; congruence).
      assert (G : forall t, l_path (h_ls t l) = PRouted p (route_cost s p) b -> lsp_interfaces t l = Ok p) by (intros t X; unfold lsp_interfaces; now rewrite X).
      destruct (reserve_run (- old) cur s1) as (h1 & R1 & F1 & Off1 & On1). rewrite (bind_run _ _ _ _ _ R1) in H.
      rewrite bind_reads, (G (with_if s1 h1)) in H by exact P.
      destruct (reserve_run bw p (with_if s1 h1)) as (h2 & R2 & F2 & Off2 & On2). rewrite R2 in H. injection H as <-.
      split; [|split; [exact P|split; [exact R|split; [exact S|split; [tauto|]]]]].
      * eapply only_signals_trans; [exact F|]. change (with_if (with_if s1 h1) h2) with (with_if s1 h2). apply only_signals_if.
        intros i. specialize (F1 i). specialize (F2 i). unfold if_ex_res in *. simpl in F2. rewrite F2, F1. reflexivity.
      * intros _ N1 N2 i. destruct (move_run p bw s1 N1 N2) as (h3 & R3 & _ & M). rewrite (bind_run _ _ _ _ _ R1), R2 in R3.
        injection R3 as R3. rewrite I in M. simpl. specialize (M i). rewrite R3. exact M.
Qed.

(** *** Without parallel links *)
Hypothesis HE : env_ok E.
Hypothesis ND : NoDup (m_ifs s).
Hypothesis Keys : NoDup (map (if_key s) (m_ifs s)).
Hypothesis Cost : forall i, In i (m_ifs s) -> 1 <= i_cost (h_if s i).
Hypothesis NoPar : no_parallel s.
Hypothesis Cur : forall i, In i cur -> In i (m_ifs s).
Hypothesis Ends : lsp_from s l <> lsp_to s l.

Lemma eff_own i r : In i (m_ifs s) -> (own_reservable s cur old i r <-> (r == eff_reservable s cur old i)%Q).
Proof.
  intros Hi. unfold own_reservable, eff_reservable. destruct (mem_if s i cur) eqn:M.
  - apply (mem_if_In s i cur Keys Hi Cur) in M. split.
    + intros (r0 & H & [[_ X]|[X _]]); [|tauto]. apply reservable_iff in H. rewrite X, H. reflexivity.
    + intros X. exists (reservable_bw s i). split; [apply reservable_self|]. left. auto.
  - assert (NI : ~ In i cur) by (intros X; apply (mem_if_In s i cur Keys Hi Cur) in X; congruence). split.
    + intros (r0 & H & [[X _]|[_ X]]); [tauto|]. apply reservable_iff in H. now rewrite X, H.
    + intros X. exists (reservable_bw s i). split; [apply reservable_self|]. right. auto.
Qed.
Lemma eligible_own i : In i (m_ifs s) -> (eligible_routed s cur old bw i = true <-> own_usable s cur old bw i).
Proof.
  intros Hi. unfold eligible_routed, own_usable. rewrite !andb_true_iff, negb_true_iff, Qleb_le. split.
  - intros [[A B] C]. split; auto. split; auto. exists (eff_reservable s cur old i). split; auto. apply eff_own; auto. reflexivity.
  - intros (A & B & r & C & D). apply eff_own in C; auto. repeat split; auto. now rewrite <- C.
Qed.

Lemma flex_routed_route q : forall u v, route s (fun i => eligible_routed s cur old bw i = true) u q v ->
  flex_routed_path s cur old bw (route_nodes s u q) = q.
Proof.
  unfold flex_routed_path, route_nodes. induction q as [|j q IH]; intros u v R; [reflexivity|].
  apply route_cons_inv in R as (-> & Hj & Oj & R). cbn [map]. rewrite hops_cons. cbn [flat_map fst snd]. rewrite (IH _ _ R).
  assert (B : ifaces_between s (loc s j) (rem s j) = [j]).
  { assert (N : NoDup (ifaces_between s (loc s j) (rem s j))) by (apply NoDup_filter; exact ND).
    assert (I : forall i, In i (ifaces_between s (loc s j) (rem s j)) <-> i = j).
    { intros i. unfold ifaces_between. rewrite filter_In, andb_true_iff, !String.eqb_eq. split; [intros (Hi & L & M); now apply NoPar|]. intros ->. auto. }
    destruct (ifaces_between s (loc s j) (rem s j)) as [|a [|b t]].
    - exfalso. apply (I j). reflexivity.
    - f_equal. apply I. simpl; auto.
    - exfalso. inversion N as [|? ? X _]; subst. apply X. assert (a = j) by (apply I; simpl; auto). assert (b = j) by (apply I; simpl; auto). subst. simpl; auto. }
  rewrite B. cbn [filter]. replace (flex_routed_ok s cur old bw j) with true; [reflexivity|]. symmetry.
  unfold flex_routed_ok. unfold eligible_routed, eff_reservable in Oj. rewrite !andb_true_iff in Oj. destruct Oj as [_ Oj]. 
  destruct (mem_if s j cur); [rewrite Oj; reflexivity|]. rewrite Oj. reflexivity.
Qed.

Lemma cands_spec p : In p cands <-> least_cost s (own_usable s cur old bw) (lsp_from s l) p (lsp_to s l).
Proof.
  assert (OK : forall q, least_cost s (fun i => eligible_routed s cur old bw i = true) (lsp_from s l) q (lsp_to s l) <-> least_cost s (own_usable s cur old bw) (lsp_from s l) q (lsp_to s l)).
  { intros q. apply least_cost_ext. apply eligible_own. }
  assert (A := asp_paths E k s (eligible_routed s cur old bw) (node_names s) HE ND Cost (fun _ => NoPar) (lsp_from s l) (lsp_to s l)).
  unfold cands, paths_for_routed_lsp.
  change (mkG (nx_edges k (map (edge_of s) (filter (eligible_routed s cur old bw) (m_ifs s)))) (node_names s)) with (make_graph_routed k s cur old bw) in A.
  rewrite <- OK. set (G := make_graph_routed k s cur old bw) in *. 
  destruct (nx_asp E G (lsp_from s l) (lsp_to s l)) as [nps| |] eqn:Q.
  - destruct A as (_ & _ & A3 & A4). 
    assert (Z : match k with Flex => map (flex_routed_path s cur old bw) nps | Perf => map (perf_path s) nps end = map (flex_routed_path s cur old bw) nps).
    { destruct k; [reflexivity|]. apply map_ext_in. intros np Hnp. destruct (A4 np Hnp) as (q & [Rq _] & ->). rewrite (flex_routed_route _ _ _ Rq).
      exact (perf_path_route Perf s (eligible_routed s cur old bw) (fun _ => NoPar) q eq_refl _ _ Rq). }
    rewrite Z. clear Z. rewrite in_map_iff. split.
    + intros (np & <- & Hnp). destruct (A4 np Hnp) as (q & Lq & ->). rewrite (flex_routed_route _ _ _ (proj1 Lq)). exact Lq.
    + intros L. exists (route_nodes s (lsp_from s l) p). split; [apply (flex_routed_route _ _ _ (proj1 L))|].
      assert (HA := ok_asp E HE G (lsp_from s l) (lsp_to s l) (G_pos k s (eligible_routed s cur old bw) (node_names s) ND Cost (fun _ => NoPar))).
      rewrite Q in HA. destruct HA as (_ & _ & _ & HA). apply HA. exists (map (edge_of s) p). split; [|symmetry; apply node_path_route].
      apply (shortest_walk_least k s (eligible_routed s cur old bw) (node_names s) ND (fun _ => NoPar)). eauto.
  - destruct A as [_ A]. split; [intros []|]. intros [R _]. exfalso. eapply A; eauto.
  - split; [intros []|]. intros [R _]. exfalso.
    assert (HA := ok_asp E HE G (lsp_from s l) (lsp_to s l) (G_pos k s (eligible_routed s cur old bw) (node_names s) ND Cost (fun _ => NoPar))).
    rewrite Q in HA. apply HA. clear HA. destruct p as [|i p].
    { apply route_nil_inv in R. tauto. }
    right. exists (edge_of s i). apply route_cons_inv in R as (-> & Hi & Ho & _). split; [|left; reflexivity].
    apply (G_edge k s (eligible_routed s cur old bw) (node_names s) ND (fun _ => NoPar)). exists i. split; auto. apply filter_In. auto.
Qed.

Lemma resignal s' : NoDup cur -> optimize_lsp E k bw l s = (s', Ok tt) ->
  (s' = s /\ forall p, ~ route s (own_usable s cur old bw) (lsp_from s l) p (lsp_to s l)) \/
  (exists p, resignalled_on s l cur old bw p s').
Proof.
  intros Nc H. destruct (optimize_run _ H) as [[C ->]|(p & b & Hp & Hb & F & P & R & S & Same & Mv)].
  - left. split; auto. intros p Rp. assert (Rp' : route s (fun i => eligible_routed s cur old bw i = true) (lsp_from s l) p (lsp_to s l)).
    { eapply route_ext; [|exact Rp]. intros i Hi. symmetry. now apply eligible_own. }
    apply (route_least_ex k s (eligible_routed s cur old bw) (node_names s) ND Cost (fun _ => NoPar)) in Rp' as (q & Lq).
    assert (Hq : In q cands) by (apply cands_spec; eapply least_cost_ext; [|exact Lq]; intros i Hi; symmetry; now apply eligible_own).
    rewrite C in Hq. destruct Hq.
  - right. exists p. apply cands_spec in Hp. assert (Hin := route_in _ _ _ _ _ (proj1 Hp)).
    constructor; auto.
    + exists b. split; auto. apply Qmin_list_some in Hb as [B1 B2]. split.
      * apply in_map_iff in B1 as (i & B1 & Hi). exists i. split; auto. apply eff_own; [apply Hin; auto|]. now rewrite B1.
      * intros i r Hi Hr. apply eff_own in Hr; [|apply Hin; auto]. rewrite Hr. apply B2. now apply in_map.
    + intros NQ. apply Mv; auto. eapply least_nodup; eauto.
Qed.
End Resignal.
