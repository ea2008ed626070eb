(** ValidateProofs.v - what validate_model checks and does. *)
From Coq Require Import Lqa.
From Coq Require ListDec.
From Verif Require Import Base Graph Objects Sim Spec SpecCkt MonadProofs RoundProofs ResProofs Frames ApiFrames ObjProofs ApiProofs GroupProofs CircuitProofs.

(** ** Reservations per interface key *)
Lemma key2_same s i j : key2_eqb (ikey s j) (ikey s i) = same_key s i j.
Proof.
  unfold key2_eqb, ikey, same_key. simpl. change (ilocal s) with (loc s).
  rewrite (String.eqb_sym (i_name (h_if s j))), (String.eqb_sym (loc s j)). reflexivity.
Qed.

Lemma Qsum_app l l' : (Qsum (l ++ l') == Qsum l + Qsum l')%Q.
Proof. unfold Qsum. induction l; simpl; [lra|]. rewrite IHl. lra. Qed.

Lemma info_sum_app a b key : (info_sum (a ++ b) key == info_sum a key + info_sum b key)%Q.
Proof. unfold info_sum. rewrite filter_app, map_app. apply Qsum_app. Qed.

Lemma info_lsp s q i ifs :
  (info_sum (map (fun j => (ikey s j, q)) ifs) (ikey s i) == inject_Z (Z.of_nat (List.length (filter (same_key s i) ifs))) * q)%Q.
Proof.
  induction ifs as [|j ifs IH]; [reflexivity|].
  change (map (fun j => (ikey s j, q)) (j :: ifs)) with (([(ikey s j, q)] ++ map (fun j => (ikey s j, q)) ifs)%list).
  rewrite info_sum_app, IH. unfold info_sum at 1. cbn [filter fst]. rewrite key2_same.
  simpl filter. destruct (same_key s i j); simpl.
  - rewrite Zpos_P_of_succ_nat. unfold Z.succ. rewrite inject_Z_plus. ring.
  - ring.
Qed.

Lemma lsp_total_cons rd s i l ls : lsp_total rd s i (l :: ls) = (lsp_amount rd s i l + lsp_total rd s i ls)%Q.
Proof. reflexivity. Qed.

Lemma int_info_ok s : lsps_sane s ->
  exists info, int_info s = Ok info /\ forall i, (info_sum info (ikey s i) == lsp_total round1 s i (m_lsps s))%Q.
Proof.
  intros S. unfold int_info.
  assert (H : forall ls, (forall l, In l ls -> In l (m_lsps s)) -> exists infos,
    rmap (fun l => rbind (lsp_interfaces s l) (fun ifs =>
      rmap (fun i =>
        if existsb (fun j => key2_eqb (ikey s j) (ikey s i)) (m_ifs s) then
          rbind (num_bw (l_res (h_ls s l))) (fun q => Ok (ikey s i, round1 q))
        else Err KeyError) ifs)) (filter (lsp_routed s) ls) = Ok infos /\
    forall i, (info_sum (List.concat infos) (ikey s i) == lsp_total round1 s i ls)%Q).
  { induction ls as [|l ls IH]; intros Sub; [exists []; split; reflexivity|].
    destruct IH as (infos & R & T); [intros; apply Sub; simpl; auto|].
    assert (Sl := S l (Sub l (or_introl eq_refl))). cbn [filter]. unfold lsp_routed at 1.
    destruct (l_path (h_ls s l)) as [| | |ifs co ba] eqn:P; cbn [says_unrouted negb].
    - exists infos. split; auto. intros i. rewrite T, lsp_total_cons. unfold lsp_amount. rewrite P. ring.
    - exists infos. split; auto. intros i. rewrite T, lsp_total_cons. unfold lsp_amount. rewrite P. ring.
    - destruct Sl.
    - destruct Sl as [Sk [q Hq]]. cbn [rmap]. unfold lsp_interfaces at 1. rewrite P. cbn [rbind].
      assert (R1 : rmap (fun i =>
        if existsb (fun j => key2_eqb (ikey s j) (ikey s i)) (m_ifs s) then
          rbind (num_bw (l_res (h_ls s l))) (fun q => Ok (ikey s i, round1 q))
        else Err KeyError) ifs = Ok (map (fun j => (ikey s j, round1 q)) ifs)).
      { rewrite Hq. clear - Sk. induction ifs as [|j ifs IH]; simpl; auto.
        assert (X : existsb (fun j0 => key2_eqb (ikey s j0) (ikey s j)) (m_ifs s) = true).
        { assert (Ij := Sk j (or_introl eq_refl)). apply in_map_iff in Ij as (x & Ex & Hx). apply existsb_exists. exists x. split; auto.
          change (ikey s x) with (if_key s x). rewrite Ex. unfold key2_eqb. rewrite !String.eqb_refl. reflexivity. }
        rewrite X. simpl. change (num_bw (RNum q)) with (@Ok Q q) in IH. cbn [rbind] in IH. rewrite IH; [reflexivity|]. intros; apply Sk; simpl; auto. }
      rewrite R1. cbn [rbind]. rewrite R. cbn [rbind]. eexists. split; [reflexivity|].
      intros i. cbn [List.concat]. rewrite info_sum_app, info_lsp, T, lsp_total_cons. unfold lsp_amount. rewrite P, Hq. reflexivity. }
  destruct (H (m_lsps s)) as (infos & R & T); auto. rewrite R. cbn [rbind]. eauto.
Qed.

(** ** Transfer along the frame of make_circuits *)
Section Cf.
Variables (k : kind) (s s1 : st).
Hypothesis F : cframe k s s1.
Lemma cf_key x : if_key s1 x = if_key s x.
Proof. unfold if_key. rewrite (cf_loc _ _ _ F x). destruct (cf_data _ _ _ F x) as (-> & _). reflexivity. Qed.
Lemma cf_sane : lsps_sane s -> lsps_sane s1.
Proof.
  intros S l. rewrite (cf_lsps _ _ _ F), (cf_ls _ _ _ F). intros Hl. specialize (S l Hl).
  destruct (l_path (h_ls s l)); auto. destruct S as [S1 S2]. split; auto. intros j Hj. rewrite cf_key, (cf_ifs _ _ _ F).
  rewrite (map_ext _ (if_key s)) by apply cf_key. auto.
Qed.
Lemma cf_same_key i j : same_key s1 i j = same_key s i j.
Proof.
  unfold same_key. rewrite !(cf_loc _ _ _ F). destruct (cf_data _ _ _ F i) as (-> & _). destruct (cf_data _ _ _ F j) as (-> & _). reflexivity.
Qed.
Lemma cf_total rd i ls : lsp_total rd s1 i ls = lsp_total rd s i ls.
Proof.
  induction ls as [|l ls IH]; simpl; auto. rewrite IH. f_equal. unfold lsp_amount. rewrite (cf_ls _ _ _ F).
  destruct (l_path _); auto. destruct (l_res _); auto. rewrite (filter_ext (same_key s1 i) (same_key s i)) by apply cf_same_key. reflexivity.
Qed.
End Cf.

Lemma srlg_errors_never s : srlg_errors s = false.
Proof.
  unfold srlg_errors. apply not_true_is_false. intros H. apply existsb_exists in H as (g & _ & H).
  apply existsb_exists in H as (n & Hn & H). apply filter_In in Hn as [_ Hn]. rewrite Hn in H. discriminate.
Qed.

Lemma Qeqb_iff a b : Qeqb a b = true <-> (a == b)%Q.
Proof. unfold Qeqb. apply Qeq_bool_iff. Qed.
Lemma Qltb_iff a b : Qltb a b = true <-> (a < b)%Q.
Proof.
  unfold Qltb. rewrite negb_true_iff. split; intros H.
  - apply Qnot_le_lt. intros C. apply Qle_bool_iff in C. congruence.
  - apply not_true_is_false. intros C. apply Qle_bool_iff in C. apply Qlt_not_le in H. auto.
Qed.

(** ** validate_model *)
Definition rd_ok (rd : Q -> Q) : Prop := forall x, rounds 10 x (rd x).
Lemma rd_round1 rd x : rd_ok rd -> (rd x == round1 x)%Q.
Proof. intros H. apply rounds_unique. apply H. Qed.
Lemma round1_ok : rd_ok round1.
Proof. intros x. apply roundd_rounds. Qed.
Lemma round1_idem x : (round1 (round1 x) == round1 x)%Q.
Proof. rewrite !round1_roundd. apply roundd_id, roundd_multiple. Qed.
Lemma round1_compat x y : (x == y)%Q -> (round1 x == round1 y)%Q.
Proof. intros H. rewrite !round1_roundd. rewrite (roundd_compat 10 x y H). reflexivity. Qed.

Lemma lsp_total_rd rd s i ls : rd_ok rd -> (lsp_total rd s i ls == lsp_total round1 s i ls)%Q.
Proof.
  intros R. induction ls as [|l ls IH]; simpl; [reflexivity|]. rewrite IH. unfold lsp_amount.
  destruct (l_path _); try reflexivity. destruct (l_res _); try reflexivity. rewrite (rd_round1 rd q R). reflexivity.
Qed.

Definition taken_down (s s1 s' : st) : Prop :=
  s' = with_if s1 (h_if s') /\ forall x, h_if s' x = if mis s1 (m_ckts s1) x then down (h_if s1 x) else h_if s1 x.


Lemma when_in b v w : In w (when b v) <-> b = true /\ w = v.
Proof. destruct b; simpl; intuition (subst; auto; discriminate). Qed.

Lemma validate_run E k s : env_ok E -> NoDup (m_ifs s) -> lsps_sane s ->
  match validate_model E k s with
  | (s', r) =>
      (~ pairs_up k s /\ (exists e, r = Err e /\ is_model_exn e = true) /\ cframe k s s' /\ m_ckts s' = m_ckts s) \/
      (pairs_up k s /\ exists s1 errs, circuits_ok k s s1 /\ taken_down s s1 s' /\ NoDup errs /\
         (forall v, In v errs <-> check_fails round1 k s (m_ckts s1) v) /\
         r = match errs with [] => Ok tt | _ => Err (ValidationException errs) end)
  end.
Proof.
  intros HE N S. unfold validate_model. assert (MC := make_circuits_run E k s HE N).
  destruct (make_circuits E k s) as [s1 [[]|e]] eqn:Hmc.
  2:{ unfold bind. rewrite Hmc. destruct MC as (P & F & C & X). left. split; auto. split; [exists e; auto|]. auto. }
  destruct MC as [P C]. assert (F := cc_frame _ _ _ C).
  rewrite (bind_run _ _ _ _ _ Hmc).
  destruct (int_info_ok s1 (cf_sane _ _ _ F S)) as (info & Ri & T).
  rewrite bind_reads, Ri. rewrite !bind_gets.
  destruct (check_circuits_run (m_ckts s1) s1) as (s' & R' & E' & X'); [apply (cc_disj _ _ _ C)|apply (cc_nodup _ _ _ C)|].
  rewrite (bind_run _ _ _ _ _ R'). rewrite !bind_gets. rewrite srlg_errors_never.
  set (errs := (when (existsb (res_too_high s1) (m_ifs s1)) VResTooHigh ++ _)%list).
  assert (NE : NoDup errs).
  { subst errs. repeat match goal with |- context [when ?b ?v] => destruct b; cbn [when app] end;
      repeat constructor; simpl; intuition discriminate. }
  assert (IE : forall v, In v errs <-> check_fails round1 k s (m_ckts s1) v).
  { intros v. subst errs. rewrite !in_app_iff, !when_in.
    assert (A1 : existsb (res_too_high s1) (m_ifs s1) = true <-> check_fails round1 k s (m_ckts s1) VResTooHigh).
    { rewrite existsb_exists, (cf_ifs _ _ _ F). simpl. split; intros (i & Hi & X); exists i; (split; [auto|]); unfold res_too_high in *;
        rewrite Qltb_iff in *; unfold reserved_bw in *;
        destruct (cf_data _ _ _ F i) as (_&_&Ec&_&_&_&_&Er&_); rewrite Ec, Er in *; auto. }
    assert (A2 : existsb (res_sum_wrong s1 info) (m_ifs s1) = true <-> check_fails round1 k s (m_ckts s1) VResSum).
    { rewrite existsb_exists, (cf_ifs _ _ _ F). simpl.
      assert (Y : forall i, res_sum_wrong s1 info i = true <-> ~ (round1 (i_res (h_if s i)) == round1 (lsp_total round1 s i (m_lsps s)))%Q).
      { intros i. unfold res_sum_wrong. rewrite negb_true_iff. rewrite <- not_true_iff_false, Qeqb_iff.
        rewrite (round1_compat _ _ (T i)), (cf_lsps _ _ _ F), (cf_total _ _ _ F). unfold reserved_bw. rewrite round1_idem.
        destruct (cf_data _ _ _ F i) as (_&_&_&_&_&_&_&Er&_). rewrite Er. reflexivity. }
      split; intros (i & Hi & X); exists i; (split; [auto|]); now apply Y. }
    assert (A3 : (match k with Flex => false | Perf => existsb (fun n => n_shortcuts (h_nd s1 n)) (m_nds s1) end) = true <->
                 check_fails round1 k s (m_ckts s1) VShortcuts).
    { simpl. rewrite (cf_nd _ _ _ F), (cf_nds _ _ _ F). destruct k; [split; [discriminate|intros [X _]; discriminate]|].
      rewrite existsb_exists. split; [auto|intros [_ X]; auto]. }
    assert (A4 : existsb id (map (fun c => negb (Qeqb (i_cap (h_if s1 (fst c))) (i_cap (h_if s1 (snd c))))) (m_ckts s1)) = true <->
                 check_fails round1 k s (m_ckts s1) VCapacity).
    { rewrite existsb_exists. simpl. split.
      - intros (b & Hb & X). apply in_map_iff in Hb as ([a c] & <- & Hc). unfold id in X. simpl in X. exists a, c. split; auto.
        apply negb_true_iff in X. rewrite <- not_true_iff_false, Qeqb_iff in X.
        destruct (cf_data _ _ _ F a) as (_&_&Ea&_). destruct (cf_data _ _ _ F c) as (_&_&Eb&_). rewrite Ea, Eb in X. auto.
      - intros (a & c & Hc & X). exists true. split; [|reflexivity]. apply in_map_iff. exists (a, c). split; auto. simpl.
        apply negb_true_iff. rewrite <- not_true_iff_false, Qeqb_iff.
        destruct (cf_data _ _ _ F a) as (_&_&Ea&_). destruct (cf_data _ _ _ F c) as (_&_&Eb&_). rewrite Ea, Eb. auto. }
    assert (Ends : forall i, pair_key (ilocal s' i) (iremote s' i) = ends_text (loc s i) (rem s i)).
    { intros i. change (ilocal s' i) with (loc s' i). change (iremote s' i) with (rem s' i).
      assert (E1 : loc s' i = loc s1 i /\ rem s' i = rem s1 i).
      { unfold loc, rem. rewrite (X' i), E'. simpl. destruct (mis s1 (m_ckts s1) i); [destruct (h_if s1 i)|]; split; reflexivity. }
      destruct E1 as [-> ->]. rewrite (cf_loc _ _ _ F), (cf_rem _ _ _ F). reflexivity. }
    assert (A5 : (match k with Flex => false | Perf => parallel_links s' end) = true <-> check_fails round1 k s (m_ckts s1) VParallel).
    { simpl. destruct k; [split; [discriminate|intros [X _]; discriminate]|]. unfold parallel_links. cbv zeta. rewrite dup_test.
      rewrite (map_ext _ _ Ends). rewrite E'. simpl. rewrite (cf_ifs _ _ _ F). split; [auto|intros [_ X]; auto]. }
    assert (A6 : dup_node_names s' = true <-> check_fails round1 k s (m_ckts s1) VDupNodes).
    { simpl. unfold dup_node_names. rewrite <- (map_length (fun n => n_name (h_nd s' n))). unfold node_names. rewrite dup_test.
      rewrite E'. simpl. rewrite (cf_nds _ _ _ F), (cf_nd _ _ _ F). reflexivity. }
    clear - A1 A2 A3 A4 A5 A6. destruct v; [rewrite <- A1|rewrite <- A2|rewrite <- A3|rewrite <- A4|rewrite <- A5|simpl check_fails|rewrite <- A6];
      clear; intuition discriminate. }
  clearbody errs. destruct errs as [|v0 es]; cbv [unique_interface_truthy ret raise]; right; (split; [exact P|]);
    eexists s1, _; (split; [exact C|]); (split; [split; auto|]); (split; [exact NE|]); (split; [exact IE|]); reflexivity.
Qed.

(** ** Consequences *)

Lemma taken_down_ckts s s1 s' : taken_down s s1 s' -> m_ckts s' = m_ckts s1.
Proof. intros [-> _]. reflexivity. Qed.

Lemma check_fails_rd rd k s cs v : rd_ok rd -> (check_fails rd k s cs v <-> check_fails round1 k s cs v).
Proof.
  intros R. destruct v; simpl; try tauto.
  - split; intros (i & Hi & X); exists i; (split; [auto|]); rewrite (rd_round1 rd _ R) in *; auto.
  - assert (X : forall i, (rd (i_res (h_if s i)) == rd (lsp_total rd s i (m_lsps s)))%Q <->
                          (round1 (i_res (h_if s i)) == round1 (lsp_total round1 s i (m_lsps s)))%Q).
    { intros i. rewrite !(rd_round1 rd _ R), (round1_compat _ _ (lsp_total_rd rd s i (m_lsps s) R)). reflexivity. }
    split; intros (i & Hi & Y); exists i; (split; [auto|]); rewrite X in *; auto.
Qed.

Lemma validate_verdict E k s s' r rd : env_ok E -> NoDup (m_ifs s) -> lsps_sane s -> rd_ok rd ->
  validate_model E k s = (s', r) ->
  (pairs_up k s -> exists errs, NoDup errs /\ (forall v, In v errs <-> check_fails rd k s (m_ckts s') v) /\
     (errs = [] -> r = Ok tt) /\ (errs <> [] -> r = Err (ValidationException errs))) /\
  (~ pairs_up k s -> exists e, r = Err e /\ is_model_exn e = true).
Proof.
  intros HE N S R H. assert (V := validate_run E k s HE N S). rewrite H in V.
  destruct V as [(P & Er & _)|(P & s1 & errs & C & T & NE & IE & Hr)]; [tauto|].
  split; [|tauto]. intros _. exists errs. split; auto. split.
  - intros v. rewrite IE, (taken_down_ckts _ _ _ T). symmetry. now apply check_fails_rd.
  - split; intros X; destruct errs; congruence.
Qed.

Lemma validate_accepts E k s s' r rd : env_ok E -> NoDup (m_ifs s) -> lsps_sane s -> rd_ok rd ->
  validate_model E k s = (s', r) ->
  (r = Ok tt <-> pairs_up k s /\ forall v, ~ check_fails rd k s (m_ckts s') v).
Proof.
  intros HE N S R H. assert (V := validate_run E k s HE N S). rewrite H in V.
  destruct V as [(P & (e & -> & _) & _)|(P & s1 & errs & C & T & NE & IE & Hr)].
  - split; [discriminate|tauto].
  - assert (X : forall v, In v errs <-> check_fails rd k s (m_ckts s') v).
    { intros v. rewrite IE, (taken_down_ckts _ _ _ T). symmetry. now apply check_fails_rd. }
    destruct errs as [|v errs]; subst r.
    + split; auto. intros _. split; auto. intros v. rewrite <- X. tauto.
    + split; [discriminate|]. intros [_ Y]. exfalso. apply (Y v). apply X. simpl; auto.
Qed.

(** Whatever the outcome: either no circuits were made, or they were and the
    halves of half-failed circuits may have been taken down. *)
Lemma validate_mid E k s : env_ok E -> NoDup (m_ifs s) ->
  match validate_model E k s with
  | (s', r) =>
      (~ pairs_up k s /\ cframe k s s' /\ m_ckts s' = m_ckts s /\ exists e, r = Err e) \/
      (pairs_up k s /\ exists s1, circuits_ok k s s1 /\ ((taken_down s s1 s') \/ (s' = s1 /\ exists e, r = Err e)))
  end.
Proof.
  intros HE N. unfold validate_model. assert (MC := make_circuits_run E k s HE N).
  destruct (make_circuits E k s) as [s1 [[]|e]] eqn:Hmc.
  2:{ unfold bind. rewrite Hmc. destruct MC as (P & F & C & X). left. split; auto. split; auto. split; auto. exists e; auto. }
  destruct MC as [P C]. rewrite (bind_run _ _ _ _ _ Hmc). rewrite bind_reads.
  destruct (int_info s1) as [info|e].
  2:{ right. split; auto. exists s1. split; auto. right. split; auto. exists e. reflexivity. }
  rewrite !bind_gets.
  destruct (check_circuits_run (m_ckts s1) s1) as (s' & R' & E' & X'); [apply (cc_disj _ _ _ C)|apply (cc_nodup _ _ _ C)|].
  rewrite (bind_run _ _ _ _ _ R'). rewrite !bind_gets.
  set (errs := (when (existsb (res_too_high s1) (m_ifs s1)) VResTooHigh ++ _)%list).
  destruct errs; cbv [unique_interface_truthy ret raise]; right; (split; [exact P|]); exists s1; (split; [exact C|]); left; split; auto.
Qed.

Lemma validate_ok E k s s' : env_ok E -> NoDup (m_ifs s) -> validate_model E k s = (s', Ok tt) ->
  pairs_up k s /\ exists s1, circuits_ok k s s1 /\ taken_down s s1 s'.
Proof.
  intros HE N H. assert (V := validate_mid E k s HE N). rewrite H in V.
  destruct V as [(_ & _ & _ & e & He)|(P & s1 & C & [T|(_ & e & He)])]; try discriminate. split; auto. exists s1. auto.
Qed.

(** taken_down on the fields *)
Lemma mis_cframe k s s1 cs x : cframe k s s1 -> mis s1 cs x = mis s cs x.
Proof.
  intros F. unfold mis. induction cs as [|c cs IH]; simpl; auto. rewrite IH.
  destruct (cf_data _ _ _ F (fst c)) as (_&_&_&_&_&_&Ea&_). destruct (cf_data _ _ _ F (snd c)) as (_&_&_&_&_&_&Eb&_). rewrite Ea, Eb. reflexivity.
Qed.

Lemma td_if k s s1 s' : cframe k s s1 -> taken_down s s1 s' -> forall x, exists b c,
  h_if s' x = if_inckt b (if_cid c (if mis s (m_ckts s') x then down (h_if s x) else h_if s x)) /\ (k = Flex -> c = i_cid (h_if s x)).
Proof.
  intros F T x. rewrite (taken_down_ckts _ _ _ T). destruct T as [_ X]. rewrite X, (mis_cframe _ _ _ _ _ F).
  destruct (cf_if _ _ _ F x) as (b & c & Hx & Hc). exists b, c. split; auto. destruct (mis s (m_ckts s1) x); rewrite Hx; auto.
Qed.

Lemma td_rest k s s1 s' : cframe k s s1 -> taken_down s s1 s' ->
  h_nd s' = h_nd s /\ h_sr s' = h_sr s /\ h_dm s' = h_dm s /\ h_ls s' = h_ls s /\ m_ifs s' = m_ifs s /\ m_nds s' = m_nds s /\
  m_dms s' = m_dms s /\ m_lsps s' = m_lsps s /\ m_srs s' = m_srs s /\ m_groups s' = m_groups s /\ s_next s' = s_next s /\ s_rng s' = s_rng s.
Proof.
  intros F [-> _]. simpl. destruct F. repeat split; auto.
Qed.

Lemma td_loc k s s1 s' : cframe k s s1 -> taken_down s s1 s' -> forall x, loc s' x = loc s x /\ rem s' x = rem s x.
Proof.
  intros F T x. unfold loc, rem. destruct (td_rest _ _ _ _ F T) as (-> & _). destruct (td_if _ _ _ _ F T x) as (b & c & -> & _).
  destruct (mis _ _ _); split; reflexivity.
Qed.

(** C56: which interfaces validate_model takes down *)
Lemma validate_effect E k s s' : env_ok E -> NoDup (m_ifs s) -> validate_model E k s = (s', Ok tt) ->
  forall x,
    ((exists a b, In (a, b) (m_ckts s') /\ (x = a \/ x = b) /\ i_failed (h_if s a) <> i_failed (h_if s b)) ->
       i_failed (h_if s' x) = true /\ i_res (h_if s' x) = 0%Q) /\
    (~ (exists a b, In (a, b) (m_ckts s') /\ (x = a \/ x = b) /\ i_failed (h_if s a) <> i_failed (h_if s b)) ->
       i_failed (h_if s' x) = i_failed (h_if s x) /\ i_res (h_if s' x) = i_res (h_if s x)).
Proof.
  intros HE N H x. destruct (validate_ok _ _ _ _ HE N H) as (_ & s1 & C & T). assert (F := cc_frame _ _ _ C).
  destruct (td_if _ _ _ _ F T x) as (b & c & Hx & _). rewrite Hx.
  destruct (mis s (m_ckts s') x) eqn:M.
  - split; [intros _; split; reflexivity|]. intros X. exfalso. apply X. apply mis_iff in M as ([a b'] & H1 & H2 & H3). exists a, b'. auto.
  - split; [|intros _; split; reflexivity]. intros (a & b' & H1 & H2 & H3). exfalso.
    assert (mis s (m_ckts s') x = true) by (apply mis_iff; exists (a, b'); auto). congruence.
Qed.

Lemma validate_circuits_agree E k s s' : env_ok E -> NoDup (m_ifs s) -> validate_model E k s = (s', Ok tt) ->
  forall a b, In (a, b) (m_ckts s') -> i_failed (h_if s' a) = i_failed (h_if s' b).
Proof.
  intros HE N H a b Hab. assert (V := validate_effect E k s s' HE N H).
  destruct (bool_dec (i_failed (h_if s a)) (i_failed (h_if s b))) as [Eq|Ne].
  - destruct (validate_ok _ _ _ _ HE N H) as (_ & s1 & C & T). assert (D := cc_disj _ _ _ C). rewrite <- (taken_down_ckts _ _ _ T) in D.
    assert (X : forall x, end_of (a, b) x -> i_failed (h_if s' x) = i_failed (h_if s x)).
    { intros x Hx. apply (proj2 (V x)). intros (a' & b' & Hc & Hx' & Ne). 
      assert (E2 : (a, b) = (a', b')) by (apply (D _ _ x); auto). injection E2 as E2 E3. congruence. }
    rewrite (X a), (X b); auto; [right|left]; reflexivity.
  - rewrite (proj1 (proj1 (V a) (ex_intro _ a (ex_intro _ b (conj Hab (conj (or_introl eq_refl) Ne)))))).
    rewrite (proj1 (proj1 (V b) (ex_intro _ a (ex_intro _ b (conj Hab (conj (or_intror eq_refl) Ne)))))). reflexivity.
Qed.

(** When the ends of the links agree nothing is taken down, whatever the outcome. *)
Lemma validate_agree E k s : env_ok E -> NoDup (m_ifs s) -> cids_set k s -> ends_agree k s ->
  cframe k s (fst (validate_model E k s)).
Proof.
  intros HE N CS A. assert (V := validate_mid E k s HE N). destruct (validate_model E k s) as [s' r]. simpl.
  destruct V as [(_ & F & _)|(P & s1 & C & [T|[-> _]])]; auto; [|apply C].
  assert (F := cc_frame _ _ _ C).
  assert (M : forall x, mis s (m_ckts s') x = false).
  { intros x. apply not_true_is_false. intros M. apply mis_iff in M as ([a b] & H1 & _ & H3). apply H3. simpl.
    rewrite (taken_down_ckts _ _ _ T) in H1. destruct (cc_ends _ _ _ C a b H1) as (Ha & Hb & L & R & Hc & _).
    apply A; auto. split; auto. split; auto. destruct k; auto. }
  destruct (td_rest _ _ _ _ F T) as (?&?&?&?&?&?&?&?&?&?&?&?). constructor; auto.
  intros x. destruct (td_if _ _ _ _ F T x) as (b & c & Hx & Hc). rewrite M in Hx. exists b, c. auto.
Qed.

(** ** Circuits after validate_model returned *)
Lemma circuits_flex E s s' : env_ok E -> NoDup (m_ifs s) -> cids_set Flex s -> validate_model E Flex s = (s', Ok tt) ->
  NoDup (m_ckts s') /\
  (forall a b, In (a, b) (m_ckts s') -> In a (m_ifs s') /\ In b (m_ifs s') /\ loc s' a = rem s' b /\ rem s' a = loc s' b /\
     i_cid (h_if s' a) = i_cid (h_if s' b)) /\
  (forall c c' x, In c (m_ckts s') -> In c' (m_ckts s') -> end_of c x -> end_of c' x -> c = c') /\
  (forall i, In i (m_ifs s') -> ((exists c, In c (m_ckts s') /\ end_of c i) <->
     available s i \/ exists j, In j (m_ifs s) /\ available s j /\ is_reverse Flex s i j)) /\
  (forall i, i_cid (h_if s' i) = i_cid (h_if s i)) /\
  (forall i, In i (m_ifs s') -> (i_inckt (h_if s' i) = true <-> exists c, In c (m_ckts s') /\ end_of c i)).
Proof.
  intros HE N CS H. destruct (validate_ok _ _ _ _ HE N H) as (P & s1 & C & T). assert (F := cc_frame _ _ _ C).
  destruct (td_rest _ _ _ _ F T) as (_&_&_&_&Ei&_). assert (L := td_loc _ _ _ _ F T).
  assert (Ec : forall i, i_cid (h_if s' i) = i_cid (h_if s i)).
  { intros i. destruct (td_if _ _ _ _ F T i) as (b & c & Hx & Hc). rewrite Hx. simpl. auto. }
  assert (K := taken_down_ckts _ _ _ T). rewrite K.
  split; [apply (cc_nodup _ _ _ C)|]. split.
  - intros a b Hab. destruct (cc_ends _ _ _ C a b Hab) as (Ha & Hb & H1 & H2 & H3 & _). rewrite Ei, !Ec.
    destruct (L a) as [-> ->]. destruct (L b) as [-> ->]. repeat split; auto.
  - split; [apply (cc_disj _ _ _ C)|]. split.
    + intros i Hi. rewrite Ei in Hi. split.
      * intros ([a b] & Hc & Hx). destruct (cc_ends _ _ _ C a b Hc) as (Ha & Hb & H1 & H2 & H3 & (i' & Hi' & Av & _ & _ & Ei')).
        rewrite (Ei' CS eq_refl) in *. specialize (H3 CS eq_refl). destruct Hx as [Hx|Hx]; simpl in Hx; subst i; [left; auto|right].
        exists a. split; auto. split; auto. split; auto.
      * intros [Av|(j & Hj & Av & Rv)].
        -- destruct (cc_cover _ _ _ C CS i Hi Av) as (a & b & Hc & [(_ & _ & X)|(_ & _ & X)]); specialize (X eq_refl); subst;
             eexists; (split; [exact Hc|]); [left|right]; reflexivity.
        -- destruct (cc_cover _ _ _ C CS j Hj Av) as (a & b & Hc & X). exists (a, b). split; auto.
           destruct (cc_ends _ _ _ C a b Hc) as (Ha & Hb & H1 & H2 & H3 & _). specialize (H3 CS eq_refl).
           destruct (P j Hj Av) as [_ Q]. destruct (Q eq_refl (CS eq_refl j Hj)) as [_ (y & Hy & _ & Uy)].
           destruct Rv as (R1 & R2 & [R3|R3]); [discriminate|].
           destruct X as [(_ & _ & X)|(_ & _ & X)]; specialize (X eq_refl); subst.
           ++ right. simpl. rewrite (Uy i), (Uy b); auto; repeat split; congruence.
           ++ left. simpl. rewrite (Uy i), (Uy a); auto; repeat split; congruence.
    + split; [auto|]. intros i Hi. rewrite Ei in Hi. rewrite <- (cc_inckt _ _ _ C i Hi). destruct T as [_ X]. rewrite X.
      destruct (mis _ _ _); reflexivity.
Qed.

Lemma perf_no_parallel E s s' : env_ok E -> NoDup (m_ifs s) -> validate_model E Perf s = (s', Ok tt) ->
  forall i j, In i (m_ifs s) -> In j (m_ifs s) -> loc s i = loc s j -> rem s i = rem s j -> i = j.
Proof.
  intros HE N H i j Hi Hj L R.
  destruct (validate_ok _ _ _ _ HE N H) as (P & s1 & C & T). assert (F := cc_frame _ _ _ C).
  assert (Hp : NoDup (map (fun i => ends_text (loc s i) (rem s i)) (m_ifs s))).
  { clear P C T F. revert H. unfold validate_model.
    assert (MC := make_circuits_run E Perf s HE N). destruct (make_circuits E Perf s) as [s2 [[]|e]] eqn:Hmc; [|unfold bind; rewrite Hmc; discriminate].
    destruct MC as [_ C]. assert (F := cc_frame _ _ _ C). rewrite (bind_run _ _ _ _ _ Hmc). rewrite bind_reads. destruct (int_info s2); [|discriminate].
    rewrite !bind_gets.
    destruct (check_circuits_run (m_ckts s2) s2) as (s3 & R' & E' & X'); [apply (cc_disj _ _ _ C)|apply (cc_nodup _ _ _ C)|].
    rewrite (bind_run _ _ _ _ _ R'). rewrite !bind_gets.
    destruct (parallel_links s3) eqn:PL.
    - match goal with |- context [when ?b VResTooHigh] => destruct b end; cbn [when app]; [discriminate|].
      match goal with |- context [when ?b VResSum] => destruct b end; cbn [when app]; [discriminate|].
      match goal with |- context [when ?b VShortcuts] => destruct b end; cbn [when app]; [discriminate|].
      match goal with |- context [when ?b VCapacity] => destruct b end; cbn [when app]; discriminate.
    - intros _. unfold parallel_links in PL. cbv zeta in PL. apply negb_false_iff, Nat.eqb_eq in PL. apply dedup_length_nodup in PL.
      assert (TD : taken_down s s2 s3) by (split; auto).
      rewrite (map_ext _ (fun i => ends_text (loc s i) (rem s i))) in PL.
      + destruct (td_rest _ _ _ _ F TD) as (_&_&_&_&Ei&_). rewrite Ei in PL. exact PL.
      + intros x. destruct (td_loc _ _ _ _ F TD x) as [L1 L2].
        change (ilocal s3 x) with (loc s3 x). change (iremote s3 x) with (rem s3 x). rewrite L1, L2. reflexivity. }
  apply (NoDup_map_inj (fun i => ends_text (loc s i) (rem s i)) (m_ifs s)); auto. simpl. congruence.
Qed.

Lemma circuits_perf E s s' : env_ok E -> NoDup (m_ifs s) -> validate_model E Perf s = (s', Ok tt) ->
  NoDup (m_ckts s') /\
  (forall a b, In (a, b) (m_ckts s') -> In a (m_ifs s') /\ In b (m_ifs s') /\ loc s' a = rem s' b /\ rem s' a = loc s' b) /\
  (forall c c' x, In c (m_ckts s') -> In c' (m_ckts s') -> end_of c x -> end_of c' x -> c = c') /\
  (forall i, In i (m_ifs s') -> ((exists c, In c (m_ckts s') /\ end_of c i) <-> available s i)) /\
  (forall n c x, nth_error (m_ckts s') n = Some c -> end_of c x -> i_cid (h_if s' x) = CInt (Z.of_nat n + 1)) /\
  (forall i, In i (m_ifs s') -> (i_inckt (h_if s' i) = true <-> exists c, In c (m_ckts s') /\ end_of c i)).
Proof.
  intros HE N H. destruct (validate_ok _ _ _ _ HE N H) as (P & s1 & C & T). assert (F := cc_frame _ _ _ C).
  destruct (td_rest _ _ _ _ F T) as (_&_&_&_&Ei&_). assert (L := td_loc _ _ _ _ F T).
  assert (U := perf_no_parallel _ _ _ HE N H).
  assert (K := taken_down_ckts _ _ _ T). rewrite K.
  split; [apply (cc_nodup _ _ _ C)|]. split.
  - intros a b Hab. destruct (cc_ends _ _ _ C a b Hab) as (Ha & Hb & H1 & H2 & H3 & _). rewrite Ei.
    destruct (L a) as [-> ->]. destruct (L b) as [-> ->]. auto.
  - split; [apply (cc_disj _ _ _ C)|]. split.
    + intros i Hi. rewrite Ei in Hi. split.
      * intros ([a b] & Hc & Hx). destruct (cc_ends _ _ _ C a b Hc) as (Ha & Hb & H1 & H2 & H3 & (i' & Hi' & Av & L' & R' & _)).
        assert (i' = a) by (apply U; auto). subst i'.
        destruct Hx as [Hx|Hx]; simpl in Hx; subst i; auto.
        destruct (P a Ha Av) as [(j & Hj & Avj & Lj & Rj) _]. assert (j = b) by (apply U; auto; congruence). subst. auto.
      * intros Av. assert (CS : cids_set Perf s) by (intros X; discriminate).
        destruct (cc_cover _ _ _ C CS i Hi Av) as (a & b & Hc & X). exists (a, b). split; auto.
        destruct (cc_ends _ _ _ C a b Hc) as (Ha & Hb & _).
        destruct X as [(X1 & X2 & _)|(X1 & X2 & _)]; [left|right]; simpl; symmetry; apply U; auto.
    + split.
      * intros n c x Hn Hx. rewrite <- (cc_cid _ _ _ C eq_refl n c x Hn Hx). destruct T as [_ X]. rewrite X. destruct (mis _ _ _); reflexivity.
      * intros i Hi. rewrite Ei in Hi. rewrite <- (cc_inckt _ _ _ C i Hi). destruct T as [_ X]. rewrite X.
        destruct (mis _ _ _); reflexivity.
Qed.

(** ** Acceptance in terms of the model before the call only *)
Lemma capacity_check k s s1 : circuits_ok k s s1 -> pairs_up k s -> cids_set k s ->
  (k = Perf -> forall i j, In i (m_ifs s) -> In j (m_ifs s) -> loc s i = loc s j -> rem s i = rem s j -> i = j) ->
  ((exists a b, In (a, b) (m_ckts s1) /\ ~ (i_cap (h_if s a) == i_cap (h_if s b))%Q) <->
   (exists i j, In i (m_ifs s) /\ In j (m_ifs s) /\ available s i /\ is_reverse k s i j /\ ~ (i_cap (h_if s i) == i_cap (h_if s j))%Q)).
Proof.
  intros C P CS U. split.
  - intros (a & b & Hc & X). destruct (cc_ends _ _ _ C a b Hc) as (Ha & Hb & H1 & H2 & H3 & (i & Hi & Av & L & R & Ei)).
    exists a, b. split; auto. split; auto.
    assert (i = a) by (destruct k; [now apply Ei|apply U; auto]). subst i. split; auto. split; auto. split; auto. split; auto. destruct k; auto.
  - intros (i & j & Hi & Hj & Av & (R1 & R2 & R3) & X).
    destruct (cc_cover _ _ _ C CS i Hi Av) as (a & b & Hc & Y). destruct (cc_ends _ _ _ C a b Hc) as (Ha & Hb & H1 & H2 & H3 & _).
    assert (Z : (a = i /\ b = j) \/ (b = i /\ a = j)).
    { destruct Y as [(Y1 & Y2 & Y3)|(Y1 & Y2 & Y3)]; [left|right]; (destruct k; [|split; apply U; auto; congruence]);
        specialize (Y3 eq_refl); subst; (split; auto);
        destruct (P _ Hi Av) as [_ Q]; destruct (Q eq_refl (CS eq_refl _ Hi)) as [_ (y & Hy & _ & Uy)];
        destruct R3 as [R3|R3]; try discriminate; specialize (H3 CS eq_refl);
        rewrite (Uy j) by (auto; repeat split; congruence); apply Uy; auto; repeat split; congruence. }
    exists a, b. split; auto. destruct Z as [[-> ->]|[-> ->]]; auto. intros E. apply X. symmetry. exact E.
Qed.

Lemma validate_accepts_exactly E k s s' r rd : env_ok E -> NoDup (m_ifs s) -> lsps_sane s -> cids_set k s -> rd_ok rd ->
  validate_model E k s = (s', r) ->
  (r = Ok tt <->
   pairs_up k s /\
   (forall i, In i (m_ifs s) -> (rd (i_res (h_if s i)) <= i_cap (h_if s i))%Q /\
      (rd (i_res (h_if s i)) == rd (lsp_total rd s i (m_lsps s)))%Q) /\
   (forall i j, In i (m_ifs s) -> In j (m_ifs s) -> available s i -> is_reverse k s i j ->
      (i_cap (h_if s i) == i_cap (h_if s j))%Q) /\
   NoDup (map (nd_name s) (m_nds s)) /\
   (k = Perf -> NoDup (map (fun i => ends_text (loc s i) (rem s i)) (m_ifs s)) /\
      forall n, In n (m_nds s) -> n_shortcuts (h_nd s n) = false)).
Proof.
  intros HE N S CS R H. rewrite (validate_accepts E k s s' r rd HE N S R H).
  assert (Ck : pairs_up k s -> exists s1, circuits_ok k s s1 /\ m_ckts s' = m_ckts s1).
  { intros P. assert (V := validate_run E k s HE N S). rewrite H in V.
    destruct V as [(P' & _)|(_ & s1 & errs & C & T & _)]; [tauto|]. exists s1. split; auto. now apply (taken_down_ckts _ _ _ T). }
  assert (U : forall l, NoDup (map (fun i => ends_text (loc s i) (rem s i)) l) ->
     forall i j, In i l -> In j l -> loc s i = loc s j -> rem s i = rem s j -> i = j).
  { intros l D i j Hi Hj L1 L2. apply (NoDup_map_inj (fun i => ends_text (loc s i) (rem s i)) l); auto. congruence. }
  split.
  - intros [P X]. destruct (Ck P) as (s1 & C & Ek). split; auto.
    assert (DP : k = Perf -> NoDup (map (fun i => ends_text (loc s i) (rem s i)) (m_ifs s))).
    { intros Hk. destruct (ListDec.NoDup_dec string_dec (map (fun i => ends_text (loc s i) (rem s i)) (m_ifs s))); auto.
      exfalso. apply (X VParallel). simpl. auto. }
    split; [|split; [|split]].
    + intros i Hi. split.
      * destruct (Qlt_le_dec (i_cap (h_if s i)) (rd (i_res (h_if s i)))); auto. exfalso. apply (X VResTooHigh). simpl. eauto.
      * destruct (Qeq_dec (rd (i_res (h_if s i))) (rd (lsp_total rd s i (m_lsps s)))); auto. exfalso. apply (X VResSum). simpl. eauto.
    + intros i j Hi Hj Av Rv. destruct (Qeq_dec (i_cap (h_if s i)) (i_cap (h_if s j))); auto. exfalso. apply (X VCapacity). simpl. rewrite Ek.
      apply (capacity_check _ _ _ C P CS); eauto 10.
    + destruct (ListDec.NoDup_dec string_dec (map (nd_name s) (m_nds s))); auto. exfalso. apply (X VDupNodes). auto.
    + intros Hk. split; auto. intros n Hn. apply not_true_is_false. intros Q. apply (X VShortcuts). simpl. eauto.
  - intros (P & A1 & A2 & A3 & A4). split; auto. destruct (Ck P) as (s1 & C & Ek). intros v F. destruct v; simpl in F.
    + destruct F as (i & Hi & F). destruct (A1 i Hi) as [F' _]. apply Qle_not_lt in F'. auto.
    + destruct F as (i & Hi & F). destruct (A1 i Hi) as [_ F']. auto.
    + destruct F as (Hk & n & Hn & F). destruct (A4 Hk) as [_ F']. rewrite (F' n Hn) in F. discriminate.
    + rewrite Ek in F. apply (capacity_check _ _ _ C P CS) in F; [|intros Hk; apply U; now apply A4].
      destruct F as (i & j & Hi & Hj & Av & Rv & F). auto.
    + destruct F as (Hk & F). destruct (A4 Hk). auto.
    + auto.
    + auto.
Qed.

(** ** Dash-free names *)
Lemma parallel_dash_free s :
  (forall i, In i (m_ifs s) -> dash_free (loc s i)) ->
  (NoDup (map (fun i => ends_text (loc s i) (rem s i)) (m_ifs s)) <-> NoDup (map (fun i => (loc s i, rem s i)) (m_ifs s))).
Proof.
  generalize (m_ifs s). induction l as [|i l IH]; simpl; intros D; [split; constructor|].
  assert (IH' := IH (fun j Hj => D j (or_intror Hj))).
  split; intros H; inversion H as [|? ? N1 N2]; subst; constructor; try tauto; intros C; apply N1; apply in_map_iff in C as (j & Ej & Hj); apply in_map_iff;
    exists j; (split; [|auto]).
  - congruence.
  - destruct (ends_text_inj (loc s j) (loc s i) (rem s j) (rem s i)); auto. congruence.
Qed.

Lemma parallel_exactly E s s' r : env_ok E -> NoDup (m_ifs s) -> lsps_sane s -> pairs_up Perf s ->
  (forall i, In i (m_ifs s) -> dash_free (loc s i)) -> validate_model E Perf s = (s', r) ->
  ((exists errs, r = Err (ValidationException errs) /\ In VParallel errs) <->
   exists i j, In i (m_ifs s) /\ In j (m_ifs s) /\ i <> j /\ loc s i = loc s j /\ rem s i = rem s j).
Proof.
  intros HE N S P D H. destruct (validate_verdict E Perf s s' r round1 HE N S round1_ok H) as [V _].
  destruct (V P) as (errs & NE & IE & V1 & V2). clear V.
  assert (X : In VParallel errs <-> ~ NoDup (map (fun i => (loc s i, rem s i)) (m_ifs s))).
  { rewrite IE. simpl. rewrite <- parallel_dash_free by auto. tauto. }
  assert (Y : ~ NoDup (map (fun i => (loc s i, rem s i)) (m_ifs s)) <->
     exists i j, In i (m_ifs s) /\ In j (m_ifs s) /\ i <> j /\ loc s i = loc s j /\ rem s i = rem s j).
  { clear - N. induction (m_ifs s) as [|i l IH]; simpl.
    - split; [intros C; exfalso; apply C; constructor|intros (i & j & [] & _)].
    - inversion N as [|? ? N1 N2]; subst. specialize (IH N2).
      assert (Dec : forall a b : string * string, {a = b} + {a <> b}) by (decide equality; apply string_dec).
      split.
      + intros C. destruct (in_dec Dec (loc s i, rem s i) (map (fun i => (loc s i, rem s i)) l)) as [I|I].
        * apply in_map_iff in I as (j & Ej & Hj). injection Ej as E1 E2. exists i, j. repeat split; auto. intros ->. auto.
        * destruct (proj1 IH) as (x & y & Hx & Hy & R); [intros D'; apply C; now constructor|]. exists x, y. tauto.
      + intros (x & y & Hx & Hy & Ne & L & R) D'. inversion D' as [|? ? D1 D2]; subst.
        destruct Hx as [->|Hx]; destruct Hy as [->|Hy].
        * auto.
        * apply D1. apply in_map_iff. exists y. split; auto. congruence.
        * apply D1. apply in_map_iff. exists x. split; auto. congruence.
        * apply (proj2 IH); eauto 10. }
  rewrite <- Y, <- X. split.
  - intros (errs' & Hr & Hin). destruct errs; [rewrite V1 in Hr by auto; discriminate|]. rewrite V2 in Hr by discriminate. injection Hr as <-. auto.
  - intros Hin. exists errs. split; auto. apply V2. intros ->. destruct Hin.
Qed.

(** ** Interface names do not matter *)
Lemma rename_total rd s f i : (forall l, In l (m_lsps s) -> l_path (h_ls s l) = PUnrouted \/ l_path (h_ls s l) = PInit) ->
  (lsp_total rd (rename_ifs f s) i (m_lsps s) == 0)%Q /\ (lsp_total rd s i (m_lsps s) == 0)%Q.
Proof.
  generalize (m_lsps s). induction l as [|x l IH]; simpl; intros H; [split; reflexivity|].
  destruct IH as [I1 I2]; [intros; apply H; auto|]. rewrite I1, I2. unfold lsp_amount. simpl.
  destruct (H x (or_introl eq_refl)) as [-> | ->]; split; reflexivity.
Qed.

Lemma rename_accepts E k s f : env_ok E -> NoDup (m_ifs s) -> cids_set k s ->
  (forall l, In l (m_lsps s) -> l_path (h_ls s l) = PUnrouted \/ l_path (h_ls s l) = PInit) ->
  (snd (validate_model E k (rename_ifs f s)) = Ok tt <-> snd (validate_model E k s) = Ok tt).
Proof.
  intros HE N CS Un.
  assert (S1 : lsps_sane s) by (intros l Hl; destruct (Un l Hl) as [-> | ->]; exact I).
  assert (S2 : lsps_sane (rename_ifs f s)) by (intros l Hl; simpl; destruct (Un l Hl) as [-> | ->]; exact I).
  destruct (validate_model E k s) as [s1 r1] eqn:V1. destruct (validate_model E k (rename_ifs f s)) as [s2 r2] eqn:V2. simpl.
  rewrite (validate_accepts_exactly E k s s1 r1 round1 HE N S1 CS round1_ok V1).
  rewrite (validate_accepts_exactly E k (rename_ifs f s) s2 r2 round1 HE N S2 CS round1_ok V2).
  assert (T := fun i => rename_total round1 s f i Un).
  assert (T1 : forall i, (round1 (lsp_total round1 (rename_ifs f s) i (m_lsps (rename_ifs f s))) == round1 0)%Q).
  { intros i. apply round1_compat. apply (T i). }
  assert (T2 : forall i, (round1 (lsp_total round1 s i (m_lsps s)) == round1 0)%Q).
  { intros i. apply round1_compat. apply (T i). }
  split; intros (P & A1 & A2 & A3 & A4); (split; [exact P|]); (split; [|split; [exact A2|split; [exact A3|exact A4]]]);
    intros i Hi; destruct (A1 i Hi) as [B1 B2]; (split; [exact B1|]).
  - rewrite T2. rewrite T1 in B2. exact B2.
  - rewrite T1. rewrite T2 in B2. exact B2.
Qed.


Lemma lsp_groups_exact E s : env_ok E -> m_groups s = [] -> (forall l, In l (m_lsps s) -> dash_free (lsp_from s l)) ->
  exists g, parallel_lsp_groups E s = (set_groups g s, Ok g) /\ NoDup (map fst g) /\
    forall key ls, In (key, ls) g <-> exists a b, key = ends_text a b /\ ls <> [] /\
      ls = filter (fun l => String.eqb (lsp_from s l) a && String.eqb (lsp_to s l) b) (m_lsps s).
Proof.
  intros HE G D. unfold parallel_lsp_groups. rewrite bind_gets, G, bind_gets, bind_modify.
  assert (K : keys_apart (lsrc s) (ldst s) (m_lsps s)).
  { intros a a' b b' Ha Ha' _ _. apply in_map_iff in Ha as (l & <- & Hl). apply in_map_iff in Ha' as (l' & <- & Hl').
    apply ends_text_inj; apply D; auto. }
  eexists. split; [reflexivity|]. split; [now apply groups_fst_nodup|].
  intros key ls. rewrite groups_in by auto. split; intros (a & b & H); exists a, b; unfold members in *; simpl in *; tauto.
Qed.

Lemma made_circuits E k s : env_ok E -> NoDup (m_ifs s) -> m_ckts (fst (validate_model E k s)) <> m_ckts s -> pairs_up k s.
Proof.
  intros HE N H. assert (V := validate_mid E k s HE N). destruct (validate_model E k s) as [s' r]. simpl in H.
  destruct V as [(_ & _ & C & _)|(P & _)]; auto. congruence.
Qed.
