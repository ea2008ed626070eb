(** DataShort.v - models with the same data, scaled models and failure histories in
    FlexModels with IGP shortcuts (C102). *)
From Verif Require Import Base Graph Objects Sim Api Spec SpecCkt SpecSim SpecMetric SpecFlow SpecOrder SpecShort SpecTotal SpecWhatIf SpecSame SpecHist SpecFail SpecMore SpecData SpecLoad SpecFile Loader GraphProofs MonadProofs RoundProofs ResProofs ObjProofs CircuitProofs
  ValidateProofs GroupProofs PathProofs QuietProofs RouteProofs LeastProofs OrderProofs DemandProofs MetricProofs IgpProofs Ecmp TrafficProofs ShareProofs FlowProofs UtilProofs RepairProofs WhatIf WhatIfApi OwnProofs OwnApi SpecSig SigProofs SigSeq SigEnd LspTotal SigTotal LspSucceeds LspExact
  OrderLsps PropertiesApi PropertiesRoute PropertiesTraffic PropertiesSignal ShortLsp MoreLsps DownLsps MatchLsps DataLsps KindLsps MatchShort LoadProofs LoadRun LoadBuild PropertiesLoad FileLsps.
From Coq Require Import Permutation Lqa.

Lemma off_or s : shortcuts_off s \/ exists n, In n (m_nds s) /\ n_shortcuts (h_nd s n) = true.
Proof.
  destruct (existsb (fun n => n_shortcuts (h_nd s n)) (m_nds s)) eqn:X.
  - right. apply existsb_exists in X as (n & Hn & Sn). eauto.
  - left. intros n Hn. destruct (n_shortcuts (h_nd s n)) eqn:Sn; auto. assert (Y : existsb (fun n => n_shortcuts (h_nd s n)) (m_nds s) = true) by (apply existsb_exists; eauto). congruence.
Qed.

Section One.
Variables (E : env) (k : kind).
Hypothesis HE : env_ok E.
Variables s s' : st.
Hypothesis R : usual_room k s.
Hypothesis Up : update_simulation E k s = (s', Ok tt).
Let Fs := fin_fail E k HE s s' (ur_posed _ _ R) (ur_cids _ _ R) (ur_agree _ _ R) Up.
Lemma ride_items d ps p x : In d (m_dms s) -> (exists l, lsp_of s' d l /\ routed_lsp s' l) -> d_path (h_dm s' d) = DPaths ps -> In p ps -> In x p -> known_item s x.
Proof.
  intros Hd H P Hp Hx. destruct (C07_ride E k s s' d HE (ur_posed _ _ R) (lu_once _ _ (ur_usual _ _ R)) Up Fs Hd H) as (ls & es & _ & _ & X & Q & _). rewrite P in Q. injection Q as ->.
  apply in_map_iff in Hp as (l & <- & Hl). destruct Hx as [<-|[]]. apply X in Hl. exact (in_lsp E k s s' Up d l (proj1 Hl)).
Qed.
Lemma preferred_used d l : In d (m_dms s) -> preferred s' d l -> exists ps, d_path (h_dm s' d) = DPaths ps /\ In [ILsp l] ps.
Proof.
  intros Hd Pl. destruct (C07_ride E k s s' d HE (ur_posed _ _ R) (lu_once _ _ (ur_usual _ _ R)) Up Fs Hd) as (ls & es & _ & _ & X & Q & _).
  - exists l. split; [exact (proj1 Pl)|]. exact (proj1 (proj2 Pl)).
  - exists (map (fun l => [ILsp l]) ls). split; [exact Q|]. apply in_map_iff. exists l. split; auto. now apply X.
Qed.
End One.
Lemma any_items E (HE : env_ok E) s s' (R : usual_room Flex s) (Up : update_simulation E Flex s = (s', Ok tt)) d ps p x : keys_unique s -> refs_ok s -> node_texts s -> In d (m_dms s) -> d_path (h_dm s' d) = DPaths ps -> In p ps -> In x p -> known_item s x.
Proof.
  intros K RO NT Hd P Hp Hx. destruct (routed_or E Flex HE s s' (ur_posed _ _ R) (ur_known _ _ R) (ur_usual _ _ R) (ur_ample _ _ R) Up d) as [H|N].
  - exact (ride_items E Flex HE s s' R Up d ps p x Hd H P Hp Hx).
  - exact (ms_known E HE s s' R Up K RO NT d Hd ps p x N P Hp Hx).
Qed.

Section Data.
Variables (E E' : env).
Hypothesis HE : env_ok E.
Hypothesis HE' : env_ok E'.
Variables s t s' t' : st.
Hypothesis D : same_data Flex s t.
Hypothesis Ks : keys_unique s.
Hypothesis Kt : keys_unique t.
Hypothesis RO : refs_ok s.
Hypothesis ROt : refs_ok t.
Hypothesis Rs : usual_room Flex s.
Hypothesis Up : update_simulation E Flex s = (s', Ok tt).
Hypothesis Up' : update_simulation E' Flex t = (t', Ok tt).
Let LU := ur_usual _ _ Rs.
Let Rt := sd_usual Flex s t D Ks Kt LU Rs.
Lemma ds_snode n : shortcut_node s n <-> shortcut_node t n.
Proof.
  destruct (sd_nds _ _ _ D) as [A B]. split; intros (x & Hx & Nx & Sx).
  - destruct (A x Hx) as (y & Hy & N & S). exists y. split; [exact Hy|]. split; congruence.
  - destruct (B x Hx) as (y & Hy & N & S). exists y. split; [exact Hy|]. split; congruence.
Qed.
Lemma ds_paths d e : In d (m_dms s) -> In e (m_dms t) -> dmd_key t e = dmd_key s d -> (no_lsp_for s' d -> one_road s d) -> same_routes s' (d_path (h_dm s' d)) t' (d_path (h_dm t' e)).
Proof.
  intros Hd He K One. destruct (off_or s) as [Off|Sn]; [exact (sd_paths E E' Flex HE HE' s t s' t' D Ks Kt Rs Up Up' Off d e Hd He K)|].
  assert (NT := lu_texts _ _ LU eq_refl Sn). assert (NTt := sd_texts Flex s t D NT).
  destruct (sd_matched Flex s t D Ks Kt LU) as (fi & fd & fl & M & Ai & Ui & Ad & Ud & Al & Ul). rewrite (Ud d e Hd He K).
  assert (X := ms_paths E E' 1 1 fi fd fl HE HE' s t s' t' ltac:(lia) M Rs Rt Up Up' Ks Kt RO ROt NT NTt ds_snode d Hd One). unfold paths_to in X. unfold same_routes.
  assert (V := fun ps p x => any_items E HE s s' Rs Up d ps p x Ks RO NT Hd). destruct (d_path (h_dm s' d)) as [|ps], (d_path (h_dm t' (fd d))) as [|qs]; try contradiction; auto. destruct X as [X1 X2]. assert (V' := fun p x => V ps p x eq_refl). clear V. rename V' into V.
  assert (HH : forall p, In p ps -> map (hop_of t') (map (item_to fi fl) p) = map (hop_of s') p).
  { intros p Hp. rewrite map_map. apply map_ext_in. intros x Hx. specialize (V p x Hp Hx). destruct x as [i|l]; simpl; f_equal.
    - rewrite (fin_key E Flex s s' Up), (fin_key E' Flex t t' Up'). exact (proj1 (Ai i V)).
    - rewrite (fin_lkey E Flex s s' Up), (fin_lkey E' Flex t t' Up'). exact (proj1 (Al l V)). }
  intros h. rewrite !in_map_iff. split.
  - intros (p & <- & Hp). exists (map (item_to fi fl) p). split; auto.
  - intros (q & <- & Hq). destruct (X2 q Hq) as (p & Hp & ->). exists p. split; [|auto]. symmetry; auto.
Qed.
Lemma ds_traffic i j : In i (m_ifs s) -> In j (m_ifs t) -> if_key t j = if_key s i -> (forall d, In d (m_dms s) -> no_lsp_for s' d -> one_road s d) -> used_roads s s' ->
  same_traffic (i_traffic (h_if s' i)) (i_traffic (h_if t' j)).
Proof.
  intros Hi Hj K One So. destruct (off_or s) as [Off|Sn].
  - apply (sd_traffic E E' Flex HE HE' s t s' t' D Ks Kt Rs Up Up' Off i j Hi Hj K). intros d l Hd Pl. destruct (preferred_used E Flex HE s s' Rs Up d l Hd Pl) as (ps & P & Q). apply (So d ps _ l Hd P Q). now left.
  - assert (NT := lu_texts _ _ LU eq_refl Sn). assert (NTt := sd_texts Flex s t D NT).
    destruct (sd_matched Flex s t D Ks Kt LU) as (fi & fd & fl & M & Ai & Ui & Ad & Ud & Al & Ul). rewrite (Ui i j Hi Hj K).
    exact (ms_traffic E E' 1 1 fi fd fl HE HE' s t s' t' ltac:(lia) M Rs Rt Up Up' Ks Kt RO ROt NT NTt ds_snode i ltac:(reflexivity) Hi One So).
Qed.
End Data.

Section Scale.
Variables (E E' : env) (z : Z) (c : Q).
Hypothesis HE : env_ok E.
Hypothesis HE' : env_ok E'.
Variables s t s' t' : st.
Hypothesis Hz : 0 < z.
Hypothesis Mu : multiplied z c s t.
Hypothesis Ks : keys_unique s.
Hypothesis Kt : keys_unique t.
Hypothesis RO : refs_ok s.
Hypothesis ROt : refs_ok t.
Hypothesis Rs : usual_room Flex s.
Hypothesis Rt : usual_room Flex t.
Hypothesis SN : forall n, shortcut_node s n <-> shortcut_node t n.
Hypothesis Up : update_simulation E Flex s = (s', Ok tt).
Hypothesis Up' : update_simulation E' Flex t = (t', Ok tt).
Let Nd : NoDup (m_dms s). Proof. destruct Ks as (_&_&N&_). eapply NoDup_of_map; eauto. Qed.
Let Nd' : NoDup (m_dms t). Proof. destruct Kt as (_&_&N&_). eapply NoDup_of_map; eauto. Qed.
Let M := sc_matched Flex z c s t Hz Mu Nd Nd' Rs Rt.
Lemma snode_off a b : (forall n, shortcut_node a n <-> shortcut_node b n) -> shortcuts_off a -> shortcuts_off b.
Proof.
  intros X O n Hn. destruct (n_shortcuts (h_nd b n)) eqn:Sn; auto. destruct (proj2 (X (nd_name b n))) as (m & Hm & _ & Sm); [exists n; auto|]. rewrite (O m Hm) in Sm. discriminate.
Qed.
Lemma snode_or : (shortcuts_off s /\ shortcuts_off t) \/ (node_texts s /\ node_texts t).
Proof.
  destruct (off_or s) as [O|(n & Hn & Sn)]; [left; split; [auto|exact (snode_off s t SN O)]|]. right. split; [exact (lu_texts _ _ (ur_usual _ _ Rs) eq_refl (ex_intro _ n (conj Hn Sn)))|].
  destruct (proj1 (SN (nd_name s n))) as (m & Hm & _ & Sm); [exists n; auto|]. exact (lu_texts _ _ (ur_usual _ _ Rt) eq_refl (ex_intro _ m (conj Hm Sm))).
Qed.
Lemma sx_paths d : In d (m_dms s) -> (no_lsp_for s' d -> one_road s d) -> same_paths (d_path (h_dm s' d)) (d_path (h_dm t' d)).
Proof.
  intros Hd One. destruct snode_or as [[A B]|[A B]]; [exact (sl_paths E E' Flex z c HE HE' s t s' t' Hz Mu Nd Nd' Rs Rt Up Up' A B d Hd)|].
  apply paths_same. exact (ms_paths E E' z c same same same HE HE' s t s' t' Hz M Rs Rt Up Up' Ks Kt RO ROt A B SN d Hd One).
Qed.
Lemma sx_traffic i : (c == 1)%Q -> In i (m_ifs s) -> (forall d, In d (m_dms s) -> no_lsp_for s' d -> one_road s d) -> used_roads s s' ->
  same_traffic (i_traffic (h_if s' i)) (i_traffic (h_if t' i)).
Proof.
  intros Hc Hi One So. destruct snode_or as [[A B]|[A B]]; [|exact (ms_traffic E E' z c same same same HE HE' s t s' t' Hz M Rs Rt Up Up' Ks Kt RO ROt A B SN i Hc Hi One So)].
  assert (X := sl_traffic E E' Flex z c HE HE' s t s' t' Hz Mu Nd Nd' Rs Rt Up Up' A B i (or_introl eq_refl) Hi). destruct (i_failed (h_if s i)).
  - destruct X as [-> ->]; [|exact Logic.I]. intros d l Hd Pl. destruct (preferred_used E Flex HE s s' Rs Up d l Hd Pl) as (ps & P & Q). apply (So d ps _ l Hd P Q). now left.
  - destruct X as (q & r & -> & -> & X); [|simpl; rewrite X, Hc; ring]. intros d l Hd Pl. destruct (preferred_used E Flex HE s s' Rs Up d l Hd Pl) as (ps & P & Q). apply (So d ps _ l Hd P Q). now left.
Qed.
End Scale.

Section History.
Variables (E : env) (s : st) (l1 l2 : list op).
Hypothesis HE : env_ok E.
Hypothesis R : usual_room Flex s.
Hypothesis AR : always_room s.
Hypothesis Wf : wf_net Flex s.
Hypothesis Sr : srlg_sound Flex s.
Hypothesis Co : consistent Flex s.
Hypothesis H1 : forall o, In o l1 -> outage_op s o.
Hypothesis H2 : forall o, In o l2 -> outage_op s o.
Hypothesis Sf : forall i, In i (m_ifs s) -> i_failed (h_if (run_ops E Flex l2 s) i) = i_failed (h_if (run_ops E Flex l1 s) i).
Variables (E1 E2 : env) (t1 t2 : st).
Hypothesis HE1 : env_ok E1.
Hypothesis HE2 : env_ok E2.
Hypothesis U1 : update_simulation E1 Flex (run_ops E Flex l1 s) = (t1, Ok tt).
Hypothesis U2 : update_simulation E2 Flex (run_ops E Flex l2 s) = (t2, Ok tt).
Let a := run_ops E Flex l1 s.
Let b := run_ops E Flex l2 s.
Lemma past_wf l : (forall o, In o l -> outage_op s o) -> wf_net Flex (run_ops E Flex l s).
Proof. intros H. apply (history_inv E Flex HE l s (fun o Ho => outage_failure s o (H o Ho)) (conj Wf (conj Sr Co))). Qed.
Lemma past_snode l : (forall o, In o l -> outage_op s o) -> forall n, shortcut_node (run_ops E Flex l s) n <-> shortcut_node s n.
Proof.
  intros H n. assert (C := config_history E Flex l s H). unfold shortcut_node. rewrite (cf_nds _ _ _ C). split; intros (x & Hx & Nx & Sx); exists x.
  - rewrite (cf_name _ _ _ C) in Nx. destruct (SpecWhatIf.cf_nd _ _ _ C x) as (_&_&X). rewrite X in Sx. auto.
  - rewrite (cf_name _ _ _ C). destruct (SpecWhatIf.cf_nd _ _ _ C x) as (_&_&X). rewrite X. auto.
Qed.
Let SN n : shortcut_node a n <-> shortcut_node b n.
Proof. unfold a, b. rewrite (past_snode l1 H1 n), (past_snode l2 H2 n). reflexivity. Qed.
Let Ra : usual_room Flex a := past_usual E Flex s HE R AR Wf Sr Co l1 H1.
Let Rb : usual_room Flex b := past_usual E Flex s HE R AR Wf Sr Co l2 H2.
Let Id x : In x (m_dms s) <-> In x (m_dms a). Proof. unfold a. now rewrite (cf_dms _ _ _ (config_history E Flex l1 s H1)). Qed.
Let Ii x : In x (m_ifs s) -> In x (m_ifs a). Proof. unfold a. now rewrite (cf_ifs _ _ _ (config_history E Flex l1 s H1)). Qed.
Let M : matched 1 1 same same same a b := past_matched E Flex s l1 l2 HE R AR Wf Sr Co H1 H2 Sf.
Let Wa := past_wf l1 H1.
Let Wb := past_wf l2 H2.
Lemma ph_paths d : In d (m_dms s) -> (no_lsp_for t1 d -> one_road a d) -> same_paths (d_path (h_dm t1 d)) (d_path (h_dm t2 d)).
Proof.
  intros Hd One. destruct (snode_or a b Ra Rb SN) as [[A B]|[A B]].
  - destruct (off_or s) as [O|(n & Hn & Sn)]; [exact (past_paths E Flex s l1 l2 HE R AR Wf Sr Co H1 H2 Sf E1 E2 t1 t2 HE1 HE2 U1 U2 O d Hd)|].
    destruct (proj2 (past_snode l1 H1 (nd_name s n))) as (m & Hm & _ & Sm); [exists n; auto|]. assert (X := A m Hm). unfold a in X. congruence.
  - apply paths_same. exact (ms_paths E1 E2 1 1 same same same HE1 HE2 a b t1 t2 ltac:(lia) M Ra Rb U1 U2 (proj1 Wa) (proj1 Wb) (proj1 (proj2 Wa)) (proj1 (proj2 Wb)) A B SN d (proj1 (Id d) Hd) One).
Qed.
Lemma ph_traffic i : In i (m_ifs s) -> (forall d, In d (m_dms s) -> no_lsp_for t1 d -> one_road a d) -> used_roads a t1 ->
  same_traffic (i_traffic (h_if t1 i)) (i_traffic (h_if t2 i)).
Proof.
  intros Hi One So. destruct (snode_or a b Ra Rb SN) as [[A B]|[A B]].
  - destruct (off_or s) as [O|(n & Hn & Sn)]; [|destruct (proj2 (past_snode l1 H1 (nd_name s n))) as (m & Hm & _ & Sm); [exists n; auto|]; assert (X := A m Hm); unfold a in X; congruence].
    apply (past_traffic E Flex s l1 l2 HE R AR Wf Sr Co H1 H2 Sf E1 E2 t1 t2 HE1 HE2 U1 U2 O i Hi).
    intros d l Hd Pl. apply Id in Hd. destruct (preferred_used E1 Flex HE1 a t1 Ra U1 d l Hd Pl) as (ps & P & Q). apply (So d ps _ l Hd P Q). now left.
  - refine (ms_traffic E1 E2 1 1 same same same HE1 HE2 a b t1 t2 ltac:(lia) M Ra Rb U1 U2 (proj1 Wa) (proj1 Wb) (proj1 (proj2 Wa)) (proj1 (proj2 Wb)) A B SN i ltac:(reflexivity) (Ii i Hi) _ So).
    intros d Hd. apply One. now apply Id.
Qed.
End History.

(** ** Files *)
Lemma files_alike E E' k py_int py_float lines lines' irs irs' nrs nrs' drs drs' lrs lrs' s t :
  env_ok E -> env_ok E' -> says k py_int py_float lines irs nrs drs lrs -> says k py_int py_float lines' irs' nrs' drs' lrs' -> same_rows irs irs' nrs nrs' drs drs' lrs lrs' ->
  usual_file k irs nrs drs lrs -> load_model_file k py_int py_float lines = Ok s -> load_model_file k py_int py_float lines' = Ok t -> usual_room k s -> refs_ok s ->
  (exists s', update_simulation E k s = (s', Ok tt)) ->
  exists s t s' t', load_model_file k py_int py_float lines = Ok s /\ load_model_file k py_int py_float lines' = Ok t /\
    update_simulation E k s = (s', Ok tt) /\ update_simulation E' k t = (t', Ok tt) /\
    (forall l m, In l (m_lsps s) -> In m (m_lsps t) -> lsp_key t m = lsp_key s l -> same_fate (l_path (h_ls s' l)) (l_path (h_ls t' m)) /\ same_amount (l_res (h_ls s' l)) (l_res (h_ls t' m))) /\
    (forall d e, In d (m_dms s) -> In e (m_dms t) -> dmd_key t e = dmd_key s d -> (k = Flex -> no_lsp_for s' d -> one_road s d) -> same_routes s' (d_path (h_dm s' d)) t' (d_path (h_dm t' e))) /\
    ((k = Flex -> forall d, In d (m_dms s) -> no_lsp_for s' d -> one_road s d) -> used_roads s s' ->
     forall i j, In i (m_ifs s) -> In j (m_ifs t) -> if_key t j = if_key s i -> same_traffic (i_traffic (h_if s' i)) (i_traffic (h_if t' j))).
Proof.
  intros HE HE' S S' Sm Uf L L' R RO U. assert (Ds := C51_loaded_is_described _ _ _ _ _ _ _ _ _ S L). assert (Dt := C51_loaded_is_described _ _ _ _ _ _ _ _ _ S' L').
  assert (D := files_same_data k s t _ _ _ _ _ _ _ _ Ds Dt Sm). assert (Ks := ds_keys _ _ _ _ _ Ds). assert (Kt := ds_keys _ _ _ _ _ Dt).
  assert (ROt : refs_ok t).
  { destruct (ds_refs _ _ _ _ _ Dt) as (A & B). split; [|exact B]. intros j Hj. destruct (A j Hj) as (X & [Y|Y]); [auto|]. destruct (sd_i k s t D j Hj) as (i & Hi & Al). destruct (alike_ends k s t i j Al) as [E1 E2].
    destruct (row_of irs nrs drs lrs s Ds i Hi) as (r & Hr & (_&_&_&R1&R2&_)). destruct (uf_links _ _ _ _ _ Uf r Hr) as (N & _). congruence. }
  destruct (sd_succeeds E E' k s t HE HE' D Ks Kt R U) as (t' & U'). destruct U as (s' & U). exists s, t, s', t'. split; [exact L|]. split; [exact L'|]. split; [exact U|]. split; [exact U'|].
  split; [intros l m Hl Hm K; destruct (sd_lsps_same E E' k HE HE' s t s' t' D Ks Kt R U U' l m Hl Hm K) as (A & B & _); auto|].
  destruct (kind_dec k) as [-> | ->].
  - split; [intros d e Hd He K One; exact (ds_paths E E' HE HE' s t s' t' D Ks Kt RO ROt R U U' d e Hd He K (One eq_refl))|].
    intros One So i j Hi Hj K. exact (ds_traffic E E' HE HE' s t s' t' D Ks Kt RO ROt R U U' i j Hi Hj K (One eq_refl) So).
  - assert (Off := file_off irs nrs drs lrs s Ds (uf_plain _ _ _ _ _ Uf eq_refl)). split; [intros d e Hd He K _; exact (sd_paths E E' Perf HE HE' s t s' t' D Ks Kt R U U' Off d e Hd He K)|].
    intros _ So i j Hi Hj K. apply (sd_traffic E E' Perf HE HE' s t s' t' D Ks Kt R U U' Off i j Hi Hj K). intros d l Hd Pl. destruct (preferred_used E Perf HE s s' R U d l Hd Pl) as (ps & P & Q). apply (So d ps _ l Hd P Q). now left.
Qed.
Lemma all_used E (HE : env_ok E) s s' (R : usual_room Flex s) (Up : update_simulation E Flex s = (s', Ok tt)) : keys_unique s -> refs_ok s -> node_texts s ->
  (forall l, In l (m_lsps s) -> sole_road s l) -> used_roads s s'.
Proof. intros K RO NT H d ps q l Hd P Hq Hl. apply H. exact (any_items E HE s s' R Up d ps q (ILsp l) K RO NT Hd P Hq Hl). Qed.
