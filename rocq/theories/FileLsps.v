(** FileLsps.v - models loaded from files that say the same (C97), and files of usual
    networks (C98). *)
From Verif Require Import Base Graph Objects Sim Api Loader Spec SpecCkt SpecSim SpecMetric SpecOrder SpecShort SpecTotal SpecSame SpecMore SpecData SpecLoad SpecSig SpecFile
  GraphProofs RoundProofs PathProofs LeastProofs Ecmp LoadProofs LoadRun LoadBuild SigEnd LspExact MoreLsps MatchLsps DataLsps.
From Coq Require Import Permutation Lqa.

Lemma first_in {A K} (key : A -> K) l r : first_with key l r -> In r l.
Proof. intros (a & b & -> & _). apply in_or_app. right. left. auto. Qed.
Lemma first_nodup {A K} (key : A -> K) l r : NoDup (map key l) -> In r l -> first_with key l r.
Proof.
  intros N H. apply in_split in H as (a & b & ->). exists a, b. split; auto. intros x Hx E. rewrite map_app in N. simpl in N. apply NoDup_remove_2 in N. apply N. apply in_or_app. left. rewrite <- E. now apply in_map.
Qed.
Lemma last_in {A K} (key : A -> K) l r : last_with key l r -> In r l.
Proof. intros (a & b & -> & _). apply in_or_app. right. left. auto. Qed.
Lemma last_cons {A K} (key : A -> K) x l r : last_with key (x :: l) r -> last_with key l r \/ (r = x /\ forall y, In y l -> key y <> key r).
Proof. intros ([|a p] & b & E & H); injection E as -> ->; [right; auto|left; exists p, b; auto]. Qed.
Lemma last_unique {A K} (key : A -> K) l r r' : last_with key l r -> last_with key l r' -> key r = key r' -> r = r'.
Proof.
  induction l as [|x l IH]; [intros H; apply last_in in H; destruct H|]. intros H H' E. apply last_cons in H as [H|[-> H]], H' as [H'|[-> H']]; auto.
  - apply last_in in H. destruct (H' r H E).
  - apply last_in in H'. destruct (H r' H'). auto.
Qed.
Lemma last_nodup {A K} (key : A -> K) l r : NoDup (map key l) -> In r l -> last_with key l r.
Proof.
  intros N H. apply in_split in H as (a & b & ->). exists a, b. split; auto. intros x Hx E. rewrite map_app in N. simpl in N. apply NoDup_remove_2 in N. apply N. apply in_or_app. right. rewrite <- E. now apply in_map.
Qed.

(** ** C97 Files that say the same *)
Lemma rows_permuted irs irs' nrs nrs' drs drs' lrs lrs' : NoDup (map ir_key irs) -> NoDup (map nr_name nrs) -> NoDup (map dr_key drs) -> NoDup (map lr_key lrs) ->
  Permutation irs irs' -> Permutation nrs nrs' -> Permutation drs drs' -> Permutation lrs lrs' -> same_rows irs irs' nrs nrs' drs drs' lrs lrs'.
Proof.
  intros Ni Nn Nd Nl Pi Pn Pd Pl.
  assert (F : forall A K (key : A -> K) l l' r, NoDup (map key l) -> Permutation l l' -> (first_with key l r <-> first_with key l' r)).
  { intros A K key l l' r N P. assert (N' := Permutation_NoDup (Permutation_map key P) N). split; intros H; apply first_in in H; (apply first_nodup; [assumption|]); [now apply (Permutation_in _ P)|now apply (Permutation_in _ (Permutation_sym P))]. }
  assert (L : forall A K (key : A -> K) l l' r, NoDup (map key l) -> Permutation l l' -> (last_with key l r <-> last_with key l' r)).
  { intros A K key l l' r N P. assert (N' := Permutation_NoDup (Permutation_map key P) N). split; intros H; apply last_in in H; (apply last_nodup; [assumption|]); [now apply (Permutation_in _ P)|now apply (Permutation_in _ (Permutation_sym P))]. }
  constructor; auto. intros x. unfold mentioned. split; (intros [(r & H & X)|(r & H & X)]; [left|right]; exists r; (split; [|exact X]));
    first [now apply (Permutation_in _ Pi)|now apply (Permutation_in _ Pn)|now apply (Permutation_in _ (Permutation_sym Pi))|now apply (Permutation_in _ (Permutation_sym Pn))].
Qed.
Lemma same_rows_sym irs irs' nrs nrs' drs drs' lrs lrs' : same_rows irs irs' nrs nrs' drs drs' lrs lrs' -> same_rows irs' irs nrs' nrs drs' drs lrs' lrs.
Proof. intros [A B C D E]. constructor; intros x; symmetry; auto. Qed.

Section Same.
Variables (k : kind) (s t : st) (irs irs' : list if_row) (nrs nrs' : list nd_row) (drs drs' : list dm_row) (lrs lrs' : list ls_row).
Hypothesis Ds : described s irs nrs drs lrs.
Hypothesis Dt : described t irs' nrs' drs' lrs'.
Hypothesis SR : same_rows irs irs' nrs nrs' drs drs' lrs lrs'.
Lemma half_ifs i : In i (m_ifs s) -> exists j, In j (m_ifs t) /\ if_alike k s i t j.
Proof.
  intros Hi. destruct (ds_ifs _ _ _ _ _ Ds i Hi) as (r & A & F). apply (sr_ifs _ _ _ _ _ _ _ _ SR) in F. destruct (ds_ifs_all _ _ _ _ _ Dt r F) as (j & Hj & B). exists j. split; [exact Hj|].
  destruct A as (A1&A2&A3&A4&A5&A6&A7&A8&A9&A10&_), B as (B1&B2&B3&B4&B5&B6&B7&B8&B9&B10&_). unfold if_alike, if_key. rewrite A1, A2, A3, A4, A5, A6, A7, A8, A10, B1, B2, B3, B4, B5, B6, B7, B8, B10.
  repeat (split; [reflexivity|]). auto.
Qed.
Lemma half_nds n : In n (m_nds s) -> exists m, In m (m_nds t) /\ nd_alike s n t m.
Proof.
  intros Hn. destruct (ds_nds _ _ _ _ _ Ds n Hn) as (M & r & A & F). apply (sr_names _ _ _ _ _ _ _ _ SR) in M. destruct (ds_nds_all _ _ _ _ _ Dt _ M) as (m & Hm & E). exists m. split; [exact Hm|].
  split; [exact E|]. destruct (ds_nds _ _ _ _ _ Dt m Hm) as (_ & r' & B & G). destruct A as (A1&_&_&A2&_), B as (B1&_&_&B2&_). rewrite A2, B2.
  destruct F as [F|[-> F]], G as [G|[-> G]]; auto.
  - apply (sr_nds _ _ _ _ _ _ _ _ SR) in F. f_equal. eapply last_unique; eauto. congruence.
  - apply (sr_nds _ _ _ _ _ _ _ _ SR) in F. apply last_in in F. destruct (G r F). congruence.
  - apply (sr_nds _ _ _ _ _ _ _ _ SR) in G. apply last_in in G. destruct (F r' G). congruence.
Qed.
Lemma half_dms d : In d (m_dms s) -> exists e, In e (m_dms t) /\ dm_alike s d t e.
Proof.
  intros Hi. destruct (ds_dms _ _ _ _ _ Ds d Hi) as (r & A & F). apply (sr_dms _ _ _ _ _ _ _ _ SR) in F. destruct (ds_dms_all _ _ _ _ _ Dt r F) as (j & Hj & B). exists j. split; [exact Hj|].
  destruct A as (A1&A2&A3&A4&_), B as (B1&B2&B3&B4&_). unfold dm_alike, dmd_key. rewrite A1, A2, A3, A4, B1, B2, B3, B4. split; reflexivity.
Qed.
Lemma half_lsps l : In l (m_lsps s) -> exists m, In m (m_lsps t) /\ ls_alike s l t m.
Proof.
  intros Hi. destruct (ds_ls _ _ _ _ _ Ds l Hi) as (r & A & F). apply (sr_lsps _ _ _ _ _ _ _ _ SR) in F. destruct (ds_ls_all _ _ _ _ _ Dt r F) as (j & Hj & B). exists j. split; [exact Hj|].
  destruct A as (A1&A2&A3&A4&A5&A6&_), B as (B1&B2&B3&B4&B5&B6&_). unfold ls_alike, lsp_key, mstate_of. rewrite A1, A2, A3, A4, A5, A6, B1, B2, B3, B4, B5, B6. split; [reflexivity|]. split; [|reflexivity].
  unfold same_cfg. destruct (lr_bw r); reflexivity.
Qed.
End Same.
Lemma alike_flip_if k s i t j : if_alike k s i t j -> if_alike k t j s i.
Proof. intros (X1&X2&X3&X4&X5&X6&X7&X8). repeat (split; [solve [auto|now symmetry]|]). intros Hk. symmetry. auto. Qed.
Lemma files_same_data k s t irs irs' nrs nrs' drs drs' lrs lrs' : described s irs nrs drs lrs -> described t irs' nrs' drs' lrs' ->
  same_rows irs irs' nrs nrs' drs drs' lrs lrs' -> same_data k s t.
Proof.
  intros Ds Dt S. assert (S' := same_rows_sym _ _ _ _ _ _ _ _ S). constructor; split; intros x Hx.
  - eapply half_ifs; eauto.
  - destruct (half_ifs k _ _ _ _ _ _ _ _ _ _ Dt Ds S' x Hx) as (y & Hy & A). exists y. split; [exact Hy|now apply alike_flip_if].
  - eapply half_nds; eauto.
  - destruct (half_nds _ _ _ _ _ _ _ _ _ _ Dt Ds S' x Hx) as (y & Hy & A & B). exists y. split; [exact Hy|]. split; auto.
  - eapply half_dms; eauto.
  - destruct (half_dms _ _ _ _ _ _ _ _ _ _ Dt Ds S' x Hx) as (y & Hy & A & B). exists y. split; [exact Hy|]. split; auto. now symmetry.
  - eapply half_lsps; eauto.
  - destruct (half_lsps _ _ _ _ _ _ _ _ _ _ Dt Ds S' x Hx) as (y & Hy & A & B & C). exists y. split; [exact Hy|]. split; auto. split; [now apply same_cfg_sym|auto].
Qed.

(** ** C98 Files of usual networks *)
Section Usual.
Variables (k : kind) (py_int : string -> option Z) (py_float : string -> option Q) (lines : list string).
Variables (irs : list if_row) (nrs : list nd_row) (drs : list dm_row) (lrs : list ls_row) (s : st).
Hypothesis Sy : says k py_int py_float lines irs nrs drs lrs.
Hypothesis Uf : usual_file k irs nrs drs lrs.
Hypothesis Ds : described s irs nrs drs lrs.

Lemma row_of i : In i (m_ifs s) -> exists r, In r irs /\ if_is s i r.
Proof. intros Hi. destruct (ds_ifs _ _ _ _ _ Ds i Hi) as (r & A & F). apply first_in in F. eauto. Qed.
Lemma if_of r : In r irs -> exists i, In i (m_ifs s) /\ if_is s i r.
Proof. intros Hr. apply (ds_ifs_all _ _ _ _ _ Ds). apply first_nodup; [apply (uf_ifs _ _ _ _ _ Uf)|exact Hr]. Qed.
Lemma if_row_key i r : if_is s i r -> if_key s i = ir_key r.
Proof. intros (A&_&_&B&_). unfold if_key, ir_key. congruence. Qed.
Lemma row_once i j r : In i (m_ifs s) -> In j (m_ifs s) -> if_is s i r -> if_is s j r -> i = j.
Proof. intros Hi Hj A B. destruct (ds_keys _ _ _ _ _ Ds) as (N & _). apply (nodup_map_inj _ _ N); auto. rewrite (if_row_key _ _ A), (if_row_key _ _ B). reflexivity. Qed.
Lemma row_of_dm d : In d (m_dms s) -> exists r, In r drs /\ dm_is s d r.
Proof. intros Hi. destruct (ds_dms _ _ _ _ _ Ds d Hi) as (r & A & F). apply first_in in F. eauto. Qed.
Lemma row_of_ls l : In l (m_lsps s) -> exists r, In r lrs /\ ls_is s l r.
Proof. intros Hi. destruct (ds_ls _ _ _ _ _ Ds l Hi) as (r & A & F). apply first_in in F. eauto. Qed.
Lemma if_row_nums r : In r irs -> 1 <= ir_cost r /\ 0 < ir_cap r.
Proof. intros Hr. destruct (sy_ifs _ _ _ _ _ _ _ _ Sy) as (l & _ & F). destruct (Forall2_in_r _ _ _ r F Hr) as (line & _ & (c & p & fs & _ & B1 & _ & B2 & _)). auto. Qed.
Lemma if_row_cid r : k = Flex -> In r irs -> ir_cid r <> CNone.
Proof. intros Hk Hr. destruct (sy_ifs _ _ _ _ _ _ _ _ Sy) as (l & _ & F). destruct (Forall2_in_r _ _ _ r F Hr) as (line & _ & (c & p & fs & _ & _ & _ & _ & _ & X)). rewrite Hk in X. destruct X as (x & -> & _). discriminate. Qed.
Lemma dm_row_num r : In r drs -> 0 <= dr_traffic r.
Proof. intros Hr. destruct (sy_dms _ _ _ _ _ _ _ _ Sy) as (l & _ & F). destruct (Forall2_in_r _ _ _ r F Hr) as (line & _ & (fs & t & nm & _ & _ & _ & _ & _ & C & _)). auto. Qed.
Lemma known_name x : mentioned irs nrs x -> In x (map (nd_name s) (m_nds s)).
Proof. intros M. destruct (ds_nds_all _ _ _ _ _ Ds x M) as (n & Hn & <-). now apply in_map. Qed.

(** the rows of the LSPs and demands *)
Lemma lsp_rows : exists f, Permutation (map f (m_lsps s)) lrs /\ forall l, In l (m_lsps s) -> ls_is s l (f l).
Proof.
  destruct (ds_keys _ _ _ _ _ Ds) as (_ & _ & _ & N & _).
  assert (KE : forall l r, ls_is s l r -> lr_key r = lsp_key s l) by (intros l r (A&B&C&_); unfold lr_key, lsp_key; congruence).
  destruct (matching three_dec (mkLsRow "" "" "" None None) (lsp_key s) lr_key (m_lsps s) lrs N (uf_lsps _ _ _ _ _ Uf)) as (f & P & U).
  - intros l Hl. destruct (row_of_ls l Hl) as (r & Hr & A). eauto.
  - intros r Hr. destruct (ds_ls_all _ _ _ _ _ Ds r) as (l & Hl & A); [apply first_nodup; [apply (uf_lsps _ _ _ _ _ Uf)|exact Hr]|]. eauto.
  - exists f. split; [exact P|]. intros l Hl. destruct (row_of_ls l Hl) as (r & Hr & A). now rewrite <- (U l r Hl Hr (KE l r A)).
Qed.
Lemma dm_rows : exists f, Permutation (map f (m_dms s)) drs /\ forall l, In l (m_dms s) -> dm_is s l (f l).
Proof.
  destruct (ds_keys _ _ _ _ _ Ds) as (_ & _ & N & _).
  assert (KE : forall l r, dm_is s l r -> dr_key r = dmd_key s l) by (intros l r (A&B&_&C&_); unfold dr_key, dmd_key; congruence).
  destruct (matching three_dec (mkDmRow "" "" 0 "") (dmd_key s) dr_key (m_dms s) drs N (uf_dms _ _ _ _ _ Uf)) as (f & P & U).
  - intros l Hl. destruct (row_of_dm l Hl) as (r & Hr & A). eauto.
  - intros r Hr. destruct (ds_dms_all _ _ _ _ _ Ds r) as (l & Hl & A); [apply first_nodup; [apply (uf_dms _ _ _ _ _ Uf)|exact Hr]|]. eauto.
  - exists f. split; [exact P|]. intros l Hl. destruct (row_of_dm l Hl) as (r & Hr & A). now rewrite <- (U l r Hl Hr (KE l r A)).
Qed.
Lemma perm_filter {A} (p : A -> bool) l l' : Permutation l l' -> Permutation (filter p l) (filter p l').
Proof. induction 1; simpl; auto; [destruct (p x); auto|destruct (p x), (p y); auto; constructor|etransitivity; eauto]. Qed.
Lemma filter_map_comm {A B} (p : B -> bool) (f : A -> B) l : filter p (map f l) = map f (filter (fun x => p (f x)) l).
Proof. induction l as [|x l IH]; simpl; auto. rewrite IH. destruct (p (f x)); auto. Qed.
Lemma wanted_row l r : In l (m_lsps s) -> ls_is s l r -> (wanted s l (equal_share s l) == row_wanted drs lrs r)%Q.
Proof.
  intros Hl (A&B&_&C&_). unfold wanted, row_wanted. rewrite C. destruct (lr_bw r); [reflexivity|]. unfold equal_share, traffic_of, dmds_of, lsps_of, row_traffic, row_count. rewrite A, B.
  destruct lsp_rows as (f & P & F), dm_rows as (g & Q & G). apply Qdiv_comp.
  - assert (Q' := perm_filter (fun r0 => String.eqb (dr_src r0) (lr_src r) && String.eqb (dr_dst r0) (lr_dst r)) _ _ Q). rewrite filter_map_comm in Q'. rewrite <- (Qsum_perm _ _ (Permutation_map (fun r0 => inject_Z (dr_traffic r0)) Q')), map_map.
    rewrite (filter_ext_in (fun x => String.eqb (dr_src (g x)) (lr_src r) && String.eqb (dr_dst (g x)) (lr_dst r)) (fun d => String.eqb (dmd_from s d) (lr_src r) && String.eqb (dmd_to s d) (lr_dst r))).
    + apply (sumq_ext (fun d => d_traffic (h_dm s d))). intros d Hd. apply filter_In in Hd as [Hd _]. destruct (G d Hd) as (_&_&->&_). reflexivity.
    + intros d Hd. destruct (G d Hd) as (->&->&_). reflexivity.
  - assert (P' := perm_filter (fun r0 => String.eqb (lr_src r0) (lr_src r) && String.eqb (lr_dst r0) (lr_dst r)) _ _ P). rewrite filter_map_comm in P'. rewrite <- (Permutation_length P'), map_length.
    rewrite (filter_ext_in (fun x => String.eqb (lr_src (f x)) (lr_src r) && String.eqb (lr_dst (f x)) (lr_dst r)) (fun m => String.eqb (lsp_from s m) (lr_src r) && String.eqb (lsp_to s m) (lr_dst r))); [reflexivity|].
    intros m Hm. destruct (F m Hm) as (->&->&_). reflexivity.
Qed.
Lemma total_row : (Qsum (map (fun l => wanted s l (equal_share s l)) (m_lsps s)) == Qsum (map (row_wanted drs lrs) lrs))%Q.
Proof.
  destruct lsp_rows as (f & P & F). rewrite <- (Qsum_perm _ _ (Permutation_map (row_wanted drs lrs) P)), map_map. apply (sumq_ext (fun l => wanted s l (equal_share s l))). intros l Hl. apply wanted_row; auto.
Qed.

(** which interfaces are available, and how they pair up *)
Lemma avail_rsvp i r : In r irs -> if_is s i r -> (available (unreserved s) i <-> ir_rsvp r = true).
Proof.
  intros Hr (_&_&C&_&_&_&R&P&_). unfold available, reservable. simpl. rewrite R, C, P. destruct (ir_rsvp r); [|split; [|discriminate]; intros (q & A & B); rewrite A in B; destruct (Qlt_not_le (-(1)) 0); [reflexivity|exact B]].
  split; [auto|]. intros _. destruct (if_row_nums r Hr) as [_ Cp]. destruct (uf_pct _ _ _ _ _ Uf r Hr) as [Pl _].
  assert (X := roundd_rounds 10 (inject_Z (ir_cap r) * ir_pct r / 100 - roundd 10 0)). exists (roundd 10 (inject_Z (ir_cap r) * ir_pct r / 100 - roundd 10 0)). split.
  - exists (roundd 10 0). split; [apply roundd_rounds|exact X].
  - destruct X as (z & E & B & _). rewrite E. assert (Z0 : (roundd 10 0 == 0)%Q) by reflexivity. rewrite E, Z0 in B. assert (Cq : (0 <= inject_Z (ir_cap r))%Q) by (unfold Qle; simpl; lia).
    assert (M : (0 <= inject_Z (ir_cap r) * ir_pct r)%Q) by (apply Qmult_le_0_compat; assumption).
    apply Qabs_Qle_condition in B as [_ B]. change (1 # (2 * 10))%Q with (1 # 20)%Q in B.
    assert (M' : (inject_Z (ir_cap r) * ir_pct r / 100 == (1 # 100) * (inject_Z (ir_cap r) * ir_pct r))%Q) by (unfold Qdiv; rewrite Qmult_comm; reflexivity).
    rewrite M' in B. assert (Zb : (-(1 # 20) <= z # 10)%Q) by lra. clear -Zb. unfold Qle in *. simpl in *. lia.
Qed.
Lemma two_of r x y : k = Flex -> In r irs -> In x irs -> In y irs -> ir_cid x = ir_cid r -> ir_cid y = ir_cid r -> x <> y -> r = x \/ r = y.
Proof.
  intros Hk Hr Hx Hy Ex Ey N. destruct (sy_twice _ _ _ _ _ _ _ _ Sy Hk r Hr) as (a & r1 & b & r2 & c & E & _ & _ & O).
  assert (W : forall z, In z irs -> ir_cid z = ir_cid r -> z = r1 \/ z = r2).
  { intros z Hz Ez. rewrite E in Hz. destruct (in_app_or _ _ _ Hz) as [Hz'|[->|Hz']]; auto; [destruct (O z); auto; apply in_or_app; auto|].
    destruct (in_app_or _ _ _ Hz') as [Hz''|[->|Hz'']]; auto; destruct (O z); auto; apply in_or_app; right; apply in_or_app; auto. }
  destruct (W r Hr eq_refl) as [A|A], (W x Hx Ex) as [B|B], (W y Hy Ey) as [C|C]; subst; auto; destruct N; auto.
Qed.
Lemma rev_row i r : In i (m_ifs s) -> In r irs -> if_is s i r ->
  exists j r', In j (m_ifs s) /\ In r' irs /\ if_is s j r' /\ ir_node r' = ir_remote r /\ ir_remote r' = ir_node r /\ ir_cid r' = ir_cid r /\ ir_cap r' = ir_cap r /\ ir_rsvp r' = ir_rsvp r.
Proof.
  intros Hi Hr A. destruct (uf_links _ _ _ _ _ Uf r Hr) as (_ & r' & Hr' & X). destruct (if_of r' Hr') as (j & Hj & B). exists j, r'. auto 10.
Qed.
(** in a FlexModel the other interface with the same circuit_id, in a PerformanceModel with the same ends *)
Lemma same_link i j r r' : In i (m_ifs s) -> In j (m_ifs s) -> In r irs -> In r' irs -> if_is s i r -> if_is s j r' -> ir_node r = ir_node r' -> ir_remote r = ir_remote r' ->
  (k = Perf \/ ir_cid r = ir_cid r') -> i = j.
Proof.
  intros Hi Hj Hr Hr' A B E1 E2 Hk. assert (Y : r = r'); [|subst r'; exact (row_once i j r Hi Hj A B)].
  destruct (kind_dec k) as [Fk|Pk].
  - destruct Hk as [Hk|Hk]; [congruence|]. destruct (uf_links _ _ _ _ _ Uf r' Hr') as (D & q & Hq & Q1 & Q2 & Q3 & _).
    assert (N : r' <> q) by (intros <-; congruence). destruct (two_of r r' q Fk Hr Hr' Hq (eq_sym Hk) (eq_trans Q3 (eq_sym Hk)) N) as [-> | ->]; [reflexivity|]. congruence.
  - apply (nodup_map_inj (fun r0 => ends_text (ir_node r0) (ir_remote r0)) irs (uf_single _ _ _ _ _ Uf Pk)); auto. congruence.
Qed.
Lemma file_fit : fit k (unreserved s).
Proof.
  split; [|split; [|split; [|split]]].
  - intros i Hi Av. change (In i (m_ifs s)) in Hi. destruct (row_of i Hi) as (r & Hr & A). apply (avail_rsvp i r Hr A) in Av. destruct (rev_row i r Hi Hr A) as (j & r' & Hj & Hr' & B & E1 & E2 & E3 & E4 & E5).
    destruct A as (A1&A2&A3&A4&A5&A6&A'), B as (B1&B2&B3&B4&B5&B6&B').
    assert (A : if_is s i r) by (unfold if_is; auto 20). assert (B : if_is s j r') by (unfold if_is; auto 20).
    split.
    + exists j. split; [exact Hj|]. split; [apply (avail_rsvp j r' Hr' B); congruence|]. change (loc s j = rem s i /\ rem s j = loc s i). split; congruence.
    + intros Hk _. split.
      * exists i. split; [exact Hi|]. split; [auto|]. intros y Hy (Y1 & Y2 & Y3). destruct (row_of y Hy) as (q & Hq & Q). assert (Q' := Q). destruct Q' as (_&_&_&Q4&Q5&Q6&_).
        change (loc s y = loc s i) in Y1. change (rem s y = rem s i) in Y2. change (i_cid (h_if s y) = i_cid (h_if s i)) in Y3.
        apply (same_link y i q r); auto; [congruence|congruence|right; congruence].
      * exists j. split; [exact Hj|]. split; [change (loc s j = rem s i /\ rem s j = loc s i /\ i_cid (h_if s j) = i_cid (h_if s i)); split; [congruence|split; congruence]|].
        intros y Hy (Y1 & Y2 & Y3). destruct (row_of y Hy) as (q & Hq & Q). assert (Q' := Q). destruct Q' as (_&_&_&Q4&Q5&Q6&_).
        change (loc s y = rem s i) in Y1. change (rem s y = loc s i) in Y2. change (i_cid (h_if s y) = i_cid (h_if s i)) in Y3.
        apply (same_link y j q r'); auto; [congruence|congruence|right; congruence].
  - intros i Hi. destruct (row_of i Hi) as (r & Hr & (_&_&C&_)). change (0 <= i_cap (h_if s i))%Q. rewrite C. destruct (if_row_nums r Hr). unfold Qle; simpl; lia.
  - intros i j Hi Hj _ (R1 & R2 & R3). change (loc s i = rem s j) in R1. change (rem s i = loc s j) in R2. change (i_cap (h_if s i) == i_cap (h_if s j))%Q.
    destruct (row_of i Hi) as (r & Hr & A), (row_of j Hj) as (q & Hq & Q). destruct (rev_row i r Hi Hr A) as (j' & r' & Hj' & Hr' & B & E1 & E2 & E3 & E4 & E5).
    assert (A' := A). assert (B' := B). assert (Q' := Q). destruct A' as (_&_&A3&A4&A5&A6&_), B' as (_&_&B3&B4&B5&B6&_), Q' as (_&_&Q3&Q4&Q5&Q6&_).
    assert (j = j'). { apply (same_link j j' q r'); auto; [congruence|congruence|]. destruct R3 as [-> |R3]; [auto|right]. change (i_cid (h_if s i) = i_cid (h_if s j)) in R3. congruence. }
    subst j'. rewrite A3, B3, E4. reflexivity.
  - exact (proj1 (proj2 (ds_keys _ _ _ _ _ Ds))).
  - intros Hk. split.
    + change (NoDup (map (fun i => ends_text (loc s i) (rem s i)) (m_ifs s))). destruct (ds_keys _ _ _ _ _ Ds) as (N & _).
      apply nodup_map; [eapply NoDup_of_map; eauto|]. intros x y Hx Hy E. destruct (row_of x Hx) as (r & Hr & A), (row_of y Hy) as (q & Hq & Q). assert (A' := A). assert (Q' := Q). destruct A' as (_&_&_&A4&A5&_), Q' as (_&_&_&Q4&Q5&_).
      assert (r = q) by (apply (nodup_map_inj (fun r0 => ends_text (ir_node r0) (ir_remote r0)) irs (uf_single _ _ _ _ _ Uf Hk)); auto; congruence). subst q. exact (row_once x y r Hx Hy A Q).
    + intros n Hn. destruct (ds_nds _ _ _ _ _ Ds n Hn) as (_ & r & (_&_&_&X&_) & F). change (n_shortcuts (h_nd s n) = false). rewrite X. destruct F as [F|[-> _]]; [|reflexivity]. apply last_in in F. exact (uf_plain _ _ _ _ _ Uf Hk r F).
Qed.
Lemma file_off : (forall r, In r nrs -> nr_shortcuts r = false) -> shortcuts_off s.
Proof. intros Off n Hn. destruct (ds_nds _ _ _ _ _ Ds n Hn) as (_ & r & (_&_&_&X&_) & F). rewrite X. destruct F as [F|[-> _]]; [|reflexivity]. apply last_in in F. exact (Off r F). Qed.
Lemma file_from x : In x (from_names s) -> In x (map lr_src lrs ++ map dr_src drs).
Proof.
  unfold from_names. rewrite !in_app_iff, !in_map_iff. intros [(l & <- & Hl)|(d & <- & Hd)].
  - left. destruct (row_of_ls l Hl) as (r & Hr & A & _). eauto.
  - right. destruct (row_of_dm d Hd) as (r & Hr & A & _). eauto.
Qed.
Lemma file_to x : In x (to_names s) -> In x (map lr_dst lrs ++ map dr_dst drs).
Proof.
  unfold to_names. rewrite !in_app_iff, !in_map_iff. intros [(l & <- & Hl)|(d & <- & Hd)].
  - left. destruct (row_of_ls l Hl) as (r & Hr & _ & A & _). eauto.
  - right. destruct (row_of_dm d Hd) as (r & Hr & _ & A & _). eauto.
Qed.
Lemma file_room : usual_room k s.
Proof.
  destruct (ds_keys _ _ _ _ _ Ds) as (N1 & _ & _ & N3 & _). constructor.
  - split; [eapply NoDup_of_map; eauto|]. split.
    + intros i Hi. destruct (row_of i Hi) as (r & Hr & (_&->&_)). apply (if_row_nums r Hr).
    + intros a a' b b' Ha Ha' Hb Hb'. apply (uf_texts _ _ _ _ _ Uf); auto using file_from, file_to.
  - intros i Hi. destruct (row_of i Hi) as (r & Hr & (_&_&_&->&->&_)). split; apply known_name; left; exists r; auto.
  - intros Hk i Hi. destruct (row_of i Hi) as (r & Hr & (_&_&_&_&_&->&_)). exact (if_row_cid r Hk Hr).
  - constructor.
    + eapply NoDup_of_map; eauto.
    + exact N1.
    + intros d Hd. destruct (row_of_dm d Hd) as (r & Hr & (_&_&->&_)). assert (X := dm_row_num r Hr). unfold Qle; simpl; lia.
    + intros l c Hl Hc. destruct (row_of_ls l Hl) as (r & Hr & (_&_&_&X&_)). rewrite X in Hc. exact (uf_bw _ _ _ _ _ Uf r c Hr Hc).
    + intros l Hl. destruct (row_of_ls l Hl) as (r & Hr & A). eapply tenths_eq; [symmetry; apply wanted_row; eauto|]. exact (uf_tenths _ _ _ _ _ Uf r Hr).
    + intros i Hi. destruct (row_of i Hi) as (r & Hr & (_&_&->&_&_&_&_&->&_)). split; [exists (ir_cap r * 10); unfold Qeq; simpl; lia|]. split; [destruct (if_row_nums r Hr); unfold Qle; simpl; lia|exact (uf_pct _ _ _ _ _ Uf r Hr)].
    + intros l c Hl. destruct (row_of_ls l Hl) as (r & Hr & (_&_&_&_&X&_)). unfold mstate_of. rewrite X. destruct (lr_metric r) as [m|] eqn:M; [|discriminate]. assert (Y := uf_metric _ _ _ _ _ Uf r m Hr M).
      destruct (Z.eqb_spec m 0); [discriminate|]. intros [= <-]. lia.
    + intros _ (n & Hn & Sn). destruct (ds_nds _ _ _ _ _ Ds n Hn) as (_ & r & (_&_&_&X&_) & F). rewrite X in Sn. destruct F as [F|[-> _]]; [|discriminate]. apply last_in in F.
      intros a b a' b' Ha Hb Ha' Hb'. apply (uf_short _ _ _ _ _ Uf (ex_intro _ r (conj F Sn))).
      * apply in_map_iff in Ha as (m & <- & Hm). exact (proj1 (ds_nds _ _ _ _ _ Ds m Hm)).
      * apply in_map_iff in Hb as (m & <- & Hm). exact (proj1 (ds_nds _ _ _ _ _ Ds m Hm)).
      * apply in_map_iff in Ha' as (l & <- & Hl). destruct (row_of_ls l Hl) as (q & Hq & -> & _). now apply in_map.
      * apply in_map_iff in Hb' as (l & <- & Hl). destruct (row_of_ls l Hl) as (q & Hq & _ & -> & _). now apply in_map.
  - intros i Hi _ Rv. destruct (row_of i Hi) as (r & Hr & (_&_&C&_&_&_&R&P&_)). rewrite total_row, C, P. apply (uf_room _ _ _ _ _ Uf r Hr). congruence.
  - intros i j Hi Hj _. destruct (row_of i Hi) as (r & _ & (_&_&_&_&_&_&_&_&_&->&_)), (row_of j Hj) as (q & _ & (_&_&_&_&_&_&_&_&_&->&_)). reflexivity.
Qed.
Lemma file_plain : (forall r, In r nrs -> nr_shortcuts r = false) -> with_room k s.
Proof. intros Off. exact (room_with _ _ file_room (file_off Off)). Qed.
Lemma file_refs : refs_ok s.
Proof.
  destruct (ds_refs _ _ _ _ _ Ds) as (A & B). split; [|exact B]. intros i Hi. destruct (A i Hi) as (X & [Y|Y]); [auto|]. destruct (row_of i Hi) as (r & Hr & (_&_&_&R1&R2&_)).
  destruct (uf_links _ _ _ _ _ Uf r Hr) as (N & _). congruence.
Qed.
Lemma file_fine : demands_fine s /\ lsps_fine s.
Proof.
  split.
  - intros d Hd. destruct (row_of_dm d Hd) as (r & Hr & (->&->&_)). split; [apply known_name; apply (sy_dms_known _ _ _ _ _ _ _ _ Sy r Hr)|exact (uf_dm _ _ _ _ _ Uf r Hr)].
  - intros l Hl. destruct (row_of_ls l Hl) as (r & Hr & (->&->&_)). split; [apply known_name; apply (sy_ls_known _ _ _ _ _ _ _ _ Sy r Hr)|exact (uf_ls _ _ _ _ _ Uf r Hr)].
Qed.
Lemma file_succeeds E : env_ok E -> exists s', update_simulation E k s = (s', Ok tt).
Proof.
  intros HE. assert (R := file_room). destruct file_fine as [A B]. apply (succeeds_ample E k s HE (ur_posed _ _ R) (ur_known _ _ R) (ur_cids _ _ R) (ur_usual _ _ R) (ur_ample _ _ R)). split; [exact A|]. split; [exact B|exact file_fit].
Qed.
End Usual.
