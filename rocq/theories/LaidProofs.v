(** LaidProofs.v - the model after a successful add_circuit. *)
From Verif Require Import Base Graph Objects Sim Api Spec SpecHist SpecCkt SpecSim SpecMetric SpecFlow SpecOrder SpecShort SpecFail SpecSame SpecSig GraphProofs MonadProofs RoundProofs
  ValidateProofs PathProofs RouteProofs LeastProofs IgpProofs AddProofs OrderProofs SpecTotal SpecMore SpecWhatIf SpecCost SpecExn SpecWider MoreLsps WiderProofs WiderLsps.
From Coq Require Import Lqa Permutation.

(** [t] is [s] with a circuit: interface [i] named [na] from node [a] to [b] and interface [j] named [nb] back. *)
Record laid (k : kind) (s t : st) (i j a b : nat) (na nb : string) (ca cb : Z) (cap : Q) : Prop := {
  ld_i : ~ In i (m_ifs s); ld_j : ~ In j (m_ifs s); ld_ne : i <> j;
  ld_ifs : m_ifs t = (m_ifs s ++ [i; j])%list; ld_nds : m_nds t = m_nds s; ld_nd : h_nd t = h_nd s;
  ld_dms : m_dms t = m_dms s; ld_dm : h_dm t = h_dm s; ld_lsps : m_lsps t = m_lsps s; ld_ls : h_ls t = h_ls s;
  ld_old : forall x, In x (m_ifs s) -> i_name (h_if t x) = i_name (h_if s x) /\ i_cost (h_if t x) = i_cost (h_if s x) /\ i_cap (h_if t x) = i_cap (h_if s x) /\
    i_node (h_if t x) = i_node (h_if s x) /\ i_rem (h_if t x) = i_rem (h_if s x) /\ i_failed (h_if t x) = i_failed (h_if s x) /\
    i_rsvp (h_if t x) = i_rsvp (h_if s x) /\ i_pct (h_if t x) = i_pct (h_if s x) /\ (k = Flex -> i_cid (h_if t x) = i_cid (h_if s x));
  ld_new_i : i_name (h_if t i) = na /\ i_cost (h_if t i) = ca /\ i_node (h_if t i) = a /\ i_rem (h_if t i) = b;
  ld_new_j : i_name (h_if t j) = nb /\ i_cost (h_if t j) = cb /\ i_node (h_if t j) = b /\ i_rem (h_if t j) = a;
  ld_new : forall x, x = i \/ x = j -> i_cap (h_if t x) = cap /\ i_failed (h_if t x) = false /\ i_rsvp (h_if t x) = true /\ i_pct (h_if t x) = 100%Q;
  ld_cid : k = Flex -> i_cid (h_if t i) = i_cid (h_if t j) /\ i_cid (h_if t i) <> CNone /\ forall x, In x (m_ifs s) -> i_cid (h_if s x) <> i_cid (h_if t i);
  ld_ca : 1 <= ca; ld_cb : 1 <= cb; ld_cap : (0 < cap)%Q;
  ld_ki : forall x, In x (m_ifs s) -> if_key s x <> (na, nd_name s a); ld_kj : forall x, In x (m_ifs s) -> if_key s x <> (nb, nd_name s b) }.

Lemma add_circuit_laid E k a b na nb ca cb cap c s t : env_ok E -> allocated s -> NoDup (m_ifs s) -> cids_set k s -> ends_agree k s -> fits k s (nd_name s a) (nd_name s b) ->
  add_circuit E k a b na nb ca cb cap c s = (t, Ok tt) -> exists i j, laid k s t i j a b na nb ca cb cap.
Proof.
  intros HE Al ND CS EA (Nab & FP) R.
  assert (Ne : (na, nd_name s a) <> (nb, nd_name s b)) by congruence.
  destruct (add_circuit_exact E k a b na nb ca cb cap c s t _ Al Ne R) as [(e & X & _)|Y]; [discriminate|].
  destruct Y as (Ca & Cb & Cp & Ka & Kb & ia & ib & c' & s1 & CF & _ & _ & Fa & Fb & Nib & M1 & O1 & N1 & D1 & L1 & _ & H1 & HD1 & H2 & _ & Hia & Hib & R1 & _).
  assert (Lo : forall i, In i (m_ifs s) -> loc s1 i = loc s i /\ rem s1 i = rem s i). { intros i Hi. unfold loc, rem. rewrite (O1 i Hi), H1. auto. }
  assert (La : loc s1 ia = nd_name s a /\ rem s1 ia = nd_name s b). { unfold loc, rem, nd_name. rewrite Hia, H1. auto. }
  assert (Lb : loc s1 ib = nd_name s b /\ rem s1 ib = nd_name s a). { unfold loc, rem, nd_name. rewrite Hib, H1. auto. }
  assert (In1 : forall i, In i (m_ifs s1) <-> In i (m_ifs s) \/ i = ia \/ i = ib). { intros i. rewrite M1, in_app_iff. simpl. intuition. }
  assert (ND1 : NoDup (m_ifs s1)).
  { rewrite M1. apply NoDup_app_disj; [exact ND|constructor; [intros [C|[]]; auto|constructor; [intros []|constructor]]|]. intros x Hx [<-|[<-|[]]]; auto. }
  assert (CS1 : cids_set k s1).
  { intros K i Hi. apply In1 in Hi as [Hi|[-> | ->]]; [rewrite (O1 i Hi); now apply CS|rewrite Hia|rewrite Hib]; simpl; destruct (CF K) as (-> & C & _); exact C. }
  assert (Cross : forall i j, In i (m_ifs s) -> j = ia \/ j = ib -> ~ is_reverse k s1 i j /\ ~ is_reverse k s1 j i).
  { intros i j Hi Hj. destruct (Lo i Hi) as [Li Ri]. destruct (kind_dec k) as [K|K].
    - assert (Cid : i_cid (h_if s1 i) <> i_cid (h_if s1 j)).
      { intros C. destruct (CF K) as (-> & _ & Us). apply Us. exists i. split; auto. rewrite <- (O1 i Hi), C. destruct Hj as [-> | ->]; [now rewrite Hia|now rewrite Hib]. }
      split; intros (_ & _ & [Q|Q]); congruence.
    - destruct (FP K) as [_ Q]. destruct (Q i Hi) as [Q1 Q2]. destruct La as [La1 La2], Lb as [Lb1 Lb2].
      split; intros (X1 & X2 & _); destruct Hj as [-> | ->]; rewrite ?Li, ?Ri, ?La1, ?La2, ?Lb1, ?Lb2 in *; congruence. }
  assert (F1 : forall x, x = ia \/ x = ib -> i_failed (h_if s1 x) = false) by (intros x [-> | ->]; [now rewrite Hia|now rewrite Hib]).
  assert (EA1 : ends_agree k s1).
  { intros i j Hi Hj X. apply In1 in Hi as [Hi|Hi], Hj as [Hj|Hj].
    - rewrite (O1 i Hi), (O1 j Hj). apply EA; auto. destruct (Lo i Hi) as [Li Ri], (Lo j Hj) as [Lj Rj]. unfold is_reverse in *. rewrite Li, Ri, Lj, Rj, (O1 i Hi), (O1 j Hj) in X. exact X.
    - destruct (proj1 (Cross i j Hi Hj) X).
    - destruct (proj2 (Cross j i Hj Hi) X).
    - now rewrite (F1 i Hi), (F1 j Hj). }
  assert (V := validate_agree E k s1 HE ND1 CS1 EA1). rewrite R1 in V. cbn [fst] in V.
  assert (Da : forall i, i_name (h_if t i) = i_name (h_if s1 i) /\ i_cost (h_if t i) = i_cost (h_if s1 i) /\
    i_cap (h_if t i) = i_cap (h_if s1 i) /\ i_node (h_if t i) = i_node (h_if s1 i) /\ i_rem (h_if t i) = i_rem (h_if s1 i) /\
    i_traffic (h_if t i) = i_traffic (h_if s1 i) /\ i_failed (h_if t i) = i_failed (h_if s1 i) /\
    i_res (h_if t i) = i_res (h_if s1 i) /\ i_srlgs (h_if t i) = i_srlgs (h_if s1 i) /\
    i_rsvp (h_if t i) = i_rsvp (h_if s1 i) /\ i_pct (h_if t i) = i_pct (h_if s1 i)) by exact (CircuitProofs.cf_data _ _ _ V).
  assert (Ci : forall i, k = Flex -> i_cid (h_if t i) = i_cid (h_if s1 i)) by exact (CircuitProofs.cf_cid _ _ _ V).
  exists ia, ib. constructor; auto.
  - rewrite (CircuitProofs.cf_ifs _ _ _ V). exact M1.
  - rewrite (CircuitProofs.cf_nds _ _ _ V). exact N1.
  - rewrite (CircuitProofs.cf_nd _ _ _ V). exact H1.
  - rewrite (CircuitProofs.cf_dms _ _ _ V). exact D1.
  - rewrite (CircuitProofs.cf_dm _ _ _ V). exact HD1.
  - rewrite (CircuitProofs.cf_lsps _ _ _ V). exact L1.
  - rewrite (CircuitProofs.cf_ls _ _ _ V). exact H2.
  - intros x Hx. assert (Cx := Ci x). destruct (Da x) as (-> & -> & -> & -> & -> & _ & -> & _ & _ & -> & ->). rewrite (O1 x Hx) in *. repeat split; auto.
  - destruct (Da ia) as (-> & -> & _ & -> & -> & _). rewrite Hia. auto.
  - destruct (Da ib) as (-> & -> & _ & -> & -> & _). rewrite Hib. auto.
  - intros x Hx. destruct (Da x) as (_ & _ & -> & _ & _ & _ & -> & _ & _ & -> & ->). destruct Hx as [-> | ->]; [rewrite Hia|rewrite Hib]; auto.
  - intros K. rewrite !(Ci _ K), Hia, Hib. simpl. destruct (CF K) as (-> & C & Us). split; [reflexivity|]. split; [exact C|]. intros x Hx Q. apply Us. exists x. auto.
  - intros x Hx Q. apply Ka. exists x. auto.
  - intros x Hx Q. apply Kb. exists x. auto.
Qed.

Section Laid.
Variables (k : kind) (s t : st) (i j a b : nat) (na nb : string) (ca cb : Z) (cap : Q).
Hypothesis L : laid k s t i j a b na nb ca cb cap.
Hypothesis ND : NoDup (m_ifs s).
Hypothesis FT : fits k s (nd_name s a) (nd_name s b).
Lemma ld_in x : In x (m_ifs t) <-> In x (m_ifs s) \/ x = i \/ x = j.
Proof. rewrite (ld_ifs _ _ _ _ _ _ _ _ _ _ _ _ L), in_app_iff. simpl. intuition. Qed.
Lemma ld_name n : nd_name t n = nd_name s n. Proof. unfold nd_name. now rewrite (ld_nd _ _ _ _ _ _ _ _ _ _ _ _ L). Qed.
Lemma ld_names : map (nd_name t) (m_nds t) = map (nd_name s) (m_nds s).
Proof. rewrite (ld_nds _ _ _ _ _ _ _ _ _ _ _ _ L). apply map_ext. exact ld_name. Qed.
Lemma ld_loc x : In x (m_ifs s) -> loc t x = loc s x /\ rem t x = rem s x.
Proof. intros Hx. destruct (ld_old _ _ _ _ _ _ _ _ _ _ _ _ L x Hx) as (_&_&_&A&B&_). unfold loc, rem. now rewrite A, B, (ld_nd _ _ _ _ _ _ _ _ _ _ _ _ L). Qed.
Lemma ld_loc_i : loc t i = nd_name s a /\ rem t i = nd_name s b.
Proof. destruct (ld_new_i _ _ _ _ _ _ _ _ _ _ _ _ L) as (_&_&A&B). unfold loc, rem, nd_name. now rewrite A, B, (ld_nd _ _ _ _ _ _ _ _ _ _ _ _ L). Qed.
Lemma ld_loc_j : loc t j = nd_name s b /\ rem t j = nd_name s a.
Proof. destruct (ld_new_j _ _ _ _ _ _ _ _ _ _ _ _ L) as (_&_&A&B). unfold loc, rem, nd_name. now rewrite A, B, (ld_nd _ _ _ _ _ _ _ _ _ _ _ _ L). Qed.
Lemma ld_once : NoDup (m_ifs t).
Proof.
  rewrite (ld_ifs _ _ _ _ _ _ _ _ _ _ _ _ L). assert (Ni := ld_i _ _ _ _ _ _ _ _ _ _ _ _ L). assert (Nj := ld_j _ _ _ _ _ _ _ _ _ _ _ _ L). assert (Ne := ld_ne _ _ _ _ _ _ _ _ _ _ _ _ L).
  apply NoDup_app_disj; [exact ND|constructor; [intros [C|[]]; auto|constructor; [intros []|constructor]]|]. intros x Hx [<-|[<-|[]]]; auto.
Qed.
Lemma ld_link : one_link s t i j (nd_name s a) (nd_name s b).
Proof.
  constructor; [|exact (ld_ne _ _ _ _ _ _ _ _ _ _ _ _ L)|exact ld_loc_i|exact ld_loc_j]. intros x. unfold is_new. rewrite ld_in. split; [intros [[X|X] N]; [contradiction|exact X]|].
  intros [-> | ->]; (split; [auto|]); [exact (ld_i _ _ _ _ _ _ _ _ _ _ _ _ L)|exact (ld_j _ _ _ _ _ _ _ _ _ _ _ _ L)].
Qed.
(** an old and a new interface are not the ends of one link *)
Lemma ld_cross x y : In x (m_ifs s) -> y = i \/ y = j -> ~ is_reverse k t x y /\ ~ is_reverse k t y x.
Proof.
  intros Hx Hy. destruct (ld_loc x Hx) as [Lx Rx]. destruct ld_loc_i as [Li Ri], ld_loc_j as [Lj Rj]. destruct (kind_dec k) as [K|K].
  - destruct (ld_cid _ _ _ _ _ _ _ _ _ _ _ _ L K) as (Cij & _ & Us). assert (Cx : i_cid (h_if t x) = i_cid (h_if s x)) by (apply (ld_old _ _ _ _ _ _ _ _ _ _ _ _ L x Hx); exact K).
    assert (X := Us x Hx). split; intros (_ & _ & [Q|Q]); destruct Hy as [-> | ->]; congruence.
  - destruct FT as [_ FP]. destruct (FP K) as [_ Q]. destruct (Q x Hx) as [Q1 Q2].
    split; intros (X1 & X2 & _); destruct Hy as [-> | ->]; rewrite ?Lx, ?Rx, ?Li, ?Ri, ?Lj, ?Rj in *; congruence.
Qed.
Lemma ld_reverse x y : In x (m_ifs s) -> In y (m_ifs s) -> (is_reverse k t x y <-> is_reverse k s x y).
Proof.
  intros Hx Hy. unfold is_reverse. destruct (ld_loc x Hx) as [-> ->], (ld_loc y Hy) as [-> ->]. destruct (kind_dec k) as [K|K]; [|tauto].
  destruct (ld_old _ _ _ _ _ _ _ _ _ _ _ _ L x Hx) as (_&_&_&_&_&_&_&_&Cx), (ld_old _ _ _ _ _ _ _ _ _ _ _ _ L y Hy) as (_&_&_&_&_&_&_&_&Cy). rewrite (Cx K), (Cy K). tauto.
Qed.
Lemma ld_agree : ends_agree k s -> ends_agree k t.
Proof.
  intros EA x y Hx Hy R. apply ld_in in Hx as [Hx|Hx], Hy as [Hy|Hy].
  - destruct (ld_old _ _ _ _ _ _ _ _ _ _ _ _ L x Hx) as (_&_&_&_&_&->&_), (ld_old _ _ _ _ _ _ _ _ _ _ _ _ L y Hy) as (_&_&_&_&_&->&_). apply EA; auto. now apply ld_reverse.
  - destruct (proj1 (ld_cross x y Hx Hy) R).
  - destruct (proj2 (ld_cross y x Hy Hx) R).
  - destruct (ld_new _ _ _ _ _ _ _ _ _ _ _ _ L x Hx) as (_ & -> & _), (ld_new _ _ _ _ _ _ _ _ _ _ _ _ L y Hy) as (_ & -> & _). reflexivity.
Qed.
Lemma ld_cids : cids_set k s -> cids_set k t.
Proof.
  intros CS K x Hx. destruct (ld_cid _ _ _ _ _ _ _ _ _ _ _ _ L K) as (Cij & Cn & _). apply ld_in in Hx as [Hx|[-> | ->]]; [|congruence|congruence].
  destruct (ld_old _ _ _ _ _ _ _ _ _ _ _ _ L x Hx) as (_&_&_&_&_&_&_&_&Cx). rewrite (Cx K). exact (CS K x Hx).
Qed.
Lemma ld_known : In a (m_nds s) -> In b (m_nds s) -> ends_known s -> ends_known t.
Proof.
  intros Ha Hb EK x Hx. assert (Hnm : In (nd_name s a) (map (nd_name s) (m_nds s)) /\ In (nd_name s b) (map (nd_name s) (m_nds s))) by (split; now apply in_map).
  rewrite ld_names. apply ld_in in Hx as [Hx|[-> | ->]].
  - destruct (ld_loc x Hx) as [-> ->]. exact (EK x Hx).
  - destruct ld_loc_i as [-> ->]. tauto.
  - destruct ld_loc_j as [-> ->]. tauto.
Qed.
Lemma ld_keys : if_keys_unique s -> if_keys_unique t.
Proof.
  intros KU. unfold if_keys_unique. rewrite (ld_ifs _ _ _ _ _ _ _ _ _ _ _ _ L), map_app.
  assert (KK : forall x, In x (m_ifs s) -> if_key t x = if_key s x) by (intros x Hx; unfold if_key; rewrite (proj1 (ld_loc x Hx)); destruct (ld_old _ _ _ _ _ _ _ _ _ _ _ _ L x Hx) as (-> & _); reflexivity).
  assert (KA : if_key t i = (na, nd_name s a)) by (unfold if_key; rewrite (proj1 ld_loc_i); destruct (ld_new_i _ _ _ _ _ _ _ _ _ _ _ _ L) as (-> & _); reflexivity).
  assert (KB : if_key t j = (nb, nd_name s b)) by (unfold if_key; rewrite (proj1 ld_loc_j); destruct (ld_new_j _ _ _ _ _ _ _ _ _ _ _ _ L) as (-> & _); reflexivity).
  rewrite (map_ext_in _ _ _ KK). cbn [map]. rewrite KA, KB. apply NoDup_app_disj; [exact KU|constructor; [intros [C|[]]; destruct FT; congruence|constructor; [intros []|constructor]]|].
  intros x Hx [<-|[<-|[]]]; apply in_map_iff in Hx as (y & Ky & Hy); [exact (ld_ki _ _ _ _ _ _ _ _ _ _ _ _ L y Hy Ky)|exact (ld_kj _ _ _ _ _ _ _ _ _ _ _ _ L y Hy Ky)].
Qed.
Lemma ld_ends d : dmd_from t d = dmd_from s d /\ dmd_to t d = dmd_to s d /\ d_traffic (h_dm t d) = d_traffic (h_dm s d).
Proof. unfold dmd_from, dmd_to. now rewrite (ld_dm _ _ _ _ _ _ _ _ _ _ _ _ L), (ld_nd _ _ _ _ _ _ _ _ _ _ _ _ L). Qed.
Lemma ld_lends l : lsp_from t l = lsp_from s l /\ lsp_to t l = lsp_to s l.
Proof. unfold lsp_from, lsp_to. now rewrite (ld_ls _ _ _ _ _ _ _ _ _ _ _ _ L), (ld_nd _ _ _ _ _ _ _ _ _ _ _ _ L). Qed.
Lemma ld_posed : well_posed s -> well_posed t.
Proof.
  intros (_ & C & T). split; [exact ld_once|]. split.
  - intros x Hx. apply ld_in in Hx as [Hx|[-> | ->]].
    + destruct (ld_old _ _ _ _ _ _ _ _ _ _ _ _ L x Hx) as (_ & -> & _). exact (C x Hx).
    + destruct (ld_new_i _ _ _ _ _ _ _ _ _ _ _ _ L) as (_ & -> & _). exact (ld_ca _ _ _ _ _ _ _ _ _ _ _ _ L).
    + destruct (ld_new_j _ _ _ _ _ _ _ _ _ _ _ _ L) as (_ & -> & _). exact (ld_cb _ _ _ _ _ _ _ _ _ _ _ _ L).
  - unfold texts_distinct, from_names, to_names in *. rewrite (ld_lsps _ _ _ _ _ _ _ _ _ _ _ _ L), (ld_dms _ _ _ _ _ _ _ _ _ _ _ _ L).
    rewrite (map_ext (dmd_from t) (dmd_from s)), (map_ext (dmd_to t) (dmd_to s)), (map_ext (lsp_from t) (lsp_from s)), (map_ext (lsp_to t) (lsp_to s)); auto; intros x; try apply ld_ends; apply ld_lends.
Qed.
Lemma ld_open_old x : In x (m_ifs s) -> available (unreserved t) x <-> available (unreserved s) x.
Proof. intros Hx. destruct (ld_old _ _ _ _ _ _ _ _ _ _ _ _ L x Hx) as (_&_&A&_&_&_&B&C&_). unfold available, reservable, reserved. simpl. rewrite A, B, C. reflexivity. Qed.
Lemma ld_open_new x : x = i \/ x = j -> available (unreserved t) x.
Proof.
  intros Hx. destruct (ld_new _ _ _ _ _ _ _ _ _ _ _ _ L x Hx) as (A & _ & B & C). assert (Cp := ld_cap _ _ _ _ _ _ _ _ _ _ _ _ L). exists (roundd 10 (cap * 100 / 100 - roundd 10 0))%Q. split.
  - unfold reservable, reserved. simpl. rewrite A, B, C. exists (roundd 10 0%Q). split; apply roundd_rounds.
  - assert (Y : (0 <= cap * 100 / 100 - roundd 10 0)%Q).
    { assert (Z0 : (roundd 10 0 == 0)%Q) by (vm_compute; reflexivity). rewrite Z0. field_simplify. lra. }
    apply Qle_trans with (roundd 10 0); [vm_compute; discriminate|]. now apply roundd_mono.
Qed.
Lemma ld_wider : wider s t.
Proof.
  constructor.
  - intros x Hx. apply ld_in. now left.
  - intros x Hx. now apply ld_loc.
  - intros x Hx. now apply ld_loc.
  - intros x Hx. apply (ld_old _ _ _ _ _ _ _ _ _ _ _ _ L x Hx).
  - exact ld_open_old.
  - intros x Hx. apply (ld_old _ _ _ _ _ _ _ _ _ _ _ _ L x Hx).
  - exact (ld_dms _ _ _ _ _ _ _ _ _ _ _ _ L).
  - intros d _. destruct (ld_ends d) as (A & B & C). repeat split; auto.
Qed.
Lemma ld_wider_lsps : wider_lsps s t.
Proof.
  constructor.
  - intros x Hx. apply ld_in. now left.
  - intros x Hx. destruct (ld_loc x Hx) as [A B]. destruct (ld_old _ _ _ _ _ _ _ _ _ _ _ _ L x Hx) as (_&C&_&_&_&F&R&_). auto.
  - exact (ld_dms _ _ _ _ _ _ _ _ _ _ _ _ L).
  - intros d _. destruct (ld_ends d) as (A & B & C). repeat split; auto.
  - exact (ld_lsps _ _ _ _ _ _ _ _ _ _ _ _ L).
  - intros l _. destruct (ld_lends l) as [A B]. unfold same_metric_read. rewrite (ld_ls _ _ _ _ _ _ _ _ _ _ _ _ L). auto.
Qed.
Lemma ld_plain : In a (m_nds s) -> In b (m_nds s) -> plain k s -> plain k t.
Proof.
  intros Ha Hb (NL & WP & EK & CS & EA & KU). split; [rewrite (ld_lsps _ _ _ _ _ _ _ _ _ _ _ _ L); exact NL|]. split; [now apply ld_posed|]. split; [now apply ld_known|]. split; [now apply ld_cids|]. split; [now apply ld_agree|now apply ld_keys].
Qed.
(** the checks of validate_model *)
Lemma one_more (P Q : nat -> Prop) : (forall x, In x (m_ifs s) -> (P x <-> Q x)) -> ~ Q i -> ~ Q j -> one_in (m_ifs s) P -> one_in (m_ifs t) Q.
Proof.
  intros H Ni Nj (x & Hx & Px & U). exists x. split; [apply ld_in; now left|]. split; [now apply H|]. intros y Hy Qy. apply ld_in in Hy as [Hy|[-> | ->]]; [|contradiction|contradiction]. apply U; auto. now apply H.
Qed.
Lemma one_new (Q : nat -> Prop) x : x = i \/ x = j -> Q x -> (forall y, y = i \/ y = j -> Q y -> y = x) -> (forall y, In y (m_ifs s) -> ~ Q y) -> one_in (m_ifs t) Q.
Proof. intros Hx Qx Un No. exists x. split; [apply ld_in; tauto|]. split; [exact Qx|]. intros y Hy Qy. apply ld_in in Hy as [Hy|Hy]; [destruct (No y Hy Qy)|now apply Un]. Qed.
Lemma ld_fit : fit k (unreserved s) -> fit k (unreserved t).
Proof.
  intros (F1 & F2 & F3 & F4 & F5). destruct ld_loc_i as [Li Ri], ld_loc_j as [Lj Rj]. destruct FT as [Nab FP]. assert (Ne := ld_ne _ _ _ _ _ _ _ _ _ _ _ _ L).
  assert (Op : forall x, In x (m_ifs s) -> available (unreserved t) x <-> available (unreserved s) x) by exact ld_open_old. assert (On := ld_open_new).
  split; [|split; [|split; [|split]]].
  - intros x Hx Av. change (m_ifs (unreserved t)) with (m_ifs t) in *. change (loc (unreserved t)) with (loc t). change (rem (unreserved t)) with (rem t).
    change (fun x0 => loc t x0 = loc t x /\ rem t x0 = rem t x /\ i_cid (h_if (unreserved t) x0) = i_cid (h_if (unreserved t) x)) with (fun x0 => loc t x0 = loc t x /\ rem t x0 = rem t x /\ i_cid (h_if t x0) = i_cid (h_if t x)).
    change (fun x0 => loc t x0 = rem t x /\ rem t x0 = loc t x /\ i_cid (h_if (unreserved t) x0) = i_cid (h_if (unreserved t) x)) with (fun x0 => loc t x0 = rem t x /\ rem t x0 = loc t x /\ i_cid (h_if t x0) = i_cid (h_if t x)).
    change (i_cid (h_if (unreserved t) x)) with (i_cid (h_if t x)). apply ld_in in Hx as [Hx|Hx].
    + apply (Op x Hx) in Av. destruct (F1 x Hx Av) as [(y & Hy & Ay & Ly & Ry) X]. destruct (ld_loc x Hx) as [Lx Rx]. split.
      * exists y. destruct (ld_loc y Hy) as [-> ->]. rewrite Lx, Rx. split; [apply ld_in; now left|]. split; [now apply Op|]. split; [exact Ly|exact Ry].
      * intros K Cn. destruct (ld_cid _ _ _ _ _ _ _ _ _ _ _ _ L K) as (Cij & _ & Us). assert (Cx : forall z, In z (m_ifs s) -> i_cid (h_if t z) = i_cid (h_if s z)) by (intros z Hz; apply (ld_old _ _ _ _ _ _ _ _ _ _ _ _ L z Hz); exact K).
        rewrite (Cx x Hx) in *. destruct (X K Cn) as [X1 X2]. split.
        -- refine (one_more _ _ _ _ _ X1); [|intros (_ & _ & Q); exact (Us x Hx (eq_sym Q))|intros (_ & _ & Q); rewrite <- Cij in Q; exact (Us x Hx (eq_sym Q))].
           intros z Hz. destruct (ld_loc z Hz) as [-> ->]. rewrite Lx, Rx, (Cx z Hz). reflexivity.
        -- refine (one_more _ _ _ _ _ X2); [|intros (_ & _ & Q); exact (Us x Hx (eq_sym Q))|intros (_ & _ & Q); rewrite <- Cij in Q; exact (Us x Hx (eq_sym Q))].
           intros z Hz. destruct (ld_loc z Hz) as [-> ->]. rewrite Lx, Rx, (Cx z Hz). reflexivity.
    + split.
      * destruct Hx as [-> | ->]; [exists j|exists i]; (split; [apply ld_in; tauto|]; split; [apply On; tauto|]; rewrite Li, Ri, Lj, Rj; auto).
      * intros K _. destruct (ld_cid _ _ _ _ _ _ _ _ _ _ _ _ L K) as (Cij & _ & Us).
        assert (No : forall z, In z (m_ifs s) -> i_cid (h_if t z) <> i_cid (h_if t x)).
        { intros z Hz. destruct (ld_old _ _ _ _ _ _ _ _ _ _ _ _ L z Hz) as (_&_&_&_&_&_&_&_&Cz). rewrite (Cz K). intros Q. apply (Us z Hz). destruct Hx as [-> | ->]; congruence. }
        destruct Hx as [-> | ->]; split.
        -- apply (one_new _ i); [now left|auto| |intros y Hy (_ & _ & Q); exact (No y Hy Q)]. intros y [-> | ->] (Q & _); [reflexivity|exfalso; congruence].
        -- apply (one_new _ j); [now right|rewrite Li, Ri, Lj, Rj; auto| |intros y Hy (_ & _ & Q); exact (No y Hy Q)]. intros y [-> | ->] (Q & _); [exfalso; congruence|reflexivity].
        -- apply (one_new _ j); [now right|auto| |intros y Hy (_ & _ & Q); exact (No y Hy Q)]. intros y [-> | ->] (Q & _); [exfalso; congruence|reflexivity].
        -- apply (one_new _ i); [now left|rewrite Li, Ri, Lj, Rj; auto| |intros y Hy (_ & _ & Q); exact (No y Hy Q)]. intros y [-> | ->] (Q & _); [reflexivity|exfalso; congruence].
  - intros x Hx. change (0 <= i_cap (h_if t x))%Q. apply ld_in in Hx as [Hx|Hx].
    + destruct (ld_old _ _ _ _ _ _ _ _ _ _ _ _ L x Hx) as (_ & _ & -> & _). exact (F2 x Hx).
    + destruct (ld_new _ _ _ _ _ _ _ _ _ _ _ _ L x Hx) as (-> & _). apply Qlt_le_weak. exact (ld_cap _ _ _ _ _ _ _ _ _ _ _ _ L).
  - intros x y Hx Hy Av R. change (i_cap (h_if t x) == i_cap (h_if t y))%Q. change (is_reverse k t x y) in R. apply ld_in in Hx as [Hx|Hx], Hy as [Hy|Hy].
    + destruct (ld_old _ _ _ _ _ _ _ _ _ _ _ _ L x Hx) as (_ & _ & -> & _), (ld_old _ _ _ _ _ _ _ _ _ _ _ _ L y Hy) as (_ & _ & -> & _). apply (F3 x y Hx Hy); [now apply Op|]. change (is_reverse k s x y). now apply ld_reverse.
    + destruct (proj1 (ld_cross x y Hx Hy) R).
    + destruct (proj2 (ld_cross y x Hy Hx) R).
    + destruct (ld_new _ _ _ _ _ _ _ _ _ _ _ _ L x Hx) as (-> & _), (ld_new _ _ _ _ _ _ _ _ _ _ _ _ L y Hy) as (-> & _). reflexivity.
  - change (NoDup (map (nd_name t) (m_nds t))). rewrite ld_names. exact F4.
  - intros K. destruct (F5 K) as [G1 G2]. destruct (FP K) as [Xy Q]. split.
    + change (NoDup (map (fun x => ends_text (loc t x) (rem t x)) (m_ifs t))). rewrite (ld_ifs _ _ _ _ _ _ _ _ _ _ _ _ L), map_app.
      rewrite (map_ext_in _ (fun x => ends_text (loc s x) (rem s x))) by (intros x Hx; destruct (ld_loc x Hx) as [-> ->]; reflexivity). cbn [map]. rewrite Li, Ri, Lj, Rj.
      apply NoDup_app_disj; [exact G1|constructor; [intros [C|[]]; congruence|constructor; [intros []|constructor]]|].
      intros x Hx H. apply in_map_iff in Hx as (y & <- & Hy). destruct (Q y Hy) as [Q1 Q2]. destruct H as [H|[H|[]]]; congruence.
    + intros n Hn. change (m_nds (unreserved t)) with (m_nds t) in Hn. rewrite (ld_nds _ _ _ _ _ _ _ _ _ _ _ _ L) in Hn. change (n_shortcuts (h_nd t n) = false). rewrite (ld_nd _ _ _ _ _ _ _ _ _ _ _ _ L). exact (G2 n Hn).
Qed.
Lemma ld_demands : demands_fine s -> demands_fine t.
Proof. intros D d Hd. rewrite (ld_dms _ _ _ _ _ _ _ _ _ _ _ _ L) in Hd. rewrite ld_names. destruct (ld_ends d) as (-> & -> & _). exact (D d Hd). Qed.
Lemma ld_lfine : lsps_fine s -> lsps_fine t.
Proof. unfold lsps_fine. intros D d Hd. rewrite (ld_lsps _ _ _ _ _ _ _ _ _ _ _ _ L) in Hd. rewrite ld_names. destruct (ld_lends d) as (-> & ->). exact (D d Hd). Qed.
(** room for the LSPs *)
Lemma ld_room : In a (m_nds s) -> In b (m_nds s) -> tenths cap -> (Qsum (map (fun l => wanted s l (equal_share s l)) (m_lsps s)) <= cap)%Q -> with_room k s -> with_room k t.
Proof.
  intros Ha Hb Tc Rc R. assert (LU := rm_usual _ _ R). assert (Wd : forall l, In l (m_lsps s) -> wanted t l (equal_share t l) = wanted s l (equal_share s l)) by (intros l; exact (wi_wanted s t ld_wider_lsps l)). constructor.
  - exact (ld_posed (rm_posed _ _ R)).
  - exact (ld_known Ha Hb (rm_known _ _ R)).
  - exact (ld_cids (rm_cids _ _ R)).
  - assert (Ls := ld_lsps _ _ _ _ _ _ _ _ _ _ _ _ L). assert (Hl := ld_ls _ _ _ _ _ _ _ _ _ _ _ _ L). constructor.
    + rewrite Ls. exact (lu_once _ _ LU).
    + exact (ld_keys (lu_ifs _ _ LU)).
    + intros d Hd. rewrite (ld_dms _ _ _ _ _ _ _ _ _ _ _ _ L) in Hd. destruct (ld_ends d) as (_&_&->). exact (lu_traffic _ _ LU d Hd).
    + intros l c Il. rewrite Ls in Il. rewrite Hl. exact (lu_cfg _ _ LU l c Il).
    + intros l Il. rewrite Ls in Il. rewrite (Wd l Il). exact (lu_tenths _ _ LU l Il).
    + intros x Hx. apply ld_in in Hx as [Hx|Hx].
      * destruct (ld_old _ _ _ _ _ _ _ _ _ _ _ _ L x Hx) as (_&_&->&_&_&_&_&->&_). exact (lu_caps _ _ LU x Hx).
      * destruct (ld_new _ _ _ _ _ _ _ _ _ _ _ _ L x Hx) as (->&_&_&->). split; [exact Tc|]. split; [apply Qlt_le_weak; exact (ld_cap _ _ _ _ _ _ _ _ _ _ _ _ L)|]. split; discriminate.
    + intros l c Il. rewrite Ls in Il. rewrite Hl. exact (lu_metric _ _ LU l c Il).
    + intros K (n & Hn & Sn). rewrite (ld_nds _ _ _ _ _ _ _ _ _ _ _ _ L) in Hn. rewrite (ld_nd _ _ _ _ _ _ _ _ _ _ _ _ L) in Sn. assert (X := rm_off _ _ R n Hn). congruence.
  - intros x Hx Fx Rx. rewrite (ld_lsps _ _ _ _ _ _ _ _ _ _ _ _ L), (map_ext_in _ _ _ Wd). apply ld_in in Hx as [Hx|Hx].
    + destruct (ld_old _ _ _ _ _ _ _ _ _ _ _ _ L x Hx) as (_&_&C1&_&_&C2&C3&C4&_). rewrite C1, C4. rewrite C2 in Fx. rewrite C3 in Rx. exact (rm_ample _ _ R x Hx Fx Rx).
    + destruct (ld_new _ _ _ _ _ _ _ _ _ _ _ _ L x Hx) as (->&_&_&->). apply (Qle_trans _ _ _ Rc). field_simplify. lra.
  - exact (ld_agree (rm_agree _ _ R)).
  - intros n Hn. rewrite (ld_nds _ _ _ _ _ _ _ _ _ _ _ _ L) in Hn. rewrite (ld_nd _ _ _ _ _ _ _ _ _ _ _ _ L). exact (rm_off _ _ R n Hn).
Qed.
End Laid.
