(** MatchShort.v - two FlexModels with room for all LSPs whose objects correspond,
    with IGP shortcuts (C102). *)
From Verif Require Import Base Graph Objects Sim Api Spec SpecCkt SpecSim SpecMetric SpecFlow SpecOrder SpecShort SpecTotal SpecWhatIf SpecSame SpecMore GraphProofs MonadProofs RoundProofs
  PathProofs QuietProofs RouteProofs LeastProofs OrderProofs MetricProofs IgpProofs Ecmp SpecSig SigEnd LspExact OrderLsps
  PropertiesApi PropertiesRoute PropertiesTraffic PropertiesShort OrderShort MoreLsps MatchLsps.
From Coq Require Import Permutation Lqa.

(** ** Groups and rides in terms of the other model *)
Definition group_to (fl : nat -> nat) (g h : list nat) : Prop := forall m, In m h <-> exists l, In l g /\ m = fl l.

Lemma last_map {A B} (f : A -> B) p : forall x d, last (map f (x :: p)) (f d) = f (last (x :: p) d).
Proof. induction p as [|y p IH]; intros x d; [reflexivity|]. exact (IH y d). Qed.
Lemma last_in {A} (p : list A) : forall x d, In (last (x :: p) d) (x :: p).
Proof. induction p as [|y p IH]; intros x d; [left; reflexivity|]. right. exact (IH y d). Qed.
Lemma last_any {A} (p : list A) : forall x d e, last (x :: p) d = last (x :: p) e.
Proof. induction p as [|y p IH]; intros x d e; [reflexivity|]. exact (IH y d e). Qed.

Section Rides.
Variables (fi fl : nat -> nat) (a b : st) (I L : nat -> Prop).
Hypothesis HI : forall i, I i -> loc b (fi i) = loc a i /\ rem b (fi i) = rem a i.
Hypothesis HL : forall l, L l -> lsp_from b (fl l) = lsp_from a l /\ lsp_to b (fl l) = lsp_to a l.
Lemma rides_to p gs q : rides a p gs q -> (forall i, In i p -> I i) -> (forall g l, In g gs -> In l g -> L l) ->
  forall hs, Forall2 (group_to fl) gs hs -> rides b (map fi p) hs (map (item_to fi fl) q).
Proof.
  induction 1 as [|i p gs q Rd IH|i p j p' ls l gs q L1 La L2 Hl Rd IH]; intros Hp Hg hs F.
  - inversion F; subst. constructor.
  - simpl. constructor. apply IH; auto. intros x Hx. apply Hp. right; auto.
  - inversion F as [|g h gs' hs' X Y]; subst. simpl. rewrite map_app. destruct (HL l (Hg ls l (or_introl eq_refl) Hl)) as [E1 E2].
    assert (Hj : In (last (i :: p) i) (i :: p ++ p')) by (change (i :: p ++ p')%list with ((i :: p) ++ p')%list; apply in_or_app; left; apply last_in).
    eapply rides_lsp with (j := fi (last (i :: p) i)).
    + rewrite E1, <- L1. apply HI, Hp. left; auto.
    + exact (last_map fi p i i).
    + rewrite E2, <- L2. apply HI, Hp, Hj.
    + apply X. eauto.
    + apply IH; auto; [intros x Hx; apply Hp; right; apply in_or_app; auto|]. intros g x Hx. apply Hg. right; auto.
Qed.
Lemma rides_from P hs Q : rides b P hs Q -> forall p, P = map fi p -> (forall i, In i p -> I i) ->
  forall gs, (forall g l, In g gs -> In l g -> L l) -> Forall2 (group_to fl) gs hs -> exists q, Q = map (item_to fi fl) q /\ rides a p gs q.
Proof.
  induction 1 as [|i P hs Q Rd IH|i P j P' ls l hs Q L1 La L2 Hl Rd IH]; intros p Hp Ip gs Hg F.
  - destruct p; [|discriminate]. inversion F; subst. exists []. split; [reflexivity|constructor].
  - destruct p as [|x p]; [discriminate|]. injection Hp as -> ->. destruct (IH p eq_refl (fun z Hz => Ip z (or_intror Hz)) gs Hg F) as (q & -> & R). exists (IIf x :: q). split; [reflexivity|]. now constructor.
  - destruct p as [|x p]; [discriminate|]. injection Hp as -> Hp. symmetry in Hp. apply map_eq_app in Hp as (r & r' & -> & <- & <-).
    inversion F as [|g h gs' hs' X Y]; subst. apply X in Hl as (m & Hm & ->). destruct (HL m (Hg g m (or_introl eq_refl) Hm)) as [E1 E2].
    destruct (IH r' eq_refl (fun z Hz => Ip z (or_intror (in_or_app _ _ _ (or_intror Hz)))) gs' (fun g' z Hg' => Hg g' z (or_intror Hg')) Y) as (q & -> & R).
    exists (ILsp m :: q). split; [reflexivity|]. eapply rides_lsp with (j := last (x :: r) x).
    + rewrite <- E1, <- L1. symmetry. apply HI, Ip. left; auto.
    + reflexivity.
    + rewrite <- E2, <- L2. change (last (fi x :: map fi r) (fi x)) with (last (map fi (x :: r)) (fi x)). rewrite last_map. symmetry. apply HI, Ip.
      change (x :: r ++ r')%list with ((x :: r) ++ r')%list. apply in_or_app. left. apply last_in.
    + exact Hm.
    + exact R.
Qed.

Hypothesis SN : forall n, shortcut_node a n <-> shortcut_node b n.
Hypothesis TU : forall n m, tunnel a n m <-> tunnel b n m.
Hypothesis LM : forall u v l, L l -> (least_metric a u v l <-> least_metric b u v (fl l)).
Hypothesis LA : forall u v l, least_metric a u v l -> L l.
Hypothesis LB : forall u v m, least_metric b u v m -> exists l, L l /\ m = fl l.
Lemma picks_to ns gs : picks a ns gs -> (forall g l, In g gs -> In l g -> L l) /\ forall hs, picks b ns hs -> Forall2 (group_to fl) gs hs.
Proof.
  induction 1 as [n|n x m y ls gs S T Nt Ne Nd Lm P [IL IH]|n m y gs N P [IL IH]].
  - split; [intros g l []|]. intros hs H. inversion H as [|n' x' m' y' ls' hs' A B C D F G K K'|n' m' y' hs' A B C]; subst; [constructor|]. destruct x'; discriminate.
  - split; [intros g l [<-|Hg] Hl; [apply Lm in Hl; eapply LA; eauto|eauto]|]. intros hs H.
    inversion H as [n' A|n' x' m' y' ls' hs' S' T' Nt' Ne' Nd' L' P' K Q|n' m' y' hs' N' P' K]; subst.
    + destruct x; discriminate.
    + assert (X : (x' ++ m' :: y')%list = (x ++ m :: y)%list) by congruence.
      destruct (last_split (tunnel a n) x m y x' m' y') as [-> ->]; auto; [now apply TU|intros z Hz Z; apply (Nt' z Hz); now apply TU|].
      constructor; [|apply IH; exact P']. intros z. rewrite L'. split.
      * intros Hz. destruct (LB _ _ _ Hz) as (l & Hl & ->). exists l. split; [|reflexivity]. apply Lm. now apply LM.
      * intros (l & Hl & ->). apply Lm in Hl. apply LM; eauto.
    + exfalso. apply (N' (proj1 (SN n) S) m); [|now apply TU]. rewrite H0. apply in_or_app. right; left; auto.
  - split; [exact IL|]. intros hs H. inversion H as [n' A|n' x' m' y' ls' hs' S' T' Nt' Ne' Nd' L' P' K Q|n' m' y' hs' N' P' K]; subst.
    + exfalso. apply (N (proj2 (SN n) S') m'); [|now apply TU]. rewrite <- H0. apply in_or_app. right; left; auto.
    + apply IH. exact P'.
Qed.
End Rides.

Section Short.
Variables (E E' : env) (z : Z) (c : Q) (fi fd fl : nat -> nat).
Hypothesis HE : env_ok E.
Hypothesis HE' : env_ok E'.
Variables s t s' t' : st.
Hypothesis Hz : 0 < z.
Hypothesis M : matched z c fi fd fl s t.
Hypothesis Rs : usual_room Flex s.
Hypothesis Rt : usual_room Flex t.
Hypothesis Up : update_simulation E Flex s = (s', Ok tt).
Hypothesis Up' : update_simulation E' Flex t = (t', Ok tt).
Hypothesis KU : keys_unique s.
Hypothesis KUt : keys_unique t.
Hypothesis RO : refs_ok s.
Hypothesis ROt : refs_ok t.
Hypothesis NT : node_texts s.
Hypothesis NTt : node_texts t.
Hypothesis SN0 : forall n, shortcut_node s n <-> shortcut_node t n.
Let WP := ur_posed _ _ Rs. Let EK := ur_known _ _ Rs. Let CS := ur_cids _ _ Rs. Let LU := ur_usual _ _ Rs. Let Am := ur_ample _ _ Rs. Let EA := ur_agree _ _ Rs.
Let WPt := ur_posed _ _ Rt. Let EKt := ur_known _ _ Rt. Let CSt := ur_cids _ _ Rt. Let LUt := ur_usual _ _ Rt. Let Amt := ur_ample _ _ Rt. Let EAt := ur_agree _ _ Rt.
Let Fs := fin_fail E Flex HE s s' WP CS EA Up.
Let Ft := fin_fail E' Flex HE' t t' WPt CSt EAt Up'.
Let Ls := fin_like E Flex HE s s' WP EK CS LU Am EA Up.
Let Lt := fin_like E' Flex HE' t t' WPt EKt CSt LUt Amt EAt Up'.
Let NDt : NoDup (m_ifs t) := proj1 WPt.
Let inj := mt_inj z c fi fd fl s t M NDt.
Let linj i j : In i (m_lsps s) -> In j (m_lsps s) -> fl i = fl j -> i = j.
Proof. apply (nodup_map_inj fl (m_lsps s)). exact (Permutation_NoDup (Permutation_sym (mt_lsps _ _ _ _ _ _ _ M)) (lu_once _ _ LUt)). Qed.
Let lin := mt_lin z c fi fd fl s t M.
Let lof := mt_lof z c fi fd fl s t M.
Let MR := mt_routed E E' Flex Flex z c fi fd fl HE HE' s t s' t' Hz M Rs Rt Up Up'.
Let MM := mt_metric E E' Flex Flex z c fi fd fl HE HE' s t s' t' Hz M Rs Rt Up Up'.
Let MB := mt_metric_back E E' Flex Flex z c fi fd fl HE HE' s t s' t' Hz M Rs Rt Up Up'.
Let MP := mt_lsp E E' Flex Flex z c fi fd fl HE HE' s t s' t' Hz M Rs Rt Up Up'.
Lemma same_lsps : m_lsps s' = m_lsps s. Proof. exact (proj2 (proj2 (proj2 (fin_sets E Flex s s' Up)))). Qed.
Lemma same_lspst : m_lsps t' = m_lsps t. Proof. exact (proj2 (proj2 (proj2 (fin_sets E' Flex t t' Up')))). Qed.
Lemma same_ifs : m_ifs s' = m_ifs s. Proof. exact (proj1 (fin_sets E Flex s s' Up)). Qed.

Lemma ms_snode n : shortcut_node s' n <-> shortcut_node t' n.
Proof.
  assert (A : shortcut_node s' n <-> shortcut_node s n).
  { unfold shortcut_node, nd_name. destruct (fin_sets E Flex s s' Up) as (_ & -> & _). split; intros (x & A & B & C); exists x; rewrite (fin_nd E Flex s s' Up) in *; auto. }
  assert (B : shortcut_node t' n <-> shortcut_node t n).
  { unfold shortcut_node, nd_name. destruct (fin_sets E' Flex t t' Up') as (_ & -> & _). split; intros (x & A' & B & C); exists x; rewrite (fin_nd E' Flex t t' Up') in *; auto. }
  rewrite A, B. apply SN0.
Qed.
Lemma ms_lends l : In l (m_lsps s) -> lsp_from t' (fl l) = lsp_from s' l /\ lsp_to t' (fl l) = lsp_to s' l.
Proof. intros Hl. destruct (fin_ls E Flex s s' Up l) as [-> ->], (fin_ls E' Flex t t' Up' (fl l)) as [-> ->]. destruct (mt_ls _ _ _ _ _ _ _ M l Hl) as (->&->&_). auto. Qed.
Lemma ms_iends i : In i (m_ifs s) -> loc t' (fi i) = loc s' i /\ rem t' (fi i) = rem s' i.
Proof. intros Hi. destruct (fin_loc E Flex s s' Up i) as [-> ->], (fin_loc E' Flex t t' Up' (fi i)) as [-> ->]. destruct (mt_if _ _ _ _ _ _ _ M i Hi) as (->&->&_). auto. Qed.
Lemma ms_tunnel n m : tunnel s' n m <-> tunnel t' n m.
Proof.
  unfold tunnel. rewrite same_lsps, same_lspst. split.
  - intros (l & A & B & C & D). exists (fl l). destruct (ms_lends l A) as [-> ->]. split; [now apply lin|]. split; [exact B|]. split; [exact C|]. now apply MR.
  - intros (x & A & B & C & D). apply lof in A as (l & A & ->). destruct (ms_lends l A) as [X Y]. rewrite X in B. rewrite Y in C. exists l. split; [exact A|]. split; [exact B|]. split; [exact C|]. now apply MR.
Qed.
Lemma ms_least u v l : In l (m_lsps s) -> (least_metric s' u v l <-> least_metric t' u v (fl l)).
Proof.
  intros Hl. unfold least_metric. rewrite same_lsps, same_lspst. destruct (ms_lends l Hl) as [-> ->]. assert (Hl' := lin l Hl). split; intros (A & B & m & C & D).
  - split; [tauto|]. split; [now apply MR|]. exists (times z m). split; [now apply MM|]. intros x (X & Y & W) R. apply lof in X as (y & X & ->). destruct (ms_lends y X) as [F G]. rewrite F in Y. rewrite G in W.
    apply MR in R; auto. destruct (D y (conj X (conj Y W)) R) as (m' & Mm & Le). exists (times z m'). split; [now apply MM|]. now apply (times_le z Hz).
  - apply MR in B; auto. split; [tauto|]. split; [exact B|]. apply MB in C as (n & -> & C); auto. exists n. split; [exact C|]. intros y (X & Y & W) R. destruct (ms_lends y X) as [F G].
    destruct (D (fl y)) as (m' & Mm & Le); [rewrite F, G; auto|now apply MR|]. apply MB in Mm as (n' & -> & Mm); auto. exists n'. split; [exact Mm|]. exact (proj1 (times_le z Hz _ _) Le).
Qed.
Let LA u v l : least_metric s' u v l -> In l (m_lsps s). Proof. intros ((X & _) & _). now rewrite same_lsps in X. Qed.
Let LB u v m : least_metric t' u v m -> exists l, In l (m_lsps s) /\ m = fl l. Proof. intros ((X & _) & _). rewrite same_lspst in X. now apply lof. Qed.

Section Demand.
Variable d : nat.
Hypothesis Hd : In d (m_dms s).
Let Hd' := mt_din z c fi fd fl s t M d Hd.
Let Ends := mt_ends E E' Flex Flex z c fi fd fl s t s' t' M Up Up' d Hd.
Let FL := mt_fleast E E' Flex Flex z c fi fd fl HE HE' s t s' t' Hz M Rs Rt Up Up' d Hd.
Let FB := mt_fleast_back E E' Flex Flex z c fi fd fl HE HE' s t s' t' Hz M Rs Rt Up Up' d Hd.
Let NO := mt_none E E' Flex Flex z c fi fd fl HE HE' s t s' t' Hz M Rs Rt Up Up' d Hd.
Let SO := mt_some E E' Flex Flex z c fi fd fl HE HE' s t s' t' Hz M Rs Rt Up Up' d Hd.
Let PR := mt_preferred E E' Flex Flex z c fi fd fl HE HE' s t s' t' Hz M Rs Rt Up Up' d Hd.
Let PB := mt_preferred_back E E' Flex Flex z c fi fd fl HE HE' s t s' t' Hz M Rs Rt Up Up' d Hd.
Let Or := routed_or E Flex HE s s' WP EK LU Am Up d.

Lemma ms_one : one_road s d -> forall p q, least_cost s' (usable s') (dmd_from s' d) p (dmd_to s' d) -> least_cost s' (usable s') (dmd_from s' d) q (dmd_to s' d) ->
  route_nodes s' (dmd_from s' d) p = route_nodes s' (dmd_from s' d) q.
Proof.
  intros O. destruct (fin_dm E Flex s s' Up d) as (-> & -> & _). intros p q A B. assert (X : forall r, route_nodes s' (dmd_from s d) r = route_nodes s (dmd_from s d) r).
  { intros r. unfold route_nodes. f_equal. apply map_ext. intros i. apply (fin_loc E Flex s s' Up). }
  rewrite !X. apply O; now apply (like_least _ _ _ _ _ _ _ Ls).
Qed.
Lemma ms_on p : least_cost s' (usable s') (dmd_from s' d) p (dmd_to s' d) -> forall i, In i p -> In i (m_ifs s).
Proof. intros [A _] i Hi. rewrite <- same_ifs. exact (proj1 (PathProofs.route_in _ _ _ _ _ A i Hi)). Qed.
Lemma ms_nodes p : (forall i, In i p -> In i (m_ifs s)) -> route_nodes t' (dmd_from t' (fd d)) (map fi p) = route_nodes s' (dmd_from s' d) p.
Proof. intros Hp. unfold route_nodes. destruct Ends as (-> & _). f_equal. rewrite map_map. apply map_ext_in. intros i Hi. apply ms_iends; auto. Qed.

Lemma ms_igp : one_road s d -> no_lsp_for s' d -> paths_to fi fl (d_path (h_dm s' d)) (d_path (h_dm t' (fd d))).
Proof.
  intros One NL. assert (NLt := proj1 NO NL).
  assert (A := C03_unrouted E Flex s s' d HE WP Up Fs Hd NL). assert (B := C03_unrouted E' Flex t t' (fd d) HE' WPt Up' Ft Hd' NLt).
  destruct (d_path (h_dm s' d)) as [|ps] eqn:P, (d_path (h_dm t' (fd d))) as [|qs] eqn:Q; simpl; auto.
  - destruct (C62_paths E' t t' (fd d) qs HE' WPt KUt ROt NTt Up' Ft Hd' NLt Q) as (p0 & _ & L0 & _). apply FB in L0 as (p & _ & L0). exact (proj1 A eq_refl p (proj1 L0)).
  - destruct (C62_paths E s s' d ps HE WP KU RO NT Up Fs Hd NL P) as (p0 & _ & L0 & _). apply FL in L0. exact (proj1 B eq_refl _ (proj1 L0)).
  - destruct (C62_paths E s s' d ps HE WP KU RO NT Up Fs Hd NL P) as (p0 & _ & L0 & _).
    assert (Os : forall p, least_cost s' (usable s') (dmd_from s' d) p (dmd_to s' d) -> route_nodes s' (dmd_from s' d) p = route_nodes s' (dmd_from s' d) p0) by (intros p Hp; now apply ms_one).
    assert (Ot : forall p, least_cost t' (usable t') (dmd_from t' (fd d)) p (dmd_to t' (fd d)) -> route_nodes t' (dmd_from t' (fd d)) p = route_nodes s' (dmd_from s' d) p0).
    { intros q Hq. apply FB in Hq as (p & -> & Hp). rewrite ms_nodes; [now apply Os|exact (ms_on p Hp)]. }
    destruct (C62_one_route E s s' d ps _ HE WP KU RO NT Up Fs Hd NL P Os) as (gs & G & _ & _ & I & _).
    destruct (C62_one_route E' t t' (fd d) qs _ HE' WPt KUt ROt NTt Up' Ft Hd' NLt Q Ot) as (hs & H & _ & _ & J & _).
    destruct (picks_to fl s' t' (fun l => In l (m_lsps s)) ms_snode ms_tunnel ms_least LA LB _ gs G) as [IL PT]. assert (F := PT hs H). split.
    + intros x Hx. apply I in Hx as (p & Lp & Rp). apply J. exists (map fi p). split; [now apply FL|].
      apply (rides_to fi fl s' t' (fun i => In i (m_ifs s)) (fun l => In l (m_lsps s)) ms_iends ms_lends p gs x Rp (ms_on p Lp) IL hs F).
    + intros y Hy. apply J in Hy as (q & Lq & Rq). apply FB in Lq as (p & -> & Lp).
      destruct (rides_from fi fl s' t' (fun i => In i (m_ifs s)) (fun l => In l (m_lsps s)) ms_iends ms_lends _ hs y Rq p eq_refl (ms_on p Lp) gs IL F) as (x & -> & Rx).
      exists x. split; [|reflexivity]. apply I. eauto.
Qed.
Lemma ms_paths : (no_lsp_for s' d -> one_road s d) -> paths_to fi fl (d_path (h_dm s' d)) (d_path (h_dm t' (fd d))).
Proof.
  intros One. destruct Or as [H|N]; [|exact (ms_igp (One N) N)]. assert (H' := SO H).
  destruct (C07_ride E Flex s s' d HE WP (lu_once _ _ LU) Up Fs Hd H) as (ls & es & _ & _ & X & -> & _).
  destruct (C07_ride E' Flex t t' (fd d) HE' WPt (lu_once _ _ LUt) Up' Ft Hd' H') as (ls' & es' & _ & _ & X' & -> & _). simpl. split.
  - intros x Hx. apply in_map_iff in Hx as (l & <- & Hl). apply X in Hl. assert (I := in_lsp E Flex s s' Up d l (proj1 Hl)). apply in_map_iff. exists (fl l). split; [reflexivity|]. apply X'. now apply PR.
  - intros y Hy. apply in_map_iff in Hy as (l' & <- & Hl). apply X' in Hl. apply PB in Hl as (l & -> & _ & Hl). exists [ILsp l]. split; [|reflexivity]. apply in_map_iff. exists l. split; [reflexivity|]. now apply X.
Qed.

(** *** What the demand puts on interfaces and LSPs *)
Definition known_item (x : item) : Prop := match x with IIf i => In i (m_ifs s) | ILsp l => In l (m_lsps s) end.
Lemma ms_known ps q y : no_lsp_for s' d -> d_path (h_dm s' d) = DPaths ps -> In q ps -> In y q -> known_item y.
Proof.
  intros NL P Hq Hy. destruct (C62_connected E s s' d ps q HE WP KU RO NT Up Fs Hd NL P Hq) as (_ & _ & I & J). destruct y as [i|l]; simpl.
  - destruct (I i Hy) as [X _]. now rewrite same_ifs in X.
  - destruct (J l Hy) as [X _]. now rewrite same_lsps in X.
Qed.
Lemma ms_leaves y : known_item y -> leaves t' (item_to fi fl y) = leaves s' y.
Proof. destruct y as [i|l]; simpl; intros H; [now apply ms_iends|now apply ms_lends]. Qed.
Lemma ms_inj x y : known_item x -> known_item y -> item_to fi fl x = item_to fi fl y -> x = y.
Proof. destruct x, y; simpl; intros Hx Hy H; try discriminate; injection H as H; f_equal; auto. Qed.
Lemma ms_has x q : known_item x -> (forall y, In y q -> known_item y) -> existsb (same_item (item_to fi fl x)) (map (item_to fi fl) q) = existsb (same_item x) q.
Proof.
  intros Hx. induction q as [|y q IH]; intros Hq; [reflexivity|]. simpl. rewrite IH by (intros; apply Hq; right; auto). f_equal. assert (Hy := Hq y (or_introl eq_refl)).
  destruct x as [i|l], y as [j|m]; simpl in *; try reflexivity.
  - destruct (Nat.eqb_spec i j) as [->|n]; [apply Nat.eqb_refl|]. apply Nat.eqb_neq. intros e. apply n. auto.
  - destruct (Nat.eqb_spec l m) as [->|n]; [apply Nat.eqb_refl|]. apply Nat.eqb_neq. intros e. apply n. auto.
Qed.
Lemma ms_divided o1 o2 q : (forall y, In y q -> known_item y) -> (forall n, List.length (o2 n) = List.length (o1 n)) -> forall x y, (y == c * x)%Q ->
  (item_divided t' o2 y (map (item_to fi fl) q) == c * item_divided s' o1 x q)%Q.
Proof.
  intros Hq O. induction q as [|a q IH]; intros x y H; [exact H|]. cbn [map item_divided]. rewrite (ms_leaves a (Hq a (or_introl eq_refl))), O. apply IH; [intros; apply Hq; right; auto|]. rewrite H. unfold Qdiv. ring.
Qed.
Lemma ms_with ps qs es fs x : no_lsp_for s' d -> one_road s d -> d_path (h_dm s' d) = DPaths ps -> d_path (h_dm t' (fd d)) = DPaths qs ->
  d_detail (h_dm s' d) = PDInfo es -> d_detail (h_dm t' (fd d)) = PDInfo fs -> known_item x -> (with_item (item_to fi fl x) fs == c * with_item x es)%Q.
Proof.
  intros NL One P Q D F Hx. assert (NLt := proj1 NO NL). assert (X := ms_igp One NL). rewrite P, Q in X. destruct X as [X1 X2].
  destruct (C62_paths E s s' d ps HE WP KU RO NT Up Fs Hd NL P) as (_ & _ & _ & _ & _ & N1 & _).
  destruct (C62_paths E' t t' (fd d) qs HE' WPt KUt ROt NTt Up' Ft Hd' NLt Q) as (_ & _ & _ & _ & _ & N2 & _).
  destruct (C62_entries E s s' d ps HE WP KU RO NT Up Fs Hd NL P) as (es' & o1 & D' & O1 & S1 & _). assert (es' = es) by congruence. subst es'.
  destruct (C62_entries E' t t' (fd d) qs HE' WPt KUt ROt NTt Up' Ft Hd' NLt Q) as (fs' & o2 & F' & O2 & S2 & _). assert (fs' = fs) by congruence. subst fs'.
  assert (Kn : forall q y, In q ps -> In y q -> known_item y) by (intros q y; now apply ms_known).
  assert (PM : Permutation qs (map (map (item_to fi fl)) ps)).
  { apply NoDup_Permutation; auto.
    - apply nodup_map; auto. intros p q Hp Hq. apply (map_inj_on (item_to fi fl) known_item); [exact ms_inj|intros y; now apply Kn|intros y; now apply Kn].
    - intros q. rewrite in_map_iff. split; [intros Hq; destruct (X2 q Hq) as (p & Hp & ->); eauto|intros (p & <- & Hp); auto]. }
  assert (OO : forall n, List.length (o2 n) = List.length (o1 n)).
  { intros n. destruct (O1 n) as [A1 B1], (O2 n) as [A2 B2]. rewrite <- (map_length (item_to fi fl) (o1 n)). apply same_count; auto.
    - apply nodup_map; auto. intros a b Ha Hb. apply B1 in Ha as [_ (p & Hp & Ha)]. apply B1 in Hb as [_ (q & Hq & Hb)]. apply ms_inj; eauto.
    - intros y. rewrite B2, in_map_iff. split.
      + intros [H (q & Hq & Hy)]. destruct (X2 q Hq) as (p & Hp & ->). apply in_map_iff in Hy as (a & <- & Ha). exists a. split; [reflexivity|]. apply B1. rewrite ms_leaves in H by eauto. eauto.
      + intros (a & <- & Ha). apply B1 in Ha as [H (p & Hp & Ha)]. split; [rewrite ms_leaves; eauto|]. exists (map (item_to fi fl) p). split; [auto|now apply in_map]. }
  destruct Ends as (_ & _ & T).
  rewrite (with_sum x (item_divided s' o1 (d_traffic (h_dm s' d))) ps es), (with_sum (item_to fi fl x) (item_divided t' o2 (d_traffic (h_dm t' (fd d)))) qs fs).
  - rewrite (sumq_perm _ _ _ PM), sumq_map, <- sumq_scale. apply sumq_ext. intros q Hq. rewrite ms_has; [|exact Hx|intros y; now apply Kn]. destruct (existsb (same_item x) q); [|ring].
    apply ms_divided; auto. intros y. now apply Kn.
  - clear -S2. induction S2 as [|q e qs fs (A & _ & _ & B) S IH]; constructor; auto.
  - clear -S1. induction S1 as [|q e qs fs (A & _ & _ & B) S IH]; constructor; auto.
Qed.
Lemma ms_cross i l : In i (m_ifs s) -> In l (m_lsps s) -> sole_road s l -> crossings t' (fi i) [ILsp (fl l)] = crossings s' i [ILsp l].
Proof.
  intros Hi Hl So. destruct (MP l Hl) as [(p & p' & b & b' & q & q' & P & P' & Bp & Bp' & _)|(P & P' & _)].
  - rewrite (crossings_lsp _ _ _ _ _ _ P), (crossings_lsp _ _ _ _ _ _ P'). rewrite (So p' p Bp' Bp). apply (count_map fi (fun j => In j (m_ifs s))); auto. intros j Hj. exact (mt_on s _ _ _ (proj1 (proj1 Bp)) j Hj).
  - unfold crossings. simpl. now rewrite P, P'.
Qed.
Lemma ms_loads i x y : (c == 1)%Q -> In i (m_ifs s) -> (no_lsp_for s' d -> one_road s d) -> (forall ps q l, d_path (h_dm s' d) = DPaths ps -> In q ps -> In (ILsp l) q -> sole_road s l) ->
  demand_loads s' d i x -> demand_loads t' (fd d) (fi i) y -> (x == y)%Q.
Proof.
  intros Hc Hi One So A B. assert (SPd := ms_paths One). unfold demand_loads in A, B. destruct Ends as (_&_&T). rewrite Hc, Qmult_1_l in T.
  destruct (d_path (h_dm s' d)) as [|ps] eqn:P, (d_path (h_dm t' (fd d))) as [|qs] eqn:Q; try contradiction; [now rewrite A, B|].
  destruct A as (es & D & _ & A), B as (fs & F & _ & B). destruct Or as [H|N].
  - destruct A as [(_ & A)|(N & _)]; [|exfalso; destruct H as (l & Hl & (p & w & b & X)); rewrite (N l Hl) in X; discriminate].
    assert (H' := SO H). destruct B as [(_ & B)|(N & _)]; [|exfalso; destruct H' as (l & Hl & (p & w & b & X)); rewrite (N l Hl) in X; discriminate].
    destruct (C07_ride E Flex s s' d HE WP (lu_once _ _ LU) Up Fs Hd H) as (ls & es1 & _ & N1 & I1 & Q1 & D1 & P1 & T1 & _). assert (es1 = es) by congruence. subst es1.
    destruct (C07_ride E' Flex t t' (fd d) HE' WPt (lu_once _ _ LUt) Up' Ft Hd' H') as (ls' & es2 & _ & N2 & I2 & _ & D2 & P2 & T2 & _). assert (es2 = fs) by congruence. subst es2.
    rewrite A, B, (carried_ridden s' d i ls es P1 T1), (carried_ridden t' (fd d) (fi i) ls' fs P2 T2).
    assert (Il : forall l, In l ls -> In l (m_lsps s)). { intros l Hl. apply I1 in Hl. exact (in_lsp E Flex s s' Up d l (proj1 Hl)). }
    assert (PM : Permutation ls' (map fl ls)).
    { apply NoDup_Permutation; auto.
      - apply nodup_map; auto.
      - intros l'. rewrite in_map_iff, I2. split.
        + intros Hp. apply PB in Hp as (l & -> & _ & Hp). exists l. split; [reflexivity|]. now apply I1.
        + intros (l & <- & Hl). apply PR; auto. now apply I1. }
    unfold ridden. rewrite (Qsum_perm _ _ (Permutation_map _ PM)). unfold count. rewrite (Permutation_length PM), map_length, map_map.
    change (sumq (fun l => d_traffic (h_dm s' d) / inject_Z (Z.of_nat (List.length ls)) * inject_Z (Z.of_nat (crossings s' i [ILsp l])))%Q ls ==
            sumq (fun l => d_traffic (h_dm t' (fd d)) / inject_Z (Z.of_nat (List.length ls)) * inject_Z (Z.of_nat (crossings t' (fi i) [ILsp (fl l)])))%Q ls)%Q.
    apply sumq_ext. intros l Hl. rewrite T, (ms_cross i l Hi (Il l Hl)); [reflexivity|].
    assert (e : DPaths ps = DPaths (map (fun l => [ILsp l]) ls)) by congruence. injection e as e. apply (So ps [ILsp l] l eq_refl); [rewrite e; apply in_map_iff; eauto|left; auto].
  - destruct A as [((l & Hl & (p & w & b & X)) & _)|(_ & ls & f & N1 & I1 & F1 & A)]; [rewrite (N l Hl) in X; discriminate|].
    assert (Nt := proj1 NO N). destruct B as [((l & Hl & (p & w & b & X)) & _)|(_ & ls' & g & N2 & I2 & F2 & B)]; [rewrite (Nt l Hl) in X; discriminate|].
    destruct SPd as [Y1 Y2]. assert (Il : forall l, In l ls -> In l (m_lsps s)). { intros l Hl. apply I1 in Hl as (q & Hq & Hl). exact (ms_known ps q (ILsp l) N P Hq Hl). }
    assert (PM : Permutation ls' (map fl ls)).
    { apply NoDup_Permutation; auto.
      - apply nodup_map; auto.
      - intros l'. rewrite in_map_iff, I2. split.
        + intros (q & Hq & Hl). destruct (Y2 q Hq) as (p & Hp & ->). apply in_map_iff in Hl as ([j|l] & e & Hl); [discriminate|]. injection e as <-. exists l. split; [reflexivity|]. apply I1. eauto.
        + intros (l & <- & Hl). apply I1 in Hl as (p & Hp & Hl). exists (map (item_to fi fl) p). split; [auto|]. apply in_map_iff. exists (ILsp l). auto. }
    assert (W : forall x, known_item x -> (with_item (item_to fi fl x) fs == with_item x es)%Q). { intros w Hw. rewrite (ms_with ps qs es fs w N (One N) P Q D F Hw), Hc. ring. }
    rewrite A, B. rewrite <- (W (IIf i) Hi). change (item_to fi fl (IIf i)) with (IIf (fi i)). apply Qplus_comp; [reflexivity|].
    rewrite (Qsum_perm _ _ (Permutation_map _ PM)), map_map.
    change (sumq (fun l => inject_Z (Z.of_nat (crossings s' i [ILsp l])) * f l)%Q ls == sumq (fun l => inject_Z (Z.of_nat (crossings t' (fi i) [ILsp (fl l)])) * g (fl l))%Q ls)%Q.
    apply sumq_ext. intros l Hl. rewrite (ms_cross i l Hi (Il l Hl)).
    + assert (X1 := F1 l Hl). assert (X2 : rounds 10 (with_item (ILsp (fl l)) fs) (g (fl l))) by (apply F2; apply (Permutation_in _ (Permutation_sym PM)); now apply in_map). apply rounds_unique in X1.
      apply (rounds_compat _ _ _ _ _ (W (ILsp l) (Il l Hl)) (Qeq_refl _)) in X2. apply rounds_unique in X2. now rewrite X1, X2.
    + apply I1 in Hl as (q & Hq & Hl). exact (So ps q l eq_refl Hq Hl).
Qed.
End Demand.

Lemma ms_traffic i : (c == 1)%Q -> In i (m_ifs s) -> (forall d, In d (m_dms s) -> no_lsp_for s' d -> one_road s d) ->
  (forall d ps q l, In d (m_dms s) -> d_path (h_dm s' d) = DPaths ps -> In q ps -> In (ILsp l) q -> sole_road s l) -> same_traffic (i_traffic (h_if s' i)) (i_traffic (h_if t' (fi i))).
Proof.
  intros Hc Hi One So. assert (Hit := mt_in z c fi fd fl s t M i Hi). destruct (mt_if _ _ _ _ _ _ _ M i Hi) as (_&_&_&Fe&_).
  assert (A := C69_traffic E s s' i HE WP KU RO NT Up Fs Hi). assert (B := C69_traffic E' t t' (fi i) HE' WPt KUt ROt NTt Up' Ft Hit).
  rewrite (Fs i Hi) in A. rewrite (Ft (fi i) Hit), Fe in B.
  destruct (i_failed (h_if s i)); [now rewrite A, B|]. destruct A as (q & f & -> & A1 & A2), B as (r & g & -> & B1 & B2). simpl. rewrite A2, B2.
  destruct (fin_sets E Flex s s' Up) as (_&_&Ds&_), (fin_sets E' Flex t t' Up') as (_&_&Dt&_). rewrite Ds, Dt in *.
  change (sumq f (m_dms s) == sumq g (m_dms t))%Q. rewrite <- (sumq_perm _ _ _ (mt_dms _ _ _ _ _ _ _ M)), sumq_map. apply sumq_ext. intros d Hd.
  apply (ms_loads d Hd i); auto; [intros ps q' l; now apply So|]. apply B1. exact (mt_din z c fi fd fl s t M d Hd).
Qed.
End Short.
