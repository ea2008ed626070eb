(** ShortProofs.v - what find_igp_shortcuts makes of the least-cost routes. *)
From Verif Require Import Base Graph Objects Sim Spec SpecCkt SpecSim SpecMetric SpecFlow SpecShort GraphProofs MonadProofs RoundProofs ResProofs ObjProofs CircuitProofs
  ValidateProofs GroupProofs PathProofs QuietProofs RouteProofs LeastProofs IgpProofs Ecmp TrafficProofs ShareProofs SpecSig SigUpdate MetricProofs ShortPaths.

(** *** lists of names *)
Lemma index_here x n y : ~ In n x -> index_of n (x ++ n :: y) = Some (List.length x).
Proof.
  induction x as [|m x IH]; simpl; intros H; [now rewrite String.eqb_refl|]. destruct (String.eqb_spec m n) as [E|_]; [subst; tauto|]. rewrite IH by tauto. reflexivity.
Qed.
Lemma NoDup_mid {A} (x : list A) n y : NoDup (x ++ n :: y) -> ~ In n x /\ ~ In n y.
Proof. intros N. apply NoDup_remove_2 in N. split; intros H; apply N; apply in_or_app; auto. Qed.

Lemma NoDup_snoc' {A} (l : list A) x : NoDup l -> ~ In x l -> NoDup (l ++ [x]).
Proof. intros N H. apply NoDup_rev in N. rewrite <- (rev_involutive (l ++ [x])). apply NoDup_rev. rewrite rev_app_distr. simpl. constructor; auto. now rewrite <- in_rev. Qed.

Section Walk.
Variables (E : env) (k : kind) (s2 s : st).
Hypothesis ND2 : m_nds s2 = m_nds s.
Hypothesis HN2 : h_nd s2 = h_nd s.
Hypothesis NN : NoDup (map (nd_name s) (m_nds s)).
Hypothesis LD : forall l, ldst s2 l = lsp_to s l.
(** what min_metric_lsps returns *)
Hypothesis Min : forall n m ls, In n (map (nd_name s) (m_nds s)) -> In m (map (nd_name s) (m_nds s)) ->
  snd (min_metric_lsps E k (pair_key n m) s2) = Ok ls -> NoDup ls /\ (forall l, In l ls <-> least_metric s n m l) /\ (ls = [] -> ~ tunnel s n m).

Lemma least_tunnel n m l : least_metric s n m l -> tunnel s n m.
Proof. intros ((A & B & C) & D & _). exists l. auto. Qed.

Lemma first_spec n ds ls : In n (map (nd_name s) (m_nds s)) -> (forall m, In m ds -> In m (map (nd_name s) (m_nds s))) ->
  snd (first_lsps E k n ds s2) = Ok ls ->
  (ls = [] /\ forall m, In m ds -> ~ tunnel s n m) \/
  (ls <> [] /\ NoDup ls /\ exists x m y, ds = x ++ m :: y /\ (forall z, In z x -> ~ tunnel s n z) /\ tunnel s n m /\ forall l, In l ls <-> least_metric s n m l).
Proof.
  intros Hn. revert ls. induction ds as [|d ds IH]; intros ls Hd H; [left; simpl in H; injection H as <-; split; auto|]. cbn [first_lsps] in H.
  rewrite (Qv_bind E) in H; [|apply Qm_min_metric|intros [|]; [apply Qm_first|apply Qm_ret]].
  destruct (snd (min_metric_lsps E k (pair_key n d) s2)) as [l0|e] eqn:M; cbn [rbind] in H; [|discriminate].
  destruct (Min n d l0 Hn (Hd d (or_introl eq_refl)) M) as (M1 & M2 & M3). destruct l0 as [|a l0].
  - specialize (M3 eq_refl). destruct (IH ls (fun m X => Hd m (or_intror X)) H) as [[-> A]|(A & B & x & m & y & -> & C & D & F)].
    + left. split; auto. intros m [<-|Hm]; auto.
    + right. split; [exact A|]. split; [exact B|]. exists (d :: x), m, y. split; [reflexivity|]. split; [|auto]. intros z [<-|Hz]; auto.
  - right. simpl in H. injection H as <-. split; [discriminate|]. split; [exact M1|]. exists [], d, ds. split; [reflexivity|]. split; [intros _ []|]. split; [|exact M2].
    apply (least_tunnel n d a). apply M2. left; auto.
Qed.

Lemma skip_run full t b acc : forall a pre, full = pre ++ a ++ t :: b -> NoDup full ->
  path_lsps E k full (a ++ t :: b) (Some t) acc s2 = path_lsps E k full (t :: b) (Some t) acc s2.
Proof.
  induction a as [|n a IH]; intros pre Ef N; [reflexivity|]. rewrite <- (IH (pre ++ [n])); [|rewrite <- app_assoc; exact Ef|exact N].
  change ((n :: a) ++ t :: b) with (n :: (a ++ t :: b)). cbn [path_lsps].
  assert (I1 : index_of n full = Some (List.length pre)) by (rewrite Ef; apply index_here; rewrite Ef in N; apply (NoDup_mid _ _ _ N)).
  assert (I2 : index_of t full = Some (List.length (pre ++ n :: a))).
  { replace full with ((pre ++ n :: a) ++ t :: b) by (rewrite Ef, <- app_assoc; reflexivity). apply index_here.
    assert (N' : NoDup ((pre ++ n :: a) ++ t :: b)) by (rewrite <- app_assoc; now rewrite <- Ef). apply (NoDup_mid _ _ _ N'). }
  rewrite I1, I2. rewrite bind_ret. assert (L : Nat.ltb (List.length pre) (List.length (pre ++ n :: a)) = true) by (apply Nat.ltb_lt; rewrite app_length; simpl; lia).
  rewrite L. reflexivity.
Qed.

Lemma shortcut_flag n x : In x (m_nds s) -> nd_name s x = n -> (shortcut_node s n <-> n_shortcuts (h_nd s x) = true).
Proof.
  intros Hx Nx. split; [|intros H; exists x; auto]. intros (y & Hy & Ny & F). assert (y = x) by (apply (NoDup_map_inj (nd_name s) (m_nds s)); auto; congruence). now subst.
Qed.

Lemma path_lsps_spec full : NoDup full -> (forall n, In n full -> In n (map (nd_name s) (m_nds s))) ->
  forall len rest, (List.length rest <= len)%nat -> forall pre sk acc r, full = pre ++ rest -> rest <> [] ->
  (sk = None \/ exists t x y, sk = Some t /\ full = x ++ t :: y /\ (List.length x <= List.length pre)%nat) ->
  snd (path_lsps E k full rest sk acc s2) = Ok r -> exists gs, r = acc ++ gs /\ picks s rest gs.
Proof.
  intros NF KF. induction len as [|len IH]; intros rest Le pre sk acc r Ef Ne Sk H; [destruct rest; [congruence|simpl in Le; lia]|].
  destruct rest as [|n tl]; [congruence|]. cbn [path_lsps] in H.
  assert (I1 : index_of n full = Some (List.length pre)) by (rewrite Ef; apply index_here; rewrite Ef in NF; apply (NoDup_mid _ _ _ NF)).
  assert (SK : (match sk with None => ret false | Some t => match index_of n full, index_of t full with Some a, Some b => ret (Nat.ltb a b) | _, _ => raise ValueError end end : M bool) = ret false).
  { destruct Sk as [->|(t & x & y & -> & Ex & Lx)]; [reflexivity|]. rewrite I1.
    assert (I2 : index_of t full = Some (List.length x)) by (rewrite Ex; apply index_here; rewrite Ex in NF; apply (NoDup_mid _ _ _ NF)). rewrite I2.
    destruct (Nat.ltb_spec (List.length pre) (List.length x)); [lia|reflexivity]. }
  rewrite SK, bind_ret in H. clear SK. cbv iota in H. unfold bind at 1 in H. unfold reads at 1 in H. assert (G := get_node_spec s2 n).
  destruct (get_node s2 n) as [nd|e]; [|discriminate H]. destruct G as [G1 G2]. unfold nd_name in G2. rewrite HN2 in G2. rewrite ND2 in G1. rewrite bind_gets, HN2 in H.
  assert (SF := shortcut_flag n nd G1 G2).
  assert (Kn : In n (map (nd_name s) (m_nds s))) by (apply KF; rewrite Ef; apply in_or_app; right; left; auto).
  assert (Ef2 : full = (pre ++ [n]) ++ tl) by (rewrite Ef, <- app_assoc; reflexivity).
  assert (Lp : (List.length pre <= List.length (pre ++ [n]))%nat) by (rewrite app_length; lia).
  assert (Step : snd (path_lsps E k full tl sk acc s2) = Ok r -> (shortcut_node s n -> forall x, In x tl -> ~ tunnel s n x) ->
                 exists gs, r = acc ++ gs /\ picks s (n :: tl) gs).
  { intros H0 No. destruct tl as [|m b]; [exists []; simpl in H0; injection H0 as <-; split; [now rewrite app_nil_r|constructor]|].
    destruct (IH (m :: b)) with (pre := pre ++ [n]) (sk := sk) (acc := acc) (r := r) as (gs & A & B); auto; [simpl in *; lia|discriminate| |].
    - destruct Sk as [->|(t & x & y & -> & Ex & Lx)]; [auto|]. right. exists t, x, y. repeat split; auto. lia.
    - exists gs. split; auto. constructor; auto. }
  destruct (n_shortcuts (h_nd s nd)) eqn:SC.
  2:{ apply Step; auto. intros X. apply SF in X. discriminate. }
  rewrite bind_gets, HN2, G2 in H. rewrite (Qv_bind E) in H; [|apply Qm_first|].
  2:{ intros [|l ls]; [apply Qm_path_lsps|]. apply Qm_bind; [apply Qm_gets; intros; now apply (rs_ldst E)|intros; apply Qm_path_lsps]. }
  rewrite I1 in H. assert (Sk' : skipn (S (List.length pre)) full = tl).
  { rewrite Ef2. apply skipn_app_len. rewrite app_length. simpl. lia. }
  rewrite Sk' in H.
  destruct (snd (first_lsps E k n (rev tl) s2)) as [ls|e] eqn:F; cbn [rbind] in H; [|discriminate].
  apply first_spec in F; auto.
  2:{ intros m Hm. apply KF. rewrite Ef. apply in_or_app. right. right. now apply in_rev. }
  destruct F as [[-> No]|(Nl & NDl & x & m & y & Er & Far & Tu & Lm)].
  - apply Step; auto. intros _ z Hz. apply No. now apply -> in_rev.
  - destruct ls as [|l ls0] eqn:Els; [congruence|]. rewrite <- Els in *. rewrite bind_gets in H.
    assert (Ll : least_metric s n m l) by (apply Lm; rewrite Els; left; auto).
    assert (Ed : ldst s2 l = m) by (rewrite LD; apply Ll). rewrite Ed in H.
    assert (Et : tl = rev y ++ m :: rev x) by (rewrite <- (rev_involutive tl), Er, rev_app_distr; simpl; rewrite <- app_assoc; reflexivity).
    rewrite Et in H. rewrite (skip_run full m (rev x) (acc ++ [ls]) (rev y) (pre ++ [n])) in H; [|rewrite <- Et; exact Ef2|exact NF].
    destruct (IH (m :: rev x)) with (pre := (pre ++ [n]) ++ rev y) (sk := Some m) (acc := acc ++ [ls]) (r := r) as (gs & A & B); auto.
    + rewrite Et in Le. simpl in Le. rewrite app_length in Le. simpl in Le. simpl. lia.
    + rewrite Ef2, Et, <- !app_assoc. reflexivity.
    + discriminate.
    + right. exists m, ((pre ++ [n]) ++ rev y), (rev x). repeat split; auto. rewrite Ef2, Et, <- !app_assoc. reflexivity.
    + exists (ls :: gs). split; [rewrite A, <- app_assoc; reflexivity|]. rewrite Et. apply picks_jump; auto.
      * apply SF. reflexivity.
      * intros z Hz. apply Far. now apply in_rev.
Qed.

Lemma last_value nps : nps <> [] -> forall acc r, snd (last_path_lsps E k nps acc s2) = Ok r ->
  exists np, In np nps /\ snd (path_lsps E k np np None [] s2) = Ok r.
Proof.
  induction nps as [|np nps IH]; [congruence|]. intros _ acc r H. cbn [last_path_lsps] in H.
  rewrite (Qv_bind E) in H; [|apply Qm_path_lsps|intros; apply Qm_last]. destruct (snd (path_lsps E k np np None [] s2)) as [x|e] eqn:P; cbn [rbind] in H; [|discriminate].
  destruct nps as [|np' nps].
  - simpl in H. injection H as <-. exists np. split; [left; auto|auto].
  - destruct (IH ltac:(discriminate) x r H) as (q & A & B). exists q. split; auto. right; auto.
Qed.
End Walk.

(** *** collecting the substituted paths *)
Section Collect.
Variables (s2 : st) (good : list item -> Prop).
Hypothesis Eqb : forall q q', good q -> good q' -> (items_eqb s2 q q' = true <-> q = q').

Lemma add_new fps : forall acc, (forall q, In q acc -> good q) -> (forall q, In q fps -> good q) -> NoDup acc ->
  let r := fold_left (fun acc q => if existsb (items_eqb s2 q) acc then acc else acc ++ [q]) fps acc in
  NoDup r /\ (forall q, In q r <-> In q acc \/ In q fps).
Proof.
  induction fps as [|q fps IH]; intros acc Ga Gf N; simpl; [split; [auto|tauto]|].
  assert (X : existsb (items_eqb s2 q) acc = true <-> In q acc).
  { rewrite existsb_exists. split.
    - intros (q' & H1 & H2). apply Eqb in H2; [now subst|apply Gf; left; auto|auto].
    - intros H. exists q. split; auto. apply Eqb; auto; apply Gf; left; auto. }
  destruct (existsb (items_eqb s2 q) acc).
  - destruct (IH acc Ga (fun q' H => Gf q' (or_intror H)) N) as [A B]. split; [exact A|]. intros q'. rewrite B. split; [tauto|]. intros [H|[<-|H]]; auto. left. now apply X.
  - destruct (IH (acc ++ [q])) as [A B].
    + intros q' H. apply in_app_or in H as [H|[<-|[]]]; auto. apply Gf. left; auto.
    + intros q' H. apply Gf. right; auto.
    + apply NoDup_snoc'; auto. intros H. apply X in H. discriminate.
    + split; [exact A|]. intros q'. rewrite B, in_app_iff. simpl. tauto.
Qed.
End Collect.

Lemma rides_items s p gs q : rides s p gs q -> forall x, In x q -> match x with IIf i => In i p | ILsp l => exists g, In g gs /\ In l g end.
Proof.
  induction 1 as [|i p gs q R IH|i p j p' ls l gs q B1 B2 B3 Hl R IH]; intros x Hx; [destruct Hx| |].
  - destruct Hx as [<-|Hx]; [left; auto|]. specialize (IH x Hx). destruct x; auto. right; auto.
  - destruct Hx as [<-|Hx]; [exists ls; split; auto; left; auto|]. specialize (IH x Hx). destruct x as [i'|l'].
    + right. apply in_or_app. auto.
    + destruct IH as (g & A & B). exists g. split; auto. right; auto.
Qed.
Lemma rides_has_lsp s p gs q : rides s p gs q -> gs <> [] -> exists l, In (ILsp l) q.
Proof.
  induction 1 as [|i p gs q R IH|i p j p' ls l gs q B1 B2 B3 Hl R IH]; intros Ne; [congruence| |].
  - destruct (IH Ne) as (l & H). exists l. right; auto.
  - exists l. left; auto.
Qed.
Lemma if_path_no_lsp p l : ~ In (ILsp l) (if_path p).
Proof. intros H. apply in_map_iff in H as (i & H & _). discriminate. Qed.
Lemma if_path_inj p p' : if_path p = if_path p' -> p = p'.
Proof. revert p'. induction p as [|i p IH]; intros [|j p'] H; try discriminate; auto. simpl in H. injection H as -> H. f_equal. auto. Qed.

Section Subst.
Variables (s2 s : st) (gs : list (list nat)).
Let good (q : list item) : Prop := forall i, In (IIf i) q -> In i (m_ifs s).
Hypothesis Eqb : forall q q', good q -> good q' -> (items_eqb s2 q q' = true <-> q = q').
Hypothesis Ne : gs <> [].
Definition outcome (p : list nat) (q : list item) : Prop := rides s p gs q \/ (q = if_path p /\ forall q', ~ rides s p gs q').

Lemma collect_spec L : NoDup L -> (forall p i, In p L -> In i p -> In i (m_ifs s)) ->
  (forall p, In p L -> match insert_lsps s2 gs (if_path p) with Some fps => forall q, In q fps <-> rides s p gs q | None => forall q, ~ rides s p gs q end) ->
  (forall p, In p L -> insert_lsps s2 gs (if_path p) <> None -> exists q, rides s p gs q) ->
  forall acc, NoDup acc -> (forall q, In q acc -> good q) -> (forall p, In p L -> ~ In (if_path p) acc) ->
  let r := fold_left (fun acc p => match insert_lsps s2 gs p with
        | Some fps => fold_left (fun acc q => if existsb (items_eqb s2 q) acc then acc else acc ++ [q]) fps acc
        | None => acc ++ [p] end) (map if_path L) acc in
  NoDup r /\ forall q, In q r <-> In q acc \/ exists p, In p L /\ outcome p q.
Proof.
  induction L as [|p L IH]; intros NL HL Ins Ex acc Na Ga Da; simpl.
  - split; auto. intros q. split; auto. intros [H|(p & [] & _)]. exact H.
  - inversion NL as [|? ? N1 N2]; subst. assert (I := Ins p (or_introl eq_refl)). assert (X := Ex p (or_introl eq_refl)). fold (if_path p).
    assert (HL' : forall p i, In p L -> In i p -> In i (m_ifs s)) by (intros; eapply HL; [right|]; eauto).
    assert (Ins' := fun p0 H => Ins p0 (or_intror H)). assert (Ex' := fun p0 H => Ex p0 (or_intror H)).
    destruct (insert_lsps s2 gs (if_path p)) as [fps|].
    + assert (Gf : forall q, In q fps -> good q).
      { intros q Hq i Hi. apply I in Hq. apply (rides_items _ _ _ _ Hq) in Hi. apply (HL p); auto. left; auto. }
      destruct (add_new s2 good Eqb fps acc Ga Gf Na) as [A1 A2]. 
      destruct (IH N2 HL' Ins' Ex' _ A1) as [B1 B2].
      * intros q Hq. apply A2 in Hq as [Hq|Hq]; auto.
      * intros p' Hp' Hin. apply A2 in Hin as [Hin|Hin]; [apply (Da p'); auto; right; auto|]. apply I in Hin.
        destruct (rides_has_lsp _ _ _ _ Hin Ne) as (l & Hl). now apply (if_path_no_lsp p' l).
      * split; [exact B1|]. intros q. rewrite B2, A2. split.
        -- intros [[H|H]|(p' & H1 & H2)]; [auto| |right; exists p'; auto]. right. exists p. split; [auto|]. left. now apply I.
        -- intros [H|(p' & [<-|H1] & H2)]; [auto| |right; exists p'; auto]. left. right. apply I. destruct H2 as [H2|[_ H2]]; auto.
           destruct (X ltac:(discriminate)) as (q' & Hq'). destruct (H2 q' Hq').
    + assert (A1 : NoDup (acc ++ [if_path p])) by (apply NoDup_snoc'; auto; apply Da; left; auto).
      destruct (IH N2 HL' Ins' Ex' _ A1) as [B1 B2].
      * intros q Hq. apply in_app_or in Hq as [Hq|[<-|[]]]; auto. intros i Hi. apply in_map_iff in Hi as (j & Hj & Hi). injection Hj as ->. apply (HL p); auto. left; auto.
      * intros p' Hp' Hin. apply in_app_or in Hin as [Hin|[Hin|[]]]; [apply (Da p'); auto; right; auto|]. apply if_path_inj in Hin. now subst.
      * split; [exact B1|]. intros q. rewrite B2, in_app_iff. split.
        -- intros [[H|[<-|[]]]|(p' & H1 & H2)]; [auto| |right; exists p'; auto]. right. exists p. split; [auto|]. right. auto.
        -- intros [H|(p' & [<-|H1] & H2)]; [auto| |right; exists p'; auto]. left. right. left. destruct H2 as [H2|[-> _]]; auto. destruct (I q H2).
Qed.
End Subst.

(** *** _inspect_for_lsp_metrics *)
Lemma rmap_all {A B} (f : A -> res B) l ys : rmap f l = Ok ys -> Forall2 (fun x y => f x = Ok y) l ys.
Proof.
  revert ys. induction l as [|x l IH]; simpl; intros ys H; [injection H as <-; constructor|].
  apply rbind_ok in H as (y & Hy & H). apply rbind_ok in H as (zs & Hz & H). injection H as <-. constructor; auto.
Qed.

Section Inspect.
Variables (E : env) (k : kind) (s2 : st).
Lemma inspect_spec ps r : snd (inspect_metrics E k ps s2) = Ok r ->
  (forall q, In q ps -> exists c, snd (path_metric E k q s2) = Ok c) /\
  (forall q, In q r <-> In q ps /\ forall q' c c', In q' ps -> snd (path_metric E k q s2) = Ok c -> snd (path_metric E k q' s2) = Ok c' -> c <= c') /\
  (NoDup ps -> NoDup r) /\ (ps <> [] -> r <> []).
Proof.
  unfold inspect_metrics. 
  assert (QP : forall q, Qm E (m <- path_metric E k q ;; ret (q, m))) by (intros; apply Qm_bind; [apply Qm_path_metric|intros; apply Qm_ret]).
  rewrite (Qv_bind E); [|apply Qm_mmap; intros; apply QP|intros pms; destruct (Zmin_list _); apply Qm_ret].
  rewrite (Qv_mmap E); [|intros; apply QP]. 
  rewrite (rmap_ext _ (fun q => rbind (snd (path_metric E k q s2)) (fun m => Ok (q, m)))).
  2:{ intros q _. rewrite (Qv_bind E); [reflexivity|apply Qm_path_metric|intros; apply Qm_ret]. }
  intros H. apply rbind_ok in H as (pms & M & H). apply rmap_all in M.
  assert (F : Forall2 (fun q pm => fst pm = q /\ snd (path_metric E k q s2) = Ok (snd pm)) ps pms).
  { clear - M. induction M as [|q pm ps pms H M IH]; constructor; auto. apply rbind_ok in H as (m & H1 & H2). injection H2 as <-. auto. }
  clear M. assert (F1 : forall q, In q ps -> exists pm, In pm pms /\ fst pm = q /\ snd (path_metric E k q s2) = Ok (snd pm)).
  { clear - F. induction F as [|q pm ps pms H F IH]; intros q0 Hq; [destruct Hq|]. destruct Hq as [<-|Hq]; [exists pm; split; [left; auto|auto]|].
    destruct (IH q0 Hq) as (pm' & A & B). exists pm'. split; auto. right; auto. }
  assert (F2 : forall pm, In pm pms -> In (fst pm) ps /\ snd (path_metric E k (fst pm) s2) = Ok (snd pm)).
  { clear - F. induction F as [|q pm ps pms [H1 H2] F IH]; intros pm0 Hq; [destruct Hq|]. destruct Hq as [<-|Hq]; [subst q; split; [left; auto|auto]|].
    destruct (IH pm0 Hq) as [A B]. split; auto. right; auto. }
  assert (FN : map fst pms = ps) by (clear - F; induction F as [|q pm ps pms [H1 H2] F IH]; simpl; congruence).
  split; [|split; [|split]].
  - intros q Hq. destruct (F1 q Hq) as (pm & _ & _ & A). eauto.
  - destruct (Zmin_list (map snd pms)) as [lo|] eqn:Z.
    + apply Zmin_list_some in Z as [Z1 Z2]. simpl in H. injection H as <-. intros q. rewrite in_map_iff. split.
      * intros (pm & <- & Hp). apply filter_In in Hp as [Hp Hz]. apply Z.eqb_eq in Hz. destruct (F2 pm Hp) as [A B]. split; [exact A|].
        intros q' c c' Hq' C C'. rewrite B in C. injection C as <-. destruct (F1 q' Hq') as (pm' & A' & _ & B'). rewrite B' in C'. injection C' as <-.
        rewrite Hz. apply Z2. now apply in_map.
      * intros [Hq Mn]. destruct (F1 q Hq) as (pm & A & A2 & B). exists pm. split; [exact A2|]. apply filter_In. split; [exact A|]. apply Z.eqb_eq.
        apply in_map_iff in Z1 as (pm' & <- & Hp'). destruct (F2 pm' Hp') as [A' B']. apply Z.le_antisymm; [apply (Mn _ _ _ A' B B')|]. apply Z2. now apply in_map.
    + simpl in H. injection H as <-. assert (Em : ps = []).
      { destruct pms as [|pm pms]; [auto|]. exfalso. unfold Zmin_list in Z. simpl in Z. discriminate. }
      rewrite Em. simpl. intros q. tauto.
  - intros N. rewrite <- FN in N. destruct (Zmin_list (map snd pms)) as [lo|]; simpl in H; injection H as <-; [|now rewrite <- FN].
    clear - N. induction pms as [|pm pms IH]; [constructor|]. simpl in N. inversion N as [|? ? N1 N2]; subst. simpl. destruct (Z.eqb (snd pm) lo); auto. simpl. constructor; auto.
    intros C. apply N1. apply in_map_iff in C as (x & <- & Hx). apply filter_In in Hx as [Hx _]. now apply in_map.
  - intros Ne. destruct (Zmin_list (map snd pms)) as [lo|] eqn:Z; simpl in H; injection H as <-; [|auto].
    apply Zmin_list_some in Z as [Z1 _]. apply in_map_iff in Z1 as (pm & A & B). intros C.
    assert (X : In (fst pm) []) by (rewrite <- C; apply in_map; apply filter_In; split; auto; apply Z.eqb_eq; auto). destruct X.
Qed.
End Inspect.

Lemma path_cost_fun s q c c' : path_cost s q c -> path_cost s q c' -> c = c'.
Proof.
  intros H. revert c'. induction H as [|i q c H IH|l m q c M H IH]; intros c' H'; inversion H' as [|? ? ? X|? ? ? ? Y X]; subst; auto.
  - f_equal. auto.
  - f_equal; auto. assert (Z := metric_fun _ _ _ _ M Y). congruence.
Qed.
Lemma if_path_cost s p : path_cost s (if_path p) (route_cost s p).
Proof. induction p as [|i p IH]; simpl; constructor; auto. Qed.

Section Done.
Variable E : env.
Hypothesis HE : env_ok E.
Variables s s1 s2 s3 s4 s' : st.
Hypothesis Sm : simulated E Flex s s1 s2 s3 s4 s'.
Hypothesis WP : well_posed s.
Hypothesis Up : update_simulation E Flex s = (s', Ok tt).
Hypothesis St : same_failures s s'.
Hypothesis KU : keys_unique s.
Hypothesis RO : refs_ok s.
Hypothesis NT : node_texts s.
Let N : NoDup (m_ifs s) := proj1 WP.
Let Cost : forall i, In i (m_ifs s) -> 1 <= i_cost (h_if s i) := proj1 (proj2 WP).
Let TD := proj2 (proj2 WP).

(** names and lists at the end *)
Lemma sh_lists : m_lsps s2 = m_lsps s /\ m_lsps s' = m_lsps s /\ m_nds s' = m_nds s /\ m_nds s2 = m_nds s /\ h_nd s' = h_nd s /\ h_nd s2 = h_nd s /\ m_ifs s' = m_ifs s /\ m_ifs s2 = m_ifs s.
Proof.
  destruct (sm_12 _ _ _ _ _ _ _ _ Sm) as (A1 & A2 & A3 & A4 & A5 & _). destruct (sm_lsps' _ _ _ _ _ _ _ _ Sm HE N) as (B1 & B2 & B3 & B4).
  repeat split; try congruence. assert (SN := sm_same_net E Flex HE _ _ _ _ _ _ Sm N St). rewrite (sn_ifs _ _ SN). exact A2.
Qed.
Lemma sh_ls l : l_src (h_ls s2 l) = l_src (h_ls s l) /\ l_dst (h_ls s2 l) = l_dst (h_ls s l).
Proof. destruct (sm_12 _ _ _ _ _ _ _ _ Sm) as (_ & _ & _ & _ & _ & _ & A7 & _). destruct (A7 l) as (p & a & b & ->). auto. Qed.
Lemma sh_if i : i_node (h_if s2 i) = i_node (h_if s i) /\ i_rem (h_if s2 i) = i_rem (h_if s i) /\ i_cost (h_if s2 i) = i_cost (h_if s i).
Proof. destruct (sm_12 _ _ _ _ _ _ _ _ Sm) as (_ & _ & _ & _ & _ & A6 & _). destruct (A6 i) as (t & q & ->). auto. Qed.
Lemma sh_from l : lsp_from s' l = lsp_from s l.
Proof. rewrite (sm_lfrom _ _ _ _ _ _ _ _ Sm) by auto. unfold lsrc, lsp_from. destruct sh_lists as (_ & _ & _ & _ & _ & -> & _). now rewrite (proj1 (sh_ls l)). Qed.
Lemma sh_to l : lsp_to s' l = lsp_to s l.
Proof. rewrite (sm_lto _ _ _ _ _ _ _ _ Sm) by auto. unfold ldst, lsp_to. destruct sh_lists as (_ & _ & _ & _ & _ & -> & _). now rewrite (proj2 (sh_ls l)). Qed.
Lemma sh_loc i : loc s' i = loc s i /\ rem s' i = rem s i /\ i_cost (h_if s' i) = i_cost (h_if s i).
Proof.
  assert (SN := sm_same_net E Flex HE _ _ _ _ _ _ Sm N St). rewrite (sn_loc _ _ SN), (sn_rem _ _ SN), (sn_cost _ _ SN).
  destruct (sh_if i) as (A & B & C). unfold loc, rem. destruct sh_lists as (_ & _ & _ & _ & _ & -> & _). now rewrite A, B, C.
Qed.
Lemma sh_cost' i : In i (m_ifs s') -> 1 <= i_cost (h_if s' i).
Proof. destruct sh_lists as (_ & _ & _ & _ & _ & _ & -> & _). destruct (sh_loc i) as (_ & _ & ->). apply Cost. Qed.

Lemma node_same a b : In a (m_nds s) -> In b (m_nds s) -> node_eqb s2 a b = String.eqb (n_name (h_nd s a)) (n_name (h_nd s b)).
Proof.
  intros Ha Hb. destruct (String.eqb_spec (n_name (h_nd s a)) (n_name (h_nd s b))) as [Q|Q].
  - assert (a = b) by (apply (NoDup_map_inj (nd_name s) (m_nds s)); auto; apply KU). subst. apply node_eqb_refl.
  - apply not_true_is_false. intros H. apply node_eqb_name in H. unfold nd_name in H. destruct sh_lists as (_ & _ & _ & _ & _ & X & _). rewrite X in H. auto.
Qed.
Lemma sh_eq1 i l : In i (m_ifs s') -> In l (m_lsps s') -> node_eqb s2 (i_node (h_if s2 i)) (l_src (h_ls s2 l)) = String.eqb (loc s' i) (lsp_from s' l).
Proof.
  destruct sh_lists as (_ & -> & _ & _ & _ & _ & -> & _). intros Hi Hl. destruct (sh_if i) as (-> & _). rewrite (proj1 (sh_ls l)).
  destruct (sh_loc i) as (-> & _). rewrite sh_from. apply node_same; apply RO; auto.
Qed.
Lemma sh_eq2 i l : In i (m_ifs s') -> In l (m_lsps s') -> node_eqb s2 (i_rem (h_if s2 i)) (l_dst (h_ls s2 l)) = String.eqb (rem s' i) (lsp_to s' l).
Proof.
  destruct sh_lists as (_ & -> & _ & _ & _ & _ & -> & _). intros Hi Hl. destruct (sh_if i) as (_ & -> & _). rewrite (proj2 (sh_ls l)).
  destruct (sh_loc i) as (_ & -> & _). rewrite sh_to. apply node_same; apply RO; auto.
Qed.

(** min_metric_lsps finds the least-metric routed LSPs between two nodes *)
Lemma sm_min n m ls : In n (map (nd_name s) (m_nds s)) -> In m (map (nd_name s) (m_nds s)) ->
  snd (min_metric_lsps E Flex (pair_key n m) s2) = Ok ls -> NoDup ls /\ (forall l, In l ls <-> least_metric s' n m l) /\ (ls = [] -> ~ tunnel s' n m).
Proof.
  intros Hn Hm H. rewrite min_value in H. destruct sh_lists as (A5 & B5 & _ & _ & _ & A1 & _).
  assert (L1 : forall l, lsrc s2 l = lsp_from s l) by (intros l; unfold lsrc, lsp_from; rewrite A1; now rewrite (proj1 (sh_ls l))).
  assert (L2 : forall l, ldst s2 l = lsp_to s l) by (intros l; unfold ldst, lsp_to; rewrite A1; now rewrite (proj2 (sh_ls l))).
  set (P := fun l => In l (m_lsps s') /\ lsp_from s' l = n /\ lsp_to s' l = m).
  assert (I1 : map (lsrc s2) (m_lsps s2) = map (lsp_from s) (m_lsps s)) by (rewrite A5; now apply map_ext).
  assert (I2 : map (ldst s2) (m_lsps s2) = map (lsp_to s) (m_lsps s)) by (rewrite A5; now apply map_ext).
  assert (G : dict_get (pair_key n m) (egroups E s2) = match members (lsrc s2) (ldst s2) (m_lsps s2) (n, m) with [] => None | l => Some l end).
  { destruct (sm_12 _ _ _ _ _ _ _ _ Sm) as (_ & _ & _ & _ & _ & _ & _ & _ & ->). apply group_get; auto.
    - intros a a' b b' Ha Ha' Hb Hb'. rewrite I1 in Ha, Ha'. rewrite I2 in Hb, Hb'. apply TD; unfold from_names, to_names; apply in_or_app; auto.
    - intros a' b' Ha' Hb'. rewrite I1 in Ha'. rewrite I2 in Hb'. apply NT; auto. }
  set (cands := members (lsrc s2) (ldst s2) (m_lsps s2) (n, m)) in G.
  assert (HC : forall l, In l cands <-> P l).
  { intros l. unfold cands, P. rewrite members_in. cbn [fst snd]. rewrite sh_from, sh_to, L1, L2, A5, B5. tauto. }
  assert (ND : NoDup cands).
  { apply NoDup_filter. rewrite A5. apply (NoDup_of_map (lsp_key s)). apply KU. }
  assert (HP : forall l, In l cands -> In l (m_lsps s2)) by (intros l X; apply HC in X as (X & _); congruence).
  assert (RT : forall l, In l cands -> (lsp_routed s2 l = true <-> routed_lsp s' l)) by (intros l X; apply (sm_routed E Flex HE _ _ _ _ _ _ Sm WP Up); auto).
  assert (V : (filter (lsp_routed s2) cands = [] /\ ls = []) \/ exists ms mv, rmap (emet E Flex s2) (filter (lsp_routed s2) cands) = Ok ms /\ py_min ms = Ok mv /\
                   ls = filter (has_metric E Flex s2 mv) (filter (lsp_routed s2) cands)).
  { rewrite G in H. destruct cands as [|c0 cs] eqn:EC; [left; split; [reflexivity|congruence]|]. rewrite <- EC in *. clear EC.
    apply rbind_ok in H as (ms & H1 & H). destruct (filter (lsp_routed s2) cands) as [|x l] eqn:F.
    - simpl in H1. injection H1 as <-. simpl in H. left. split; auto. congruence.
    - right. destruct (py_min ms) as [mv|e] eqn:PM.
      + exists ms, mv. split; [exact H1|]. split; [exact PM|]. apply rfilter_ok in H as [_ ->]. rewrite <- F, filter_filter'. apply filter_ext. intros y.
        unfold has_metric. destruct (emet E Flex s2 y); reflexivity.
      + exfalso. destruct ms as [|m0 ms]; [apply rmap_all in H1; inversion H1|]. clear - PM H. unfold py_min in PM. destruct ms; [discriminate|].
        destruct (forallb is_mint _) eqn:FB.
        { cbn [forallb] in FB. apply andb_true_iff in FB as [FB _]. destruct m0 as [z| |]; try discriminate FB. simpl in PM. discriminate PM. }
        match type of PM with (if ?b then _ else _) = _ => destruct b end; [discriminate|]. injection PM as <-. discriminate H. }
  clear H G. destruct V as [[F ->]|(ms & mv & M & PM & ->)].
  - split; [constructor|]. assert (No : forall l, P l -> routed_lsp s' l -> False).
    { intros l A B. apply HC in A. assert (X : In l (filter (lsp_routed s2) cands)) by (apply filter_In; split; auto; now apply RT). rewrite F in X. destruct X. }
    split; [|intros _ (l & A & B & C & D); apply (No l); auto; repeat split; auto]. intros l. split; [intros []|]. intros (A & B & _). apply (No l); auto.
  - split; [do 2 apply NoDup_filter; exact ND|]. apply py_min_ok in PM as [P1 P2].
    assert (EV : forall l, In l cands -> lsp_routed s2 l = true -> exists m', emet E Flex s2 l = Ok m' /\ In m' ms).
    { intros l A B. apply rmap_ok in M. assert (I : In l (filter (lsp_routed s2) cands)) by (apply filter_In; auto).
      clear - M I. induction M as [|x y l0 l1 H M IH]; [destruct I|]. destruct I as [->|I]; [exists y; split; auto; left; auto|].
      destruct (IH I) as (m' & A & B). exists m'. split; auto. right; auto. }
    assert (EM : exists l', In l' (filter (lsp_routed s2) cands) /\ emet E Flex s2 l' = Ok mv).
    { apply rmap_ok in M. clear - M P1. induction M as [|x y l0 l1 H M IH]; [destruct P1|]. destruct P1 as [->|P1]; [exists x; split; auto; left; auto|].
      destruct (IH P1) as (l' & A & B). exists l'. split; auto. right; auto. }
    assert (SMt := fun l m A B C => sm_metric E Flex HE _ _ _ _ _ _ Sm WP Up St l m A B C).
    split.
    + intros l. rewrite !filter_In. split.
      * intros [[B R] Hm']. split; [now apply HC|]. split; [now apply RT|]. unfold has_metric in Hm'.
        destruct (emet E Flex s2 l) as [m'|] eqn:El; [|discriminate]. apply mval_eqb_eq in Hm'. subst m'. destruct (SMt l mv (HP l B) R El) as [Q1 Q2].
        exists (mopt mv). split; auto. intros l' A' B'. apply HC in A'. assert (R' := proj2 (RT l' A') B'). destruct (EV l') as (m' & E1 & E2); auto.
        destruct (SMt l' m' (HP l' A') R' E1) as [Q1' Q2']. exists (mopt m'). split; auto. specialize (P2 m' E2). destruct mv, m'; simpl in *; auto; congruence.
      * intros (A & B & mo & Q1 & Q2). apply HC in A. assert (R := proj2 (RT l A) B). split; [auto|]. unfold has_metric. 
        destruct (EV l) as (m1 & E1 & E2); auto. rewrite E1. apply mval_eqb_eq. destruct (SMt l m1 (HP l A) R E1) as [Q3 Q4].
        assert (mo = mopt m1) by (eapply metric_fun; eauto). subst mo.
        destruct EM as (l' & F1 & F2). apply filter_In in F1 as [F1 F3].
        destruct (SMt l' mv (HP l' F1) F3 F2) as [Q5 Q6]. destruct (Q2 l') as (mo' & Q7 & Q8); [now apply HC|now apply RT|].
        assert (mo' = mopt mv) by (eapply metric_fun; eauto). subst mo'. specialize (P2 m1 E2).
        destruct mv, m1; simpl in *; try congruence; try tauto. f_equal. lia.
    + intros Em. exfalso. destruct EM as (l' & F1 & F2). assert (X : In l' []) by (rewrite <- Em; apply filter_In; split; [exact F1|]; unfold has_metric; rewrite F2; now apply mval_eqb_eq). destruct X.
Qed.

Lemma pm_cost q c : (forall l, In (ILsp l) q -> In l (m_lsps s2) /\ lsp_routed s2 l = true) -> snd (path_metric E Flex q s2) = Ok c -> path_cost s' q c.
Proof.
  revert c. induction q as [|[i|l] q IH]; intros c Hq H; cbn [path_metric] in H.
  - simpl in H. injection H as <-. constructor.
  - rewrite bind_gets in H. rewrite (Qv_bind E) in H; [|apply Qm_path_metric|intros; apply Qm_ret]. apply rbind_ok in H as (r & H1 & H). simpl in H. injection H as <-.
    destruct (sh_if i) as (_ & _ & ->). destruct (sh_loc i) as (_ & _ & <-). constructor. apply IH; auto. intros l Hl. apply Hq. right; auto.
  - rewrite (Qv_bind E) in H; [|apply Qm_effective|].
    2:{ intros [z| |]; try apply Qm_raise. apply Qm_bind; [apply Qm_path_metric|intros; apply Qm_ret]. }
    rewrite Qv_effective in H. apply rbind_ok in H as (m & H1 & H). destruct m as [z| |]; try discriminate H.
    rewrite (Qv_bind E) in H; [|apply Qm_path_metric|intros; apply Qm_ret]. apply rbind_ok in H as (r & H2 & H). simpl in H. injection H as <-.
    destruct (Hq l (or_introl eq_refl)) as [A B]. destruct (sm_metric E Flex HE _ _ _ _ _ _ Sm WP Up St l _ A B H1) as [M _]. constructor; [exact M|].
    apply IH; auto. intros l' Hl'. apply Hq. right; auto.
Qed.

Lemma sh_nodes : map (nd_name s') (m_nds s') = map (nd_name s) (m_nds s).
Proof. destruct sh_lists as (_ & _ & X & _ & Y & _). rewrite X. apply map_ext. intros n. unfold nd_name. now rewrite Y. Qed.

Lemma flags_false ns fs : mmap (fun n => nd <- reads (fun s => get_node s n) ;; gets (fun s => n_shortcuts (h_nd s nd))) ns s2 = (s2, Ok fs) ->
  existsb id fs = false -> forall n, In n ns -> ~ shortcut_node s' n.
Proof.
  destruct sh_lists as (_ & _ & X3 & X4 & X5 & X6 & _). revert fs. induction ns as [|n ns IH]; intros fs H F x Hx; [destruct Hx|].
  cbn [mmap] in H. unfold bind at 1 in H. unfold bind at 1 in H. unfold reads at 1 in H. assert (G := get_node_spec s2 n). destruct (get_node s2 n) as [m|e]; [|discriminate H].
  unfold gets at 1 in H. unfold bind at 1 in H. destruct (mmap _ ns s2) as [sx [fs'|e]] eqn:M; [|discriminate H]. unfold ret in H. injection H as -> <-. simpl in F.
  apply orb_false_iff in F as [F1 F2]. destruct Hx as [<-|Hx]; [|apply (IH fs' eq_refl F2 x Hx)].
  destruct G as [G1 G2]. unfold nd_name in G2. rewrite X6 in G2, F1. rewrite X4 in G1.
  intros Sc. apply (shortcut_flag s') with (x := m) in Sc.
  - rewrite X5 in Sc. unfold id in F1. congruence.
  - rewrite sh_nodes. apply KU.
  - now rewrite X3.
  - unfold nd_name. now rewrite X5.
Qed.
Lemma picks_plain ns : ns <> [] -> (forall n, In n ns -> ~ shortcut_node s' n) -> picks s' ns [].
Proof.
  induction ns as [|n ns IH]; [congruence|]. intros _ H. destruct ns as [|m b]; [constructor|]. constructor; [intros X; destruct (H n (or_introl eq_refl) X)|].
  apply IH; [discriminate|]. intros x Hx. apply H. right; auto.
Qed.
Lemma picks_members ns gs : picks s' ns gs -> forall g l, In g gs -> In l g -> In l (m_lsps s') /\ routed_lsp s' l.
Proof.
  induction 1 as [n0|n0 a m b ls gs Sc Tu Fa Ne ND Hl P IH|n0 m b gs Sc P IH]; intros g l Hg Hin; [destruct Hg| |eauto].
  destruct Hg as [<-|Hg]; [|eauto]. apply Hl in Hin as ((A & _) & B & _). auto.
Qed.
Lemma items_same q q' : (forall i, In (IIf i) q -> In i (m_ifs s')) -> (forall i, In (IIf i) q' -> In i (m_ifs s')) -> (items_eqb s2 q q' = true <-> q = q').
Proof.
  destruct sh_lists as (_ & _ & _ & _ & _ & A1 & A2 & A3). rewrite A2.
  assert (K2 : NoDup (map (if_key s2) (m_ifs s2))).
  { rewrite A3. erewrite map_ext; [apply KU|]. intros i. unfold if_key, loc. rewrite A1. destruct (sm_12 _ _ _ _ _ _ _ _ Sm) as (_ & _ & _ & _ & _ & A6 & _).
    destruct (A6 i) as (t & z & ->). reflexivity. }
  revert q'. induction q as [|x q IH]; intros [|y q'] H H'; simpl; try (split; congruence). rewrite andb_true_iff, IH; auto.
  assert (X : item_eqb s2 x y = true <-> x = y).
  { destruct x as [i|l], y as [j|l']; simpl; try (split; congruence).
    - rewrite iface_eqb_eq; auto; [split; congruence| |]; rewrite A3; [apply H|apply H']; left; auto.
    - rewrite Nat.eqb_eq. split; congruence. }
  rewrite X. split; [intros [-> ->]; auto|]. intros C. injection C as -> ->. auto.
  { intros; apply H; right; auto. }
  { intros; apply H'; right; auto. }
Qed.

(** the paths of a demand without an LSP of its own *)
Lemma sm_shortcuts d ps : In d (m_dms s) -> no_lsp_for s' d -> d_path (h_dm s' d) = DPaths ps ->
  exists p0 gs, least_cost s' (usable s') (dmd_from s' d) p0 (dmd_to s' d) /\ picks s' (route_nodes s' (dmd_from s' d) p0) gs /\
    ps <> [] /\ NoDup ps /\
    forall q, In q ps <-> candidate s' (dmd_from s' d) (dmd_to s' d) gs q /\
      forall q', candidate s' (dmd_from s' d) (dmd_to s' d) gs q' -> q' = q \/ exists c c', path_cost s' q c /\ path_cost s' q' c' /\ c <= c'.
Proof.
  intros Hd NL Pd. assert (R := sm_demand _ _ _ _ _ _ _ _ Sm d HE N Hd). unfold rpath in R.
  rewrite (sm_no_e2e E Flex HE _ _ _ _ _ _ Sm N d TD Hd NL) in R. cbn [rbind] in R. rewrite Pd in R.
  assert (A := sm_asp E Flex HE _ _ _ _ _ _ Sm N Cost St (dsrc s2 d) (ddst s2 d)).
  assert (B := ok_asp E HE (make_graph Flex s2 false 0 false) (dsrc s2 d) (ddst s2 d) (sm_Gpos E Flex HE _ _ _ _ _ _ Sm N Cost)).
  rewrite (sm_from _ _ _ _ _ _ _ _ Sm), (sm_to _ _ _ _ _ _ _ _ Sm) by auto.
  set (u := dsrc s2 d) in *. set (v := ddst s2 d) in *.
  destruct (nx_asp E (make_graph Flex s2 false 0 false) u v) as [nps| |]; [|discriminate R|discriminate R].
  destruct A as (A1 & A2 & _ & A4). destruct B as (_ & _ & B3 & _). set (L := iface_paths Flex s2 (make_graph Flex s2 false 0 false) nps) in *.
  assert (H : snd (find_igp_shortcuts E Flex (map (map IIf) L) nps s2) = Ok ps).
  { destruct (snd (find_igp_shortcuts E Flex (map (map IIf) L) nps s2)); cbn [rbind] in R; [|discriminate R]. injection R as ->. reflexivity. }
  clear R. assert (Kn := shortcuts_known E Flex _ _ _ _ H). 
  assert (Kn' : forall np n, In np nps -> In n np -> In n (map (nd_name s) (m_nds s))).
  { intros np n X Y. destruct (Kn np n X Y) as (m & Z1 & Z2). destruct sh_lists as (_ & _ & _ & Q4 & _ & Q6 & _). rewrite Q4 in Z1. unfold nd_name in Z2. rewrite Q6 in Z2.
    apply in_map_iff. exists m. auto. }
  assert (LNe : L <> []).
  { destruct nps as [|np nps']; [congruence|]. destruct (A4 np (or_introl eq_refl)) as (p & Lp & _). apply A2 in Lp. intros X. rewrite X in Lp. destruct Lp. }
  assert (LC : forall p p', In p L -> In p' L -> route_cost s' p = route_cost s' p').
  { intros p p' Hp Hp'. apply A2 in Hp as [P1 P2]. apply A2 in Hp' as [P3 P4]. specialize (P2 _ P3). specialize (P4 _ P1). lia. }
  assert (LI : forall p i, In p L -> In i p -> In i (m_ifs s')) by (intros p i Hp Hi; apply A2 in Hp as [Rp _]; eapply route_in; eauto).
  assert (Cand0 : forall q, candidate s' u v [] q <-> In q (map if_path L)).
  { intros q. unfold candidate. rewrite in_map_iff. split.
    - intros (p & Lp & [Hr|[_ Hn]]); [|destruct (Hn _ (rides_none s' p))]. apply rides_none_eq in Hr. exists p. split; auto. now apply A2.
    - intros (p & <- & Hp). exists p. split; [now apply A2|]. left. apply rides_none. }
  assert (NDif : NoDup (map if_path L)).
  { clear - A1. induction A1 as [|p L Hp N0 IH]; simpl; constructor; auto. intros C. apply in_map_iff in C as (p' & X & Y). apply if_path_inj in X. now subst. }
  unfold find_igp_shortcuts in H. destruct (flags_ok s2 (List.concat nps)) as (fs & F).
  { intros n Hn. apply in_concat in Hn as (np & X & Y). eauto. }
  unfold bind at 1 in H. rewrite F in H. destruct (existsb id fs) eqn:FF.
  2:{ simpl in H. injection H as <-. destruct nps as [|np nps']; [congruence|]. destruct (A4 np (or_introl eq_refl)) as (p0 & Lp & Enp). exists p0, [].
      change (map (map IIf) L) with (map if_path L).
      split; [exact Lp|]. split; [|split; [|split; [exact NDif|]]].
      - apply picks_plain; [discriminate|]. intros n Hn. apply (flags_false _ _ F FF). rewrite <- Enp in Hn. simpl. apply in_or_app. auto.
      - intros X. apply map_eq_nil in X. congruence.
      - intros q. rewrite Cand0. split; [|tauto]. intros Hq. split; auto. intros q' Hq'. apply Cand0 in Hq'. right.
        apply in_map_iff in Hq as (p & <- & Hp). apply in_map_iff in Hq' as (p' & <- & Hp'). exists (route_cost s' p), (route_cost s' p').
        split; [apply if_path_cost|]. split; [apply if_path_cost|]. rewrite (LC p p'); auto. lia. }
  rewrite (Qv_bind E) in H; [|apply Qm_last|].
  2:{ intros g. apply Qm_bind; [apply Qm_gets; intros; now apply (rs_substitute E)|]. intros [|q [|]]; try apply Qm_inspect. apply Qm_ret. }
  apply rbind_ok in H as (gs & HL & H). rewrite bind_gets in H. change (map (map IIf) L) with (map if_path L) in H.
  destruct (last_value E Flex s2 nps B3 [] gs HL) as (np & Hnp & Hpl). destruct (A4 np Hnp) as (p0 & Lp0 & Enp).
  destruct sh_lists as (Q1 & Q2 & Q3 & Q4 & Q5 & Q6 & Q7 & Q8).
  assert (PK : picks s' np gs).
  { destruct (path_lsps_spec E Flex s2 s') with (full := np) (len := List.length np) (rest := np) (pre := @nil string) (sk := @None string) (acc := @nil (list nat)) (r := gs)
      as (gs' & G1 & G2); auto; try congruence.
    - rewrite sh_nodes. apply KU.
    - intros l. symmetry. apply (sm_lto _ _ _ _ _ _ _ _ Sm); auto.
    - intros n m ls. rewrite sh_nodes. apply sm_min.
    - rewrite Enp. apply (least_simple s' (usable s') sh_cost' p0 u v Lp0).
    - intros n Hn. rewrite sh_nodes. eauto.
    - rewrite Enp. discriminate.
    - simpl in G1. now subst. }
  clear Hpl. exists p0, gs. split; [exact Lp0|]. split; [rewrite <- Enp; exact PK|].
  assert (OR : ord s' (usable s') u v 0 gs).
  { apply (picks_ord s' (usable s') u v sh_cost' np gs PK [] p0 u); auto; try constructor. }
  assert (MB := picks_members _ _ PK).
  assert (INS : forall p, In p L -> match insert_lsps s2 gs (if_path p) with
     | Some fps => (exists q, In q fps) /\ forall q, In q fps <-> rides s' p gs q | None => forall q, ~ rides s' p gs q end).
  { intros p Hp. apply A2 in Hp. apply (insert_spec s2 s' (usable s') u v sh_cost' sh_eq1 sh_eq2 0 gs p Hp); auto; [lia|]. intros g l Hg Hl. apply (MB g l Hg Hl). }
  set (ps0 := substitute_lsps s2 gs (map if_path L)) in *.
  assert (SB : NoDup ps0 /\ (forall q, In q ps0 <-> candidate s' u v gs q) /\ ps0 <> []).
  { unfold ps0. destruct gs as [|g0 gs0] eqn:EG.
    - simpl. split; [exact NDif|]. split; [intros q; symmetry; apply Cand0|]. intros X. apply map_eq_nil in X. congruence.
    - rewrite <- EG in *. assert (X : substitute_lsps s2 gs (map if_path L) = fold_left (fun acc p => match insert_lsps s2 gs p with
          | Some fps => fold_left (fun acc q => if existsb (items_eqb s2 q) acc then acc else acc ++ [q]) fps acc | None => acc ++ [p] end) (map if_path L) []).
      { rewrite EG. reflexivity. }
      rewrite X. clear X. assert (Nz : gs <> []) by (rewrite EG; discriminate).
      destruct (collect_spec s2 s' gs items_same Nz L A1 LI) with (acc := @nil (list item)) as [C1 C2].
      + intros p Hp. specialize (INS p Hp). destruct (insert_lsps s2 gs (if_path p)); [apply INS|exact INS].
      + intros p Hp Hi. specialize (INS p Hp). destruct (insert_lsps s2 gs (if_path p)); [|congruence]. destruct INS as [(q & Hq) I2]. exists q. now apply I2.
      + constructor.
      + intros q [].
      + intros p _ [].
      + split; [exact C1|]. assert (C3 : forall q, In q (fold_left (fun acc p => match insert_lsps s2 gs p with
          | Some fps => fold_left (fun acc q => if existsb (items_eqb s2 q) acc then acc else acc ++ [q]) fps acc | None => acc ++ [p] end) (map if_path L) []) <-> candidate s' u v gs q).
        { intros q. rewrite C2. unfold candidate, outcome. split; [intros [[]|(p & Y & Z)]; exists p; split; auto; now apply A2|].
          intros (p & Y & Z). right. exists p. split; auto. now apply A2. }
        split; [exact C3|]. destruct L as [|p L']; [congruence|]. specialize (INS p (or_introl eq_refl)).
        assert (Ex : exists q, candidate s' u v gs q).
        { destruct (insert_lsps s2 gs (if_path p)) as [fps|].
          - destruct INS as [(q & Hq) I2]. exists q, p. split; [apply A2; left; auto|]. left. now apply I2.
          - exists (if_path p), p. split; [apply A2; left; auto|]. right. auto. }
        destruct Ex as (q & Hq). apply C3 in Hq. intros X. rewrite X in Hq. destruct Hq. }
  destruct SB as (S1 & S2 & S3). 
  assert (RL : forall q l, candidate s' u v gs q -> In (ILsp l) q -> In l (m_lsps s2) /\ lsp_routed s2 l = true).
  { intros q l (p & _ & [Hr|[-> _]]) Hl; [|destruct (if_path_no_lsp _ _ Hl)]. apply (rides_items _ _ _ _ Hr) in Hl as (g & G1 & G2).
    destruct (MB g l G1 G2) as [M1 M2]. assert (M1' : In l (m_lsps s2)) by congruence. split; auto. now apply (sm_routed E Flex HE _ _ _ _ _ _ Sm WP Up). }
  assert (INSP : snd (inspect_metrics E Flex ps0 s2) = Ok ps -> ps <> [] /\ NoDup ps /\
    forall q, In q ps <-> candidate s' u v gs q /\
      forall q', candidate s' u v gs q' -> q' = q \/ exists c c', path_cost s' q c /\ path_cost s' q' c' /\ c <= c').
  { intros HI. apply inspect_spec in HI as (I1 & I2 & I3 & I4). split; [auto|]. split; [auto|]. intros q. rewrite I2, S2. split.
    - intros [Hc Mn]. split; auto. intros q' Hc'. right. assert (P := proj2 (S2 q) Hc). assert (P' := proj2 (S2 q') Hc').
      destruct (I1 q P) as (c & Ec). destruct (I1 q' P') as (c' & Ec'). exists c, c'. split; [apply pm_cost; eauto|]. split; [apply pm_cost; eauto|]. eauto.
    - intros [Hc Mn]. split; auto. intros q' c c' Hq' Ec Ec'. apply S2 in Hq'. assert (PC : path_cost s' q c) by (apply pm_cost; eauto).
      assert (PC' : path_cost s' q' c') by (apply pm_cost; eauto). destruct (Mn q' Hq') as [->|(x & y & X & Y & Z)].
      + rewrite (path_cost_fun _ _ _ _ PC PC'). lia.
      + rewrite (path_cost_fun _ _ _ _ PC X), (path_cost_fun _ _ _ _ PC' Y). exact Z. }
  destruct ps0 as [|q0 [|q1 ps1]] eqn:E0; [congruence| |apply INSP; exact H].
  simpl in H. injection H as <-. split; [discriminate|]. split; [exact S1|]. intros q. rewrite <- S2. split; [|tauto]. intros Hq. split; auto.
  intros q' Hq'. apply S2 in Hq'. left. destruct Hq as [<-|[]]. destruct Hq' as [<-|[]]. reflexivity.
Qed.
End Done.
