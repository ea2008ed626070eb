(** GraphProofs.v - walks and shortest walks; the executable environment meets
    the networkx contract. *)
From Verif Require Import Base Graph.

(** ** Lists *)

Lemma in_dedup_by {A} (eqb : A -> A -> bool) :
  (forall x y, eqb x y = true <-> x = y) ->
  forall l x, In x (dedup_by eqb l) <-> In x l.
Proof.
  intros Heq l; induction l as [|a l IH]; simpl; intros x; [tauto|].
  rewrite filter_In, IH. split; [tauto|].
  intros [->|H]; [tauto|].
  destruct (eqb a x) eqn:E; simpl; [apply Heq in E; auto | auto].
Qed.

Lemma NoDup_filter' {A} (f : A -> bool) l : NoDup l -> NoDup (filter f l).
Proof.
  induction 1 as [|x l Hx Hl IH]; simpl; [constructor|].
  destruct (f x); auto. constructor; auto. rewrite filter_In; tauto.
Qed.

Lemma NoDup_dedup_by {A} (eqb : A -> A -> bool) :
  (forall x y, eqb x y = true <-> x = y) ->
  forall l, NoDup (dedup_by eqb l).
Proof.
  intros Heq l; induction l as [|a l IH]; simpl; constructor.
  - rewrite filter_In. intros [_ H]. assert (E : eqb a a = true) by (apply Heq; auto).
    rewrite E in H; discriminate.
  - now apply NoDup_filter'.
Qed.

Lemma last_in {A} (d : A) l : l <> [] -> In (last l d) l.
Proof.
  intros H. rewrite (app_removelast_last d H) at 2. apply in_or_app. right. left. reflexivity.
Qed.

Lemma path_eqb_eq p q : path_eqb p q = true <-> p = q.
Proof. unfold path_eqb. destruct (list_eq_dec string_dec p q); split; auto; discriminate. Qed.

Lemma mem_str_In x l : mem_str x l = true <-> In x l.
Proof.
  unfold mem_str. rewrite existsb_exists. split.
  - intros (y & Hy & E). apply String.eqb_eq in E. now subst.
  - intros H. exists x. split; auto. apply String.eqb_refl.
Qed.

Lemma fold_min_le l : forall a, fold_left Z.min l a <= a /\ (forall x, In x l -> fold_left Z.min l a <= x).
Proof.
  induction l as [|y l IH]; simpl; intros a; [split; [lia|tauto]|].
  destruct (IH (Z.min a y)) as [H1 H2]. split; [lia|].
  intros x [->|H]; [lia|auto].
Qed.

Lemma fold_min_in l : forall a, fold_left Z.min l a = a \/ In (fold_left Z.min l a) l.
Proof.
  induction l as [|y l IH]; simpl; intros a; [auto|].
  destruct (IH (Z.min a y)) as [H|H]; [|auto].
  rewrite H. destruct (Z.min_spec a y) as [[_ E]|[_ E]]; rewrite E; auto.
Qed.

Lemma Zmin_list_some l c : Zmin_list l = Some c -> In c l /\ forall x, In x l -> c <= x.
Proof.
  destruct l as [|a l]; simpl; [discriminate|]. intros H; injection H as <-.
  destruct (fold_min_le l a) as [H1 H2]. destruct (fold_min_in l a) as [H3|H3].
  - split; [left; now rewrite H3|]. intros x [->|H]; auto.
  - split; [now right|]. intros x [->|H]; auto.
Qed.

Lemma Zmin_list_none l : Zmin_list l = None <-> l = [].
Proof. destruct l; simpl; split; congruence. Qed.

(** ** Walks *)

Section Walks.
Variable G : graph.

Lemma walk_nil_inv u v : walk G u [] v -> u = v.
Proof. inversion 1; auto. Qed.

Lemma walk_cons_inv u e es v : walk G u (e :: es) v -> e_u e = u /\ In e (g_edges G) /\ walk G (e_v e) es v.
Proof. inversion 1; subst; auto. Qed.

Lemma walk_app u es v es' w : walk G u es v -> walk G v es' w -> walk G u (es ++ es') w.
Proof. induction 1; simpl; auto. intros. constructor; auto. Qed.

Lemma walk_app_inv es : forall u es' w, walk G u (es ++ es') w -> exists v, walk G u es v /\ walk G v es' w.
Proof.
  induction es as [|e es IH]; simpl; intros u es' w H.
  - exists u; split; auto; constructor.
  - apply walk_cons_inv in H as (<- & Hin & H). apply IH in H as (v & H1 & H2).
    exists v; split; auto. now constructor.
Qed.

Lemma walk_edges u es v : walk G u es v -> forall e, In e es -> In e (g_edges G).
Proof. induction 1; simpl; [tauto|]. intros e' [->|H']; auto. Qed.

Lemma walk_end_unique u es v v' : walk G u es v -> walk G u es v' -> v = v'.
Proof.
  intros H; revert v'; induction H; intros v' H'.
  - inversion H'; auto.
  - apply walk_cons_inv in H' as (_ & _ & H'). auto.
Qed.

Lemma wcost_app es es' : wcost (es ++ es') = wcost es + wcost es'.
Proof. unfold wcost, Zsum. induction es; simpl; auto. rewrite IHes. lia. Qed.

Lemma wcost_cons e es : wcost (e :: es) = e_c e + wcost es.
Proof. reflexivity. Qed.


Hypothesis Hpos : costs_positive G.

Lemma wcost_nonneg u es v : walk G u es v -> 0 <= wcost es.
Proof.
  induction 1; [unfold wcost; simpl; lia|]. rewrite wcost_cons. apply Hpos in H. lia.
Qed.


Lemma wcost_pos u es v : walk G u es v -> es <> [] -> 1 <= wcost es.
Proof.
  intros H Hne. destruct es as [|e es]; [congruence|].
  apply walk_cons_inv in H as (_ & Hin & H). apply wcost_nonneg in H. apply Hpos in Hin.
  rewrite wcost_cons. lia.
Qed.

(** Parts of a shortest walk are shortest. *)
Lemma shortest_suffix u es es' w v :
  shortest_walk G u (es ++ es') w -> walk G u es v -> shortest_walk G v es' w.
Proof.
  intros [Hw Hmin] He. apply walk_app_inv in Hw as (v' & H1 & H2).
  assert (v' = v) by eauto using walk_end_unique. subst v'.
  split; auto. intros es2 H. specialize (Hmin (es ++ es2)%list (walk_app _ _ _ _ _ He H)).
  rewrite !wcost_app in Hmin. lia.
Qed.

Lemma shortest_prefix u es es' w v :
  shortest_walk G u (es ++ es') w -> walk G u es v -> shortest_walk G u es v.
Proof.
  intros [Hw Hmin] He. apply walk_app_inv in Hw as (v' & H1 & H2).
  assert (v' = v) by eauto using walk_end_unique. subst v'.
  split; auto. intros es2 H. specialize (Hmin (es2 ++ es')%list (walk_app _ _ _ _ _ H H2)).
  rewrite !wcost_app in Hmin. lia.
Qed.

Lemma shortest_self u es : shortest_walk G u es u -> es = [].
Proof.
  intros [Hw Hmin]. destruct es as [|e es]; auto.
  specialize (Hmin [] (walk_nil G u)). assert (1 <= wcost (e :: es)) by (apply (wcost_pos _ _ _ Hw); congruence).
  unfold wcost at 2 in Hmin. simpl in Hmin. lia.
Qed.


Lemma walk_node_split u es v x : walk G u es v -> In x (map e_v es) ->
  exists e1 e2, es = (e1 ++ e2)%list /\ walk G u e1 x /\ walk G x e2 v /\ e1 <> [].
Proof.
  intros H; revert x; induction H as [u|e es v Hin H IH]; simpl; intros x Hx; [tauto|].
  destruct Hx as [<-|Hx].
  - exists [e], es. repeat split; auto; try congruence. repeat constructor; auto.
  - destruct (IH x Hx) as (e1 & e2 & -> & H1 & H2 & _). exists (e :: e1), e2.
    repeat split; auto; try congruence. now constructor.
Qed.

(** The last edge of a non-empty walk *)

Lemma node_split u es v x : walk G u es v -> In x (node_path u es) ->
  exists e1 e2, es = (e1 ++ e2)%list /\ walk G u e1 x /\ walk G x e2 v.
Proof.
  intros H [<-|Hx].
  - exists [], es. repeat split; auto. constructor.
  - destruct (walk_node_split _ _ _ _ H Hx) as (e1 & e2 & E1 & H1 & H2 & _). eauto.
Qed.

(** A shortest walk does not visit a node twice. *)
Lemma shortest_simple u es v : shortest_walk G u es v -> NoDup (node_path u es).
Proof.
  revert u. induction es as [|e es IH]; intros u H.
  - unfold node_path. simpl. repeat constructor; auto.
  - assert (Hw := proj1 H). apply walk_cons_inv in Hw as (Hu & Hin & Hw).
    assert (Hs : shortest_walk G (e_v e) es v).
    { apply (shortest_suffix u [e] es v); auto. subst u. repeat constructor; auto. }
    unfold node_path. simpl. constructor; [|apply IH; auto].
    intros Hx. change (In u (map e_v (e :: es))) in Hx.
    destruct (walk_node_split _ _ _ _ (proj1 H) Hx) as (e1 & e2 & E1 & H1 & H2 & Hne).
    rewrite E1 in H. apply (shortest_prefix u e1 e2 v u) in H; auto.
    apply shortest_self in H. auto.
Qed.


(** Cycle removal. *)
Lemma walk_simplify u es v : walk G u es v ->
  exists es', walk G u es' v /\ NoDup (node_path u es') /\ wcost es' <= wcost es.
Proof.
  induction 1 as [u|e es v Hin H IH].
  - exists []. repeat split; try constructor; auto; try lia. constructor.
  - destruct IH as (es' & Hw & Hnd & Hc).
    assert (Hw' : walk G (e_u e) (e :: es') v) by (constructor; auto).
    assert (He := Hpos _ Hin).
    destruct (in_dec string_dec (e_u e) (node_path (e_v e) es')) as [Hx|Hx].
    + destruct (node_split _ _ _ _ Hw Hx) as (e1 & e2 & E1 & H1 & H2).
      exists e2. repeat split; auto.
      * assert (Hsub : node_path (e_v e) es' = (removelast (node_path (e_v e) e1) ++ node_path (e_u e) e2)%list).
        { subst es'. unfold node_path at 1. rewrite map_app.
          assert (Hl : node_path (e_v e) e1 = (removelast (node_path (e_v e) e1) ++ [e_u e])%list).
          { rewrite (app_removelast_last (e_u e)) at 1; [|unfold node_path; congruence]. f_equal. f_equal.
            clear - H1. induction H1; auto. }
          change (e_v e :: map e_v e1 ++ map e_v e2)%list with (node_path (e_v e) e1 ++ map e_v e2)%list.
          rewrite Hl at 1. rewrite <- app_assoc. reflexivity. }
        rewrite Hsub in Hnd. clear - Hnd. induction (removelast (node_path (e_v e) e1)) as [|a l IH]; auto.
        apply IH. simpl in Hnd. inversion Hnd; auto.
      * subst es'. rewrite wcost_app in Hc. apply wcost_nonneg in H1. rewrite wcost_cons. lia.
    + exists (e :: es'). repeat split; auto.
      * unfold node_path in *. simpl. constructor; auto.
      * rewrite !wcost_cons. lia.
Qed.

(** A walk without repeated nodes has distinct edges. *)
Lemma simple_walk_length u es v : walk G u es v -> NoDup (node_path u es) ->
  (List.length es <= List.length (g_edges G))%nat.
Proof.
  intros Hw Hnd. apply NoDup_incl_length.
  - unfold node_path in Hnd. inversion Hnd; subst.
    eapply NoDup_map_inv; eauto.
  - intros e. eapply walk_edges; eauto.
Qed.

End Walks.

(** ** Depth-first enumeration *)

Lemma dfs_sound G : forall fuel vis u d es, In u vis -> In es (dfs fuel G vis u d) ->
  walk G u es d /\ NoDup (map e_v es) /\ (forall x, In x (map e_v es) -> ~ In x vis)
  /\ (List.length es <= fuel)%nat.
Proof.
  induction fuel as [|n IH]; simpl; intros vis u d es Hu H.
  - destruct (String.eqb_spec u d) as [->|]; simpl in H; [|tauto].
    destruct H as [<-|[]]. simpl. repeat split; auto; try constructor; tauto.
  - destruct (String.eqb_spec u d) as [->|Hne].
    + destruct H as [<-|[]]. simpl. repeat split; auto; try constructor; try tauto. lia.
    + apply in_flat_map in H as (e & Hin & H).
      destruct (String.eqb (e_u e) u && negb (mem_str (e_v e) vis)) eqn:Eb; [|simpl in H; tauto].
      apply andb_prop in Eb as [E1 E2]. apply String.eqb_eq in E1. apply negb_true_iff in E2.
      assert (Hvis : ~ In (e_v e) vis) by (rewrite <- mem_str_In, E2; discriminate).
      apply in_map_iff in H as (es' & <- & H).
      apply IH in H as (Hw & Hnd & Hx & Hl); [|simpl; auto].
      subst u. simpl. repeat split.
      * constructor; auto.
      * constructor; auto. intros Hi. apply Hx in Hi. simpl in Hi. tauto.
      * intros x [<-|Hi]; auto. intros Hv. apply Hx in Hi. simpl in Hi. tauto.
      * lia.
Qed.

Lemma dfs_complete G : forall es fuel vis u d, walk G u es d -> NoDup (node_path u es) ->
  (forall x, In x (map e_v es) -> ~ In x vis) -> (List.length es <= fuel)%nat ->
  In es (dfs fuel G vis u d).
Proof.
  induction es as [|e es IH]; intros fuel vis u d Hw Hnd Hvis Hl.
  - apply walk_nil_inv in Hw. subst d. destruct fuel; simpl; rewrite String.eqb_refl; simpl; auto.
  - destruct fuel as [|n]; [simpl in Hl; lia|]. simpl.
    destruct (String.eqb_spec u d) as [->|Hne].
    + exfalso. unfold node_path in Hnd. inversion Hnd; subst. apply H1.
      assert (E : last (map e_v (e :: es)) "" = d).
      { apply walk_cons_inv in Hw as (_ & _ & Hw). clear - Hw.
        change (map e_v (e :: es)) with (node_path (e_v e) es).
        induction Hw; auto. }
      rewrite <- E. apply last_in. simpl; congruence.
    + apply walk_cons_inv in Hw as (Hu & Hin & Hw).
      apply in_flat_map. exists e. split; auto.
      rewrite Hu, String.eqb_refl. simpl.
      destruct (mem_str (e_v e) vis) eqn:Ev.
      { apply mem_str_In in Ev. exfalso. apply (Hvis (e_v e)); simpl; auto. }
      simpl. apply in_map. apply IH; auto.
      * unfold node_path in *. simpl in Hnd. inversion Hnd; auto.
      * intros x Hx [<-|Hv].
        -- unfold node_path in Hnd. simpl in Hnd. inversion Hnd; subst. inversion H2; auto.
        -- apply (Hvis x); simpl; auto.
      * simpl in Hl. lia.
Qed.

Lemma simple_walks_spec G s d es : In es (simple_walks G s d) <->
  walk G s es d /\ NoDup (node_path s es).
Proof.
  unfold simple_walks. split.
  - intros H. apply dfs_sound in H as (Hw & Hnd & Hx & _); [|simpl; auto].
    split; auto. unfold node_path. constructor; auto. intros Hi. apply (Hx s); simpl; auto.
  - intros [Hw Hnd]. apply dfs_complete; auto.
    + intros x Hx [<-|[]]. unfold node_path in Hnd. inversion Hnd; auto.
    + eapply simple_walk_length; eauto.
Qed.

Lemma simple_walks_min G s d c : costs_positive G ->
  Zmin_list (map wcost (simple_walks G s d)) = Some c ->
  forall es, shortest_walk G s es d <-> In es (simple_walks G s d) /\ wcost es = c.
Proof.
  intros Hpos Hc es. apply Zmin_list_some in Hc as [Hin Hmin].
  apply in_map_iff in Hin as (es0 & Hc0 & Hin0).
  assert (Hlow : forall es', walk G s es' d -> c <= wcost es').
  { intros es' Hw. destruct (walk_simplify G Hpos _ _ _ Hw) as (es2 & Hw2 & Hnd2 & Hle).
    assert (c <= wcost es2); [|lia]. apply Hmin. apply in_map. now apply simple_walks_spec. }
  split.
  - intros Hs. assert (Hin : In es (simple_walks G s d)).
    { apply simple_walks_spec. split; [apply Hs|]. eapply shortest_simple; eauto. }
    split; auto. assert (c <= wcost es) by (apply Hlow, Hs).
    apply simple_walks_spec in Hin0 as [Hw0 _]. assert (wcost es <= wcost es0) by (apply Hs; auto). lia.
  - intros [Hin E]. apply simple_walks_spec in Hin as [Hw Hnd]. split; auto.
    intros es' Hw'. rewrite E. auto.
Qed.

Lemma simple_walks_none G s d : costs_positive G ->
  Zmin_list (map wcost (simple_walks G s d)) = None <-> forall es, ~ walk G s es d.
Proof.
  intros Hpos. rewrite Zmin_list_none. split.
  - intros H es Hw. destruct (walk_simplify G Hpos _ _ _ Hw) as (es2 & Hw2 & Hnd2 & Hle).
    assert (Hin : In es2 (simple_walks G s d)) by (apply simple_walks_spec; auto).
    destruct (simple_walks G s d); [destruct Hin|discriminate].
  - intros H. destruct (simple_walks G s d) as [|es l] eqn:E; auto.
    exfalso. apply (H es). apply (simple_walks_spec G s d). rewrite E. simpl; auto.
Qed.

(** If there is a walk there is a shortest one. *)
Lemma shortest_exists G u es v : costs_positive G -> walk G u es v -> exists es', shortest_walk G u es' v.
Proof.
  intros Hpos Hw. destruct (Zmin_list (map wcost (simple_walks G u v))) as [c|] eqn:E.
  - assert (H := Zmin_list_some _ _ E). destruct H as [Hin _].
    apply in_map_iff in Hin as (es' & Hc & Hin). exists es'.
    apply (simple_walks_min G u v c Hpos E). auto.
  - exfalso. exact (proj1 (simple_walks_none G u v Hpos) E es Hw).
Qed.


(** ** The executable environment meets the contract *)

Lemma in_graphb_spec G n : in_graphb G n = true <-> in_graph G n.
Proof.
  unfold in_graphb, in_graph. rewrite orb_true_iff, mem_str_In, existsb_exists.
  split; intros [H|(e & H1 & H2)]; auto; right; exists e; split; auto.
  - apply orb_prop in H2 as [H2|H2]; apply String.eqb_eq in H2; auto.
  - apply orb_true_iff. destruct H2 as [<-|<-]; rewrite String.eqb_refl; auto.
Qed.

Lemma asp_impl_ok : asp_ok asp_impl.
Proof.
  intros G s d Hpos. unfold asp_impl.
  destruct (in_graphb G s) eqn:Eg.
  - apply in_graphb_spec in Eg.
    destruct (Zmin_list (map wcost (simple_walks G s d))) as [c|] eqn:Ec.
    + split; auto.
      assert (Hiff : forall p, In p (dedup_by path_eqb (map (node_path s) (filter (fun es => wcost es =? c)%Z (simple_walks G s d))))
                <-> exists es, shortest_walk G s es d /\ p = node_path s es).
      { intros p. rewrite in_dedup_by by apply path_eqb_eq. rewrite in_map_iff. split.
        - intros (es & <- & H). apply filter_In in H as [H E]. apply Z.eqb_eq in E.
          exists es. split; auto. apply (simple_walks_min G s d c); auto.
        - intros (es & Hs & ->). exists es. split; auto. apply filter_In.
          apply (simple_walks_min G s d c Hpos Ec) in Hs as [H1 H2]. split; auto. now apply Z.eqb_eq. }
      split; [apply NoDup_dedup_by, path_eqb_eq|]. split; [|exact Hiff].
      apply Zmin_list_some in Ec as [Hin _]. apply in_map_iff in Hin as (es & Hc & Hin).
      intros E. assert (H : In (node_path s es) []); [|destruct H].
      rewrite <- E. rewrite in_dedup_by by apply path_eqb_eq. apply in_map. apply filter_In. split; auto.
      now apply Z.eqb_eq.
    + pose proof (proj1 (simple_walks_none G s d Hpos) Ec) as Ec'. clear Ec. rename Ec' into Ec. repeat split; auto.
      intros ->. apply (Ec []). constructor.
  - intros H. apply in_graphb_spec in H. congruence.
Qed.

Lemma len_impl_ok : len_ok len_impl.
Proof.
  intros G s d es Hpos Hg Hs. unfold len_impl.
  destruct (Zmin_list (map wcost (simple_walks G s d))) as [c|] eqn:Ec.
  - destruct (proj1 (simple_walks_min G s d c Hpos Ec es) Hs) as [_ E]. now rewrite E.
  - exfalso. exact (proj1 (simple_walks_none G s d Hpos) Ec es (proj1 Hs)).
Qed.

Lemma simple_impl_ok : simple_ok simple_impl.
Proof.
  intros G s d cutoff Hd. unfold simple_impl.
  destruct (in_graphb G s) eqn:Eg.
  - apply in_graphb_spec in Eg. split; auto. intros p.
    destruct (String.eqb_spec s d) as [->|Hne].
    + split; [intros []|]. intros (es & Hw & -> & Hnd & Hne & _).
      destruct es as [|e es]; [congruence|]. exfalso.
      unfold node_path in Hnd. inversion Hnd; subst. apply H1.
      assert (E : last (map e_v (e :: es)) "" = d).
      { apply walk_cons_inv in Hw as (_ & _ & Hw). clear - Hw.
        change (map e_v (e :: es)) with (node_path (e_v e) es).
        induction Hw; auto. }
      rewrite <- E. apply last_in. simpl; congruence.
    + rewrite in_map_iff. split.
      * intros (es & <- & H). apply dfs_sound in H as (Hw & Hnd & Hx & Hl); [|simpl; auto].
        exists es. repeat split; auto.
        -- unfold node_path. constructor; auto. intros Hi. apply (Hx s); simpl; auto.
        -- intros ->. apply walk_nil_inv in Hw. auto.
      * intros (es & Hw & -> & Hnd & _ & Hl). exists es. split; auto.
        apply dfs_complete; auto. intros x Hx [<-|[]]. unfold node_path in Hnd. inversion Hnd; auto.
  - intros H. apply in_graphb_spec in H. congruence.
Qed.

Theorem env_impl_ok r : env_ok (env_impl r).
Proof.
  constructor; simpl.
  - apply asp_impl_ok.
  - apply len_impl_ok.
  - apply simple_impl_ok.
  - intros l. split; [apply NoDup_dedup_by | apply in_dedup_by]; apply String.eqb_eq.
  - intros l. apply Permutation_refl.
Qed.
