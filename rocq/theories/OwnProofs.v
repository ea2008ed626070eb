(** OwnProofs.v - which objects the calls can change. *)
From Verif Require Import Base Graph Objects Sim Api Spec SpecOwn GraphProofs MonadProofs ObjProofs RouteProofs PathProofs GroupProofs ShareProofs QuietProofs.

Section Keeps.
Variable J : st -> Prop.
(** [m] keeps [J], whether it returns or raises, and what it returns meets [Q]. *)
Definition keeps {A} (m : M A) (Q : A -> Prop) : Prop := forall s, J s -> J (fst (m s)) /\ forall a, snd (m s) = Ok a -> Q a.

Lemma keeps_ret {A} (a : A) (Q : A -> Prop) : Q a -> keeps (ret a) Q.
Proof. intros H s HJ. split; auto. intros b X. injection X as <-. auto. Qed.
Lemma keeps_raise {A} e (Q : A -> Prop) : keeps (raise e) Q.
Proof. intros s HJ. split; auto. intros b X. discriminate X. Qed.
Lemma keeps_gets {A} (f : st -> A) : keeps (gets f) (fun a => exists s, J s /\ a = f s).
Proof. intros s HJ. split; auto. intros b X. injection X as <-. eauto. Qed.
Lemma keeps_reads {A} (f : st -> res A) : keeps (reads f) (fun a => exists s, J s /\ f s = Ok a).
Proof. intros s HJ. split; auto. intros b X. exists s. auto. Qed.
Lemma keeps_modify f : (forall s, J s -> J (f s)) -> keeps (modify f) (fun _ => True).
Proof. intros H s HJ. split; auto. apply H, HJ. Qed.
Lemma keeps_bind {A B} (m : M A) (f : A -> M B) Q R : keeps m Q -> (forall a, Q a -> keeps (f a) R) -> keeps (bind m f) R.
Proof.
  intros Hm Hf s HJ. destruct (Hm s HJ) as [H1 H2]. unfold bind. destruct (m s) as [s1 [a|e]]; simpl in *.
  - apply Hf; auto.
  - split; auto. intros b X. discriminate X.
Qed.
Lemma keeps_weak {A} (m : M A) (Q R : A -> Prop) : keeps m Q -> (forall a, Q a -> R a) -> keeps m R.
Proof. intros H X s HJ. destruct (H s HJ) as [H1 H2]. split; auto. Qed.
Lemma keeps_any {A} (m : M A) (Q : A -> Prop) : keeps m Q -> keeps m (fun _ => True).
Proof. intros H. eapply keeps_weak; eauto. Qed.
Lemma keeps_try {A} (m : M A) h Q : keeps m Q -> (forall e k, h e = Some k -> keeps k Q) -> keeps (try m h) Q.
Proof.
  intros Hm Hh s HJ. destruct (Hm s HJ) as [H1 H2]. unfold try. destruct (m s) as [s1 [a|e]]; simpl in *; [split; auto|].
  destruct (h e) as [k|] eqn:X; [apply (Hh e k X); auto|]. split; auto.
Qed.
Lemma keeps_mfor {A} (l : list A) body : (forall x, In x l -> keeps (body x) (fun _ => True)) -> keeps (mfor l body) (fun _ => True).
Proof.
  induction l as [|x l IH]; simpl; intros H; [now apply keeps_ret|]. eapply keeps_bind; [apply H; auto|]. intros _ _. apply IH. auto.
Qed.
Lemma keeps_mmap {A B} (body : A -> M B) l Q : (forall x, In x l -> keeps (body x) Q) -> keeps (mmap body l) (fun r => forall y, In y r -> Q y).
Proof.
  induction l as [|x l IH]; simpl; intros H; [apply keeps_ret; intros y []|]. eapply keeps_bind; [apply H; auto|]. intros a Ha.
  eapply keeps_bind; [apply IH; auto|]. intros b Hb. apply keeps_ret. intros y [<-|Hy]; auto.
Qed.
Lemma keeps_mfilter {A} (body : A -> M bool) l : (forall x, In x l -> keeps (body x) (fun _ => True)) -> keeps (mfilter body l) (fun r => incl r l).
Proof.
  induction l as [|x l IH]; simpl; intros H; [apply keeps_ret; intros y []|]. eapply keeps_bind; [apply H; auto|]. intros a _.
  eapply keeps_bind; [apply IH; auto|]. intros b Hb. apply keeps_ret. destruct a; intros y Hy; [destruct Hy as [<-|Hy]; [now left|right; auto]|right; auto].
Qed.
End Keeps.
Arguments keeps_ret {J A}. Arguments keeps_raise {J A}. Arguments keeps_gets {J A}. Arguments keeps_reads {J A}.
Arguments keeps_any {J A m Q}.

Ltac kstep :=
  match goal with
  | |- keeps _ (bind (gets _) _) _ => eapply keeps_bind; [apply keeps_gets|intros ? (? & ? & ->)]
  | |- keeps _ (bind (reads _) _) _ => eapply keeps_bind; [apply keeps_reads|intros ? (? & ? & ?)]
  | |- keeps _ (bind (modify _) _) _ => eapply keeps_bind; [apply keeps_modify; intros|intros _ _]
  | |- keeps _ (bind (mfor _ _) _) _ => eapply keeps_bind; [apply keeps_mfor; intros|intros _ _]
  | |- keeps _ (ret _) _ => apply keeps_ret
  | |- keeps _ (raise _) _ => apply keeps_raise
  | |- keeps _ (modify _) (fun _ => True) => apply keeps_modify; intros
  | |- keeps _ (gets _) _ => eapply keeps_weak; [apply keeps_gets|intros ? (? & ? & ->)]
  | |- keeps _ (reads _) _ => eapply keeps_weak; [apply keeps_reads|intros ? (? & ? & ?)]
  | |- keeps _ (mfor _ _) (fun _ => True) => apply keeps_mfor; intros
  | |- keeps _ (if ?b then _ else _) _ => destruct b
  | |- keeps _ (match ?x with _ => _ end) _ => destruct x eqn:?
  end.
Ltac kgo := repeat kstep; auto.

(** ** Objects of the model *)
Section Own.
Variable E : env.
Variable k : kind.
Variable s0 : st.

(** invariants that updates of the model's own interfaces, nodes and SRLGs keep *)
Record closed (J : st -> Prop) : Prop := {
  cj_in : forall s, J s -> within s0 s;
  cj_if : forall i f s, In i (m_ifs s0) -> J s -> J (upd_if i f s);
  cj_nd : forall n b s, In n (m_nds s0) -> J s -> J (upd_nd n (nd_failed b) s);
  cj_sr : forall g f s, In g (m_srs s0) -> J s -> J (upd_sr g f s);
  cj_ls : forall l f s, In l (m_lsps s0) -> (forall r, l_path (f r) = l_path r) -> omm (f (h_ls s l)) = omm (h_ls s l) -> J s -> J (upd_ls l f s);
  cj_ck : forall cs s, (forall c, In c cs -> In (fst c) (m_ifs s0) /\ In (snd c) (m_ifs s0)) -> J s -> J (set_ckts cs s);
  cj_rn : forall s, J s -> J (bump_rng s);
  cj_gr : forall g s, (forall key ls l, In (key, ls) g -> In l ls -> In l (m_lsps s0)) -> J s -> J (set_groups g s) }.

Lemma within_closed : closed (within s0).
Proof.
  constructor; auto; intros; match goal with H : within _ _ |- _ => destruct H as [(A1 & A2 & A3 & A4 & A5) B1 B2 B3 B4 B5 B6] end;
    constructor; try (repeat split; assumption); simpl; auto; intros x Hx; rewrite fupd_other by (intros ->; contradiction); auto.
Qed.

(** the metrics that reads show, and all of a node but its failed flag, stay *)
Record steady (s : st) : Prop := {
  sy_in : within s0 s;
  sy_nd : forall n, h_nd s n = nd_failed (n_failed (h_nd s n)) (h_nd s0 n);
  sy_mm : forall l, omm (h_ls s l) = omm (h_ls s0 l) }.
Lemma steady_refl : steady s0.
Proof. constructor; auto; [constructor; auto; repeat split; auto|]. intros n. now destruct (h_nd s0 n). Qed.
Lemma steady_closed : closed steady.
Proof.
  pose proof within_closed as W. constructor; try (intros s []; assumption); intros; match goal with H : steady _ |- _ => destruct H as [A B C] end; constructor; auto.
  - now apply (cj_if _ W).
  - now apply (cj_nd _ W).
  - intros x. simpl. apply fupd_cases; intros; subst; auto. simpl. rewrite (B n). reflexivity.
  - now apply (cj_sr _ W).
  - now apply (cj_ls _ W).
  - intros x. simpl. apply (fupd_cases _ _ _ _ (fun r => omm r = omm (h_ls s0 x))); [intros ->; now rewrite H1|auto].
  - now apply (cj_ck _ W).
  - now apply (cj_rn _ W).
  - now apply (cj_gr _ W).
Qed.

Section Closed.
Variable J : st -> Prop.
Hypothesis HJ : closed J.

Lemma k_ifs s : J s -> m_ifs s = m_ifs s0.
Proof. intros H. apply (wi_sets _ _ (cj_in _ HJ s H)). Qed.
Lemma k_nds s : J s -> m_nds s = m_nds s0.
Proof. intros H. apply (wi_sets _ _ (cj_in _ HJ s H)). Qed.
Lemma k_dms s : J s -> m_dms s = m_dms s0.
Proof. intros H. apply (wi_sets _ _ (cj_in _ HJ s H)). Qed.
Lemma k_lsps s : J s -> m_lsps s = m_lsps s0.
Proof. intros H. apply (wi_sets _ _ (cj_in _ HJ s H)). Qed.
Lemma k_srs s : J s -> m_srs s = m_srs s0.
Proof. intros H. apply (wi_sets _ _ (cj_in _ HJ s H)). Qed.

(** *** look-ups *)
Lemma in_first s u v i : J s -> first_between s u v = Some i -> In i (m_ifs s0).
Proof. intros H X. apply find_some in X. rewrite <- (k_ifs s H). apply X. Qed.
Lemma in_between s u v i : J s -> In i (ifaces_between s u v) -> In i (m_ifs s0).
Proof. intros H X. apply filter_In in X. rewrite <- (k_ifs s H). apply X. Qed.
Lemma in_by_circuit s u v c i : J s -> iface_by_circuit s u v c = Ok i -> In i (m_ifs s0).
Proof.
  intros H. unfold iface_by_circuit.
  assert (X : forall f, match filter f (ifaces_between s u v) with [i] => Ok i | _ => Err (ModelException "No matching Interface Object found") end = Ok i -> In i (m_ifs s0)).
  { intros f Y. destruct (filter f (ifaces_between s u v)) as [|a [|b l]] eqn:F; try discriminate Y. injection Y as <-.
    assert (Z : In a (filter f (ifaces_between s u v))) by (rewrite F; now left). apply filter_In in Z. eapply in_between; eauto; apply Z. }
  destruct c; try apply X. destruct (ifaces_between s u v) as [|a l] eqn:F; intros Y; [discriminate Y|]. injection Y as <-. eapply in_between; [exact H|]. rewrite F. now left.
Qed.
Lemma in_edge_ends s e ab : J s -> edge_ends k s e = Ok ab -> In (fst ab) (m_ifs s0) /\ In (snd ab) (m_ifs s0).
Proof.
  intros H. unfold edge_ends. destruct k.
  - intros X. apply rbind_ok in X as (a & Ha & X). apply rbind_ok in X as (b & Hb & X). injection X as <-. simpl. split; eapply in_by_circuit; eauto.
  - destruct (first_between s (e_u e) (e_v e)) as [a|] eqn:A, (first_between s (e_v e) (e_u e)) as [b|] eqn:B; intros X; try discriminate X. injection X as <-.
    simpl. split; eapply in_first; eauto.
Qed.
Lemma in_get_node s n x : J s -> get_node s n = Ok x -> In x (m_nds s0).
Proof.
  intros H. unfold get_node. destruct (filter _ _) as [|a l] eqn:F; intros X; [discriminate X|]. injection X as <-. rewrite <- (k_nds s H).
  assert (Z : In a (filter (fun x => String.eqb (n_name (h_nd s x)) n) (m_nds s))) by (rewrite F; now left). now apply filter_In in Z.
Qed.
Lemma in_get_interface s i n x : J s -> get_interface s i n = Ok x -> In x (m_ifs s0).
Proof.
  intros H. unfold get_interface. destruct (existsb _ _); [|discriminate]. intros X. apply rbind_ok in X as (nd & _ & X).
  destruct (filter _ _) as [|a l] eqn:F; [discriminate X|]. injection X as <-. rewrite <- (k_ifs s H).
  assert (Z : In a (filter (fun x => String.eqb (i_name (h_if s x)) i) (node_interfaces s nd))) by (rewrite F; now left).
  apply filter_In in Z as [Z _]. apply filter_In in Z. apply Z.
Qed.
Lemma in_get_remote s i x : J s -> get_remote_interface s i = Ok x -> In x (m_ifs s0).
Proof.
  intros H. unfold get_remote_interface. destruct (find _ _) as [j|] eqn:F; [|discriminate]. apply find_some in F as [F _]. destruct (ifs_eqb _ _ _); intros X; [|discriminate X].
  injection X as <-. now rewrite <- (k_ifs s H).
Qed.
Lemma in_get_srlg s n x : J s -> get_srlg s n = Ok x -> In x (m_srs s0).
Proof.
  intros H. unfold get_srlg. destruct (filter _ _) as [|a [|b l]] eqn:F; intros X; try discriminate X. injection X as <-. rewrite <- (k_srs s H).
  assert (Z : In a (filter (fun x => String.eqb (sr_name (h_sr s x)) n) (m_srs s))) by (rewrite F; now left). now apply filter_In in Z.
Qed.

(** *** validation *)
Notation K m := (keeps J m (fun _ => True)).
Ltac own := first [assumption | (eapply cj_if; eauto; fail) | (eapply cj_nd; eauto; fail) | (eapply cj_sr; eauto; fail) | (eapply cj_ls; eauto; fail) | (apply cj_ck; auto; fail) | (apply cj_rn; auto; fail) | idtac].

Lemma k_set_failed i b : In i (m_ifs s0) -> K (iface_set_failed i b).
Proof. intros H. unfold iface_set_failed. kgo; apply cj_if; auto. Qed.
Lemma k_nd_set_failed i b : In i (m_nds s0) -> K (node_set_failed i b).
Proof. intros H. unfold node_set_failed. kgo; apply cj_nd; auto. Qed.

Lemma k_pair_edges es : forall n acc, (forall c, In c acc -> In (fst c) (m_ifs s0) /\ In (snd c) (m_ifs s0)) ->
  keeps J (pair_edges k es n acc) (fun cs => forall c, In c cs -> In (fst c) (m_ifs s0) /\ In (snd c) (m_ifs s0)).
Proof.
  induction es as [|e es IH]; intros n acc Ha; simpl; [now apply keeps_ret|].
  eapply keeps_bind; [apply keeps_reads|]. intros [a b] (s & Hs & X). apply in_edge_ends in X as [Xa Xb]; auto. simpl in Xa, Xb.
  kstep. kstep; [|auto]. kstep; [now apply cj_if|]. kstep; [now apply cj_if|].
  eapply keeps_bind with (Q := fun _ => True).
  { destruct k; [now apply keeps_ret|]. kgo; now apply cj_if. }
  intros _ _. apply IH. intros c Hc. apply in_app_or in Hc as [Hc|[<-|[]]]; simpl; auto.
Qed.
(** after make_circuits has returned, the circuits consist of the model's interfaces *)
Lemma k_make_circuits : K (make_circuits E k).
Proof.
  unfold make_circuits. kstep. kstep. kstep.
  { kstep. apply cj_if; auto. match goal with H : J ?s, X : In _ (m_ifs ?s) |- _ => rewrite (k_ifs s H) in X; exact X end. }
  eapply keeps_bind; [apply k_pair_edges; intros c []|]. intros cs Hcs. kstep; [apply keeps_raise|]. kstep. now apply cj_ck.
Qed.
Lemma make_circuits_own s s' : J s -> make_circuits E k s = (s', Ok tt) -> forall c, In c (m_ckts s') -> In (fst c) (m_ifs s0) /\ In (snd c) (m_ifs s0).
Proof.
  intros Hs R. unfold make_circuits in R. rewrite bind_gets in R. rewrite bind_gets in R. apply bind_ok in R as (s1 & [] & R1 & R).
  assert (J1 : J s1).
  { assert (X : K (mfor (m_ifs s) (fun i => modify (upd_if i (if_inckt false))))).
    { kstep. kstep. apply cj_if; auto. now rewrite <- (k_ifs s Hs). }
    destruct (X s Hs) as [X1 _]. now rewrite R1 in X1. }
  apply bind_ok in R as (s2 & cs & R2 & R). destruct (k_pair_edges (filter (fun e => has_edge (edge_iter E (g_edges (make_graph k s true 0 false))) (e_v e) (e_u e)) (edge_iter E (g_edges (make_graph k s true 0 false)))) 1%Z [] (fun c H => match H with end) s1 J1) as [_ X].
  rewrite R2 in X. specialize (X cs eq_refl). destruct (existsb _ _); [discriminate R|]. injection R as <-. exact X.
Qed.
Lemma k_check_circuit c : In (fst c) (m_ifs s0) -> In (snd c) (m_ifs s0) -> K (check_circuit c).
Proof.
  intros A B. destruct c as [a b]. unfold check_circuit. simpl in A, B. kstep. kstep. eapply keeps_bind with (Q := fun _ => True).
  { kstep; [now apply keeps_ret|]. eapply keeps_bind; [now apply k_set_failed|]. intros _ _. now apply k_set_failed. }
  intros _ _. eapply keeps_any. apply keeps_gets.
Qed.
(** *** reading an LSP's metric *)
Lemma k_get_metric l : In l (m_lsps s0) -> K (get_manual_metric l).
Proof.
  intros H s Hs. split; [|auto]. unfold get_manual_metric. rewrite bind_gets. destruct (l_imm (h_ls s l)) as [z|] eqn:Z; [|exact Hs].
  destruct (Z.eqb_spec z 0); [exact Hs|]. destruct (Z.ltb_spec 0 z); [|exact Hs]. rewrite bind_modify. apply cj_ls; auto. unfold omm. simpl. rewrite Z.
  destruct (Z.eqb_spec z 0); [lia|]. destruct (Z.ltb_spec 0 z); [auto|lia].
Qed.
Lemma k_metric l : In l (m_lsps s0) -> K (effective_metric E k l).
Proof.
  intros H s Hs. split; [|auto]. unfold effective_metric. destruct (k_get_metric l H s Hs) as [J1 _]. destruct (get_mm_run E l s) as (s1 & R1 & Q1 & V1).
  unfold bind at 1. rewrite R1 in *. destruct (omm (h_ls s l)) as [[z|]|e] eqn:O; [| |exact J1].
  - specialize (V1 _ eq_refl). rewrite bind_modify.
    assert (J2 : J (upd_ls l (fun r => ls_mm (l_mm r) None r) s1)).
    { apply cj_ls; auto. rewrite (rs_mm _ _ _ (proj1 Q1)), O. unfold omm. simpl. now rewrite V1. }
    revert J2. generalize (upd_ls l (fun r => ls_mm (l_mm r) None r) s1). intros s2 J2.
    destruct (k_get_metric l H s2 J2) as [J3 _]. unfold bind. destruct (get_manual_metric l s2) as [s3 [[y|]|e]]; exact J3.
  - rewrite bind_gets. destruct (says_unrouted _); [exact J1|]. match goal with |- J (fst (match ?e with _ => _ end s1)) => destruct e end; exact J1.
Qed.
Lemma k_set_setup l q : In l (m_lsps s0) -> K (set_setup_bw l q).
Proof. intros H. unfold set_setup_bw. kgo; apply cj_ls; auto. Qed.
Lemma k_add_reserved i q : In i (m_ifs s0) -> K (add_reserved i q).
Proof. intros H. unfold add_reserved. kgo; apply cj_if; auto. Qed.
Lemma k_add_traffic i q : In i (m_ifs s0) -> K (add_traffic i q).
Proof. intros H. unfold add_traffic. kgo; apply cj_if; auto. Qed.
Lemma k_choice {A} (d : A) l (Q : A -> Prop) : Q d -> (forall x, In x l -> Q x) -> keeps J (random_choice E d l) Q.
Proof.
  intros Hd Hl. unfold random_choice. kstep. kstep; [now apply cj_rn|]. apply keeps_ret.
  match goal with |- Q (nth ?n l d) => destruct (nth_in_or_default n l d) as [X | ->]; auto end.
Qed.
Lemma own_build s key ls l : J s -> In (key, ls) (build_groups E (lsrc s) (ldst s) (m_lsps s)) -> In l ls -> In l (m_lsps s0).
Proof.
  intros H. rewrite (k_lsps s H). generalize (lsrc s) (ldst s). intros f g. unfold build_groups.
  set (good := fun d : list (string * list nat) => forall key ls l, In (key, ls) d -> In l ls -> In l (m_lsps s0)).
  assert (D : forall key d, good d -> good (dict_del key d)).
  { intros q d Hd a b c X Y. unfold dict_del in X. apply filter_In in X as [X _]. eapply Hd; eauto. }
  assert (S : forall key d ls, good d -> incl ls (m_lsps s0) -> good (dict_set key ls d)).
  { intros q d. induction d as [|[a b] d IH]; simpl; intros ls' Hd Hi x y z X Y.
    - destruct X as [X|[]]. injection X as <- <-. auto.
    - destruct (String.eqb q a).
      + destruct X as [X|X]; [injection X as <- <-; auto|]. apply (Hd x y z); [now right|auto].
      + destruct X as [X|X]; [injection X as <- <-; apply (Hd a b z); [now left|auto]|]. refine (IH ls' _ Hi x y z X Y). intros u v w ? ?. apply (Hd u v w); [now right|auto]. }
  assert (G : good (fold_left (fun d sn => fold_left (fun d dn => match filter (fun o => String.eqb (f o) sn && String.eqb (g o) dn) (m_lsps s0) with [] => dict_del (pair_key sn dn) d | l => dict_set (pair_key sn dn) l d end) (set_iter E (map g (m_lsps s0))) d) (set_iter E (map f (m_lsps s0))) [])); [|intros X Y; exact (G key ls l X Y)].
  assert (F : forall sn dns d, good d -> good (fold_left (fun d dn => match filter (fun o => String.eqb (f o) sn && String.eqb (g o) dn) (m_lsps s0) with [] => dict_del (pair_key sn dn) d | l => dict_set (pair_key sn dn) l d end) dns d)).
  { intros sn dns. induction dns as [|dn dns IH]; simpl; intros d Hd; auto. apply IH. destruct (filter _ _) as [|x xs] eqn:Z; [now apply D|]. apply S; auto. rewrite <- Z. intros o Ho. now apply filter_In in Ho. }
  assert (B : good []) by (intros a b c []). revert B. generalize (@nil (string * list nat)). induction (set_iter E (map f (m_lsps s0))) as [|sn sns IH]; simpl; intros d Hd; auto.
Qed.
End Closed.

Lemma closed_ck J : closed J -> closed (fun s => J s /\ forall c, In c (m_ckts s) -> In (fst c) (m_ifs s0) /\ In (snd c) (m_ifs s0)).
Proof.
  intros H. constructor.
  - intros s [X _]. now apply (cj_in _ H).
  - intros i f s Hi [X Y]. split; [now apply cj_if|exact Y].
  - intros i f s Hi [X Y]. split; [now apply cj_nd|exact Y].
  - intros i f s Hi [X Y]. split; [now apply cj_sr|exact Y].
  - intros i f s Hi Hf Hm [X Y]. split; [now apply cj_ls|exact Y].
  - intros cs s Hc [X Y]. split; [now apply cj_ck|exact Hc].
  - intros s [X Y]. split; [now apply cj_rn|exact Y].
  - intros g s Hg [X Y]. split; [now apply cj_gr|exact Y].
Qed.

Lemma k_validate J : closed J -> keeps J (validate_model E k) (fun _ => True).
Proof.
  intros H s Hs. split; [|auto]. unfold validate_model.
  match goal with |- J (fst (bind _ ?f s)) => set (rest := f) end.
  assert (X : keeps (fun s => J s /\ forall c, In c (m_ckts s) -> In (fst c) (m_ifs s0) /\ In (snd c) (m_ifs s0)) (rest tt) (fun _ => True)).
  { unfold rest. do 6 kstep. eapply keeps_bind; [apply keeps_gets|]. intros cs (t & [_ Ht] & ->).
    eapply keeps_bind; [apply keeps_mmap with (Q := fun _ => True); intros c Hc; destruct (Ht c Hc); eapply k_check_circuit; eauto using closed_ck|].
    intros caps _. do 3 kstep. match goal with |- keeps _ (match ?e with _ => _ end) _ => destruct e end; kgo. }
  destruct (k_make_circuits J H s Hs) as [J1 _]. destruct (make_circuits E k s) as [s1 [[]|e]] eqn:R.
  - rewrite (bind_run _ _ _ _ _ R). simpl in J1. apply (X s1). split; auto. intros c Hc. exact (make_circuits_own J H s s1 Hs R c Hc).
  - unfold bind. rewrite R. exact J1.
Qed.

(** ** Failing and repairing *)
Section Outage.
Variable J : st -> Prop.
Hypothesis HJ : closed J.
Notation K m := (keeps J m (fun _ => True)).
Ltac fnd := match goal with
  | H : get_remote_interface ?s ?i = Ok ?x |- In ?x _ => apply (in_get_remote J HJ s i x); assumption
  | H : get_interface ?s ?i ?n = Ok ?x |- In ?x _ => apply (in_get_interface J HJ s i n x); assumption
  | H : get_node ?s ?n = Ok ?x |- In ?x _ => apply (in_get_node J HJ s n x); assumption
  | H : get_srlg ?s ?n = Ok ?x |- In ?x _ => apply (in_get_srlg J HJ s n x); assumption
  end.

Lemma k_fail_interface a b : K (fail_interface a b).
Proof.
  unfold fail_interface. kstep. kstep. eapply keeps_bind; [|intros _ _]; apply k_set_failed; auto.
  - fnd.
  - fnd.
Qed.
Lemma k_fail_node n : K (fail_node n).
Proof.
  unfold fail_node. kstep. kstep; [kstep; apply k_fail_interface|]. kstep. apply k_nd_set_failed; auto. fnd.
Qed.
Lemma k_fail_srlg n : K (fail_srlg n).
Proof.
  unfold fail_srlg. kstep. kstep. kstep.
  { kstep. kstep; [|now apply keeps_ret]. kstep. apply k_fail_node. }
  kstep. kstep.
  { kstep. kstep; [|now apply keeps_ret]. kstep. apply k_fail_interface. }
  kstep. apply cj_sr; auto. fnd.
Qed.
Lemma k_unfail_interface a b r : K (unfail_interface E k a b r).
Proof.
  unfold unfail_interface. do 4 kstep. eapply keeps_bind with (Q := fun _ => True).
  { kstep; [now apply keeps_ret|]. kstep. eapply keeps_any. apply keeps_gets. }
  intros [] _.
  - assert (In a1 (m_ifs s0)) by fnd.
    assert (In a0 (m_ifs s0)) by fnd.
    eapply keeps_bind; [now apply k_set_failed|]. intros _ _. kstep; [now apply cj_if|].
    eapply keeps_bind; [now apply k_set_failed|]. intros _ _. kstep; [now apply cj_if|]. now apply k_validate.
  - kgo.
Qed.
Lemma k_unfail_node n : K (unfail_node E k n).
Proof.
  unfold unfail_node. kstep. eapply keeps_bind; [apply k_nd_set_failed; auto; fnd|]. intros _ _. kstep. kstep.
  kstep. kstep; [now apply keeps_ret|]. kstep. eapply keeps_bind; [apply k_unfail_interface|]. intros _ _. kstep. kstep. apply k_unfail_interface.
Qed.
Lemma k_ignore m : K m -> K (ignore_model_exn m).
Proof. intros H. apply keeps_try; auto. intros e m'. destruct (is_model_exn e); intros X; [injection X as <-; now apply keeps_ret|discriminate X]. Qed.
Lemma k_unfail_srlg n : K (unfail_srlg E k n).
Proof.
  unfold unfail_srlg. kstep. kstep; [apply cj_sr; auto; fnd|]. kstep. kstep.
  { kstep. kstep; [|now apply keeps_ret]. kstep. apply k_ignore, k_unfail_node. }
  kstep. kstep. kstep. kstep; [|now apply keeps_ret]. kstep. apply k_ignore, k_unfail_interface.
Qed.
Lemma k_iface_fail i : In i (m_ifs s0) -> K (iface_fail i).
Proof.
  intros H. unfold iface_fail. repeat (kstep || (eapply keeps_bind; [apply k_set_failed; auto|intros _ _]) || (apply k_set_failed; auto)); fnd.
Qed.
Lemma k_iface_unfail i : In i (m_ifs s0) -> K (iface_unfail i).
Proof.
  intros H. unfold iface_unfail. repeat (kstep || (eapply keeps_bind; [apply k_set_failed; auto|intros _ _]) || (apply k_set_failed; auto)); fnd.
Qed.
End Outage.

(** ** Simulating *)
Definition own_item (it : item) : Prop := match it with IIf i => In i (m_ifs s0) | ILsp l => In l (m_lsps s0) end.
Record full (s : st) : Prop := {
  fu_in : steady s;
  fu_ls : forall l, In l (m_lsps s0) -> match l_path (h_ls s l) with PRouted p _ _ => incl p (m_ifs s0) | _ => True end;
  fu_dm : forall d, In d (m_dms s0) -> match d_path (h_dm s d) with DPaths ps => forall p it, In p ps -> In it p -> own_item it | _ => True end;
  fu_gr : forall key ls l, In (key, ls) (m_groups s) -> In l ls -> In l (m_lsps s0) }.

Lemma full_closed : closed full.
Proof.
  pose proof steady_closed as W. constructor; intros; try match goal with H : full ?s |- full _ => destruct H as [A B C D] end; try (apply sy_in; now apply fu_in); constructor; simpl; auto;
    try (first [apply (cj_if _ W)|apply (cj_nd _ W)|apply (cj_sr _ W)|apply (cj_ls _ W)|apply (cj_ck _ W)|apply (cj_rn _ W)|apply (cj_gr _ W)]; auto; fail).
  - intros x Hx. destruct (Nat.eq_dec x l) as [->|N]; [rewrite fupd_same, H0|rewrite fupd_other by auto]; exact (B _ Hx).
Qed.

(** an LSP of the model gets a path of own interfaces, or none *)
Lemma full_path l p s : In l (m_lsps s0) -> match p with PRouted q _ _ => incl q (m_ifs s0) | _ => True end -> forall f, (forall r, l_path (f r) = p) -> (forall r, omm (f r) = omm r) -> full s -> full (upd_ls l f s).
Proof.
  intros Hl Hp f Hf Hm [[[(A1 & A2 & A3 & A4 & A5) B1 B2 B3 B4 B5 B6] BN BM] B C D]. constructor; simpl; auto.
  - constructor; simpl; auto.
    + constructor; simpl; auto; [repeat split; assumption|]. intros x Hx. rewrite fupd_other by (intros ->; contradiction). auto.
    + intros x. apply (fupd_cases _ _ _ _ (fun r => omm r = omm (h_ls s0 x))); [intros ->; now rewrite Hm|auto].
  - intros x Hx. destruct (Nat.eq_dec x l) as [->|N]; [now rewrite fupd_same, Hf|rewrite fupd_other by auto; exact (B _ Hx)].
Qed.
Lemma full_dmd d s f : In d (m_dms s0) -> (forall r, match d_path (f r) with DPaths ps => forall p it, In p ps -> In it p -> own_item it | _ => True end \/ d_path (f r) = d_path r) -> full s -> full (upd_dm d f s).
Proof.
  intros Hl Hf [[[(A1 & A2 & A3 & A4 & A5) B1 B2 B3 B4 B5 B6] BN BM] B C D]. constructor; simpl; auto.
  - constructor; simpl; auto. constructor; simpl; auto; [repeat split; assumption|]. intros x Hx. rewrite fupd_other by (intros ->; contradiction). auto.
  - intros x Hx. destruct (Nat.eq_dec x d) as [->|N]; [rewrite fupd_same; destruct (Hf (h_dm s d)) as [X | ->]; [exact X|exact (C _ Hx)]|rewrite fupd_other by auto; exact (C _ Hx)].
Qed.

Notation K m := (keeps full m (fun _ => True)).
Notation ownl := (fun ls : list nat => incl ls (m_lsps s0)).
Notation ownp := (fun ps : list (list nat) => forall p, In p ps -> incl p (m_ifs s0)).
Notation ownps := (fun ps : list (list item) => forall p it, In p ps -> In it p -> own_item it).

Lemma in_di_add es e x : In x (di_add es e) -> In x es \/ x = e.
Proof. induction es as [|a es IH]; simpl; [intros [->|[]]; auto|]. destruct (same_ends a e); simpl; intros [H|H]; auto. destruct (IH H); auto. Qed.
Lemma in_nx_edges es x : In x (nx_edges k es) -> In x es.
Proof.
  destruct k; simpl; auto. assert (X : forall l acc, In x (fold_left di_add l acc) -> In x acc \/ In x l).
  { induction l as [|a l IH]; simpl; auto. intros acc H. apply IH in H as [H|H]; auto. apply in_di_add in H as [H|H]; auto. }
  intros H. apply X in H as [[]|H]; auto.
Qed.
Lemma in_ecmp G u v i : In i (ecmp_links G u v) -> In i (map e_i (g_edges G)).
Proof.
  unfold ecmp_links. destruct (Zmin_list _); [|intros []]. intros H. apply in_map_iff in H as (e & <- & H). apply filter_In in H as [H _]. apply filter_In in H as [H _]. now apply in_map.
Qed.
Lemma product_in {A} (ls : list (list A)) p x : In p (product ls) -> In x p -> exists l, In l ls /\ In x l.
Proof.
  revert p. induction ls as [|l ls IH]; simpl; intros p H Hx; [destruct H as [<-|[]]; destruct Hx|].
  apply in_flat_map in H as (y & Hy & H). apply in_map_iff in H as (q & <- & Hq). destruct Hx as [<-|Hx]; [eauto|]. destruct (IH q Hq Hx) as (m & ? & ?). eauto.
Qed.
Lemma own_perf s np : full s -> incl (perf_path s np) (m_ifs s0).
Proof.
  intros H i Hi. unfold perf_path in Hi. apply in_flat_map in Hi as (uv & _ & Hi). destruct (first_between s (fst uv) (snd uv)) as [j|] eqn:F; [|destruct Hi].
  destruct Hi as [<-|[]]. eapply in_first; eauto using full_closed.
Qed.
(** graphs whose edges stand for own interfaces *)
Definition own_graph (G : graph) : Prop := incl (map e_i (g_edges G)) (m_ifs s0).
Lemma own_make s ok names : full s -> own_graph (mkG (nx_edges k (map (edge_of s) (filter ok (m_ifs s)))) names).
Proof.
  intros H i Hi. simpl in Hi. apply in_map_iff in Hi as (e & <- & He). apply in_nx_edges in He. apply in_map_iff in He as (j & <- & Hj). apply filter_In in Hj as [Hj _].
  simpl. now rewrite <- (k_ifs full full_closed s H).
Qed.
Lemma own_paths s G nps : full s -> own_graph G -> ownp (iface_paths k s G nps).
Proof.
  intros H HG p Hp. unfold iface_paths in Hp. destruct k.
  - apply in_flat_map in Hp as (np & _ & Hp). intros i Hi. unfold flex_paths in Hp. destruct (product_in _ _ _ Hp Hi) as (l & Hl & Hi'). apply in_map_iff in Hl as (uv & <- & _).
    apply HG. eapply in_ecmp; eauto.
  - apply in_map_iff in Hp as (np & <- & _). now apply own_perf.
Qed.
Lemma own_routed s src dst cur resv bw : full s -> ownp (paths_for_routed_lsp E k s src dst cur resv bw).
Proof.
  intros H p Hp. unfold paths_for_routed_lsp in Hp. destruct (nx_asp _ _ _ _) as [nps| |]; try (destruct Hp). destruct k.
  - apply in_map_iff in Hp as (np & <- & _). intros i Hi. unfold flex_routed_path in Hi. apply in_flat_map in Hi as (uv & _ & Hi). apply filter_In in Hi as [Hi _]. eapply in_between; eauto using full_closed.
  - apply in_map_iff in Hp as (np & <- & _). now apply own_perf.
Qed.

(** *** LSPs *)
Lemma in_lsp_ifs s l p : full s -> In l (m_lsps s0) -> lsp_interfaces s l = Ok p -> incl p (m_ifs s0).
Proof. intros H Hl X. pose proof (fu_ls s H l Hl) as Y. unfold lsp_interfaces in X. destruct (l_path (h_ls s l)); try discriminate X. injection X as <-. exact Y. Qed.
Lemma k_choose ps : ownp ps -> keeps full (choose_path E ps) (fun p => incl p (m_ifs s0)).
Proof.
  intros H. unfold choose_path. assert (X : ownp ps -> keeps full (match Nmin_list (map (@List.length nat) ps) with None => ret [] | Some n => match filter (fun p => Nat.eqb (List.length p) n) ps with [p] => ret p | low => random_choice E [] low end end) (fun p => incl p (m_ifs s0))).
  { clear H. intros H. destruct (Nmin_list _) as [n|]; [|apply keeps_ret; intros x []].
    assert (Z : ownp (filter (fun p => Nat.eqb (List.length p) n) ps)) by (intros p Hp; apply filter_In in Hp as [Hp _]; auto).
    destruct (filter _ _) as [|a [|b l]]; [|apply keeps_ret; apply Z; now left|]; apply (k_choice full full_closed); auto; intros x []. }
  destruct ps as [|a [|b l]]; auto. apply keeps_ret. apply H. now left.
Qed.
Lemma k_determine l t : In l (m_lsps s0) -> K (determine_lsp E k l t).
Proof.
  intros H. pose proof full_closed as FC. unfold determine_lsp. kstep. kstep; [apply cj_ls; auto|]. eapply keeps_bind; [now apply (k_set_setup full FC)|]. intros _ _.
  kstep. eapply keeps_bind; [apply keeps_gets|]. intros G (s & Hs & ->). assert (HG : own_graph (make_graph k s false (lsp_setup_value x0 l) true)) by now apply own_make.
  kstep; [now apply (full_path l PEmpty)|]. kstep. kstep.
  - kstep. eapply keeps_bind; [apply keeps_mfilter; intros; kstep; now apply keeps_ret|]. intros w Hw.
    destruct w as [|w1 ws]; [kstep; now apply (full_path l PUnrouted)|]. eapply keeps_bind; [apply k_choose; intros p Hp; eapply own_paths; eauto|]. intros p Hp.
    eapply keeps_bind with (Q := fun _ => True).
    { unfold add_lsp_path_data. kstep. kstep. match goal with |- full (upd_ls l (ls_path ?p0) _) => apply (full_path l p0); auto end. }
    intros _ _. kstep. apply (k_add_reserved full FC); auto.
  - kstep. now apply (full_path l PUnrouted).
  - apply keeps_raise.
Qed.
Lemma k_find l bw : In l (m_lsps s0) -> K (find_rsvp_path_w_bw E k l bw).
Proof.
  intros H. pose proof full_closed as FC. unfold find_rsvp_path_w_bw. kstep. kstep. eapply keeps_bind; [apply keeps_gets|]. intros ps (s & Hs & ->).
  eapply keeps_bind; [apply keeps_mmap with (Q := fun p => match p with PRouted q _ _ => incl q (m_ifs s0) | _ => True end)|].
  { intros p Hp. apply own_routed in Hp; auto. kstep. kstep; [|apply keeps_raise]. now apply keeps_ret. }
  intros infos Hi. assert (X : forall p, match p with PRouted q _ _ => incl q (m_ifs s0) | _ => True end -> K (modify (upd_ls l (ls_path p)) ;;; modify (upd_ls l (ls_res (RNum bw))) ;;; set_setup_bw l bw)).
  { intros p Hp. kstep; [now apply (full_path l p)|]. kstep; [now apply cj_ls|]. now apply (k_set_setup full FC). }
  destruct infos as [|i1 [|i2 ir]]; [now apply keeps_ret|apply X, Hi; now left|].
  eapply keeps_bind; [apply (k_choice full FC) with (Q := fun p => match p with PRouted q _ _ => incl q (m_ifs s0) | _ => True end); [exact Logic.I|exact Hi]|].
  intros p Hp. now apply X.
Qed.
Lemma k_optimize l bw : In l (m_lsps s0) -> K (optimize_lsp E k bw l).
Proof.
  intros H. pose proof full_closed as FC. unfold optimize_lsp. eapply keeps_bind; [apply keeps_reads|]. intros before (s & Hs & Hb). apply in_lsp_ifs in Hb; auto.
  kstep. eapply keeps_bind; [now apply k_find|]. intros _ _. kstep. kstep; [now apply keeps_ret|]. kstep; [apply (k_add_reserved full FC); auto|].
  eapply keeps_bind; [apply keeps_reads|]. intros after (t & Ht & Ha). apply in_lsp_ifs in Ha; auto. kstep. apply (k_add_reserved full FC); auto.
Qed.
Lemma k_groups : keeps full (parallel_lsp_groups E) (fun g => forall key ls, In (key, ls) g -> incl ls (m_lsps s0)).
Proof.
  pose proof full_closed as FC. unfold parallel_lsp_groups. eapply keeps_bind; [apply keeps_gets|]. intros g (s & Hs & ->). destruct (m_groups s) as [|a r] eqn:G.
  - eapply keeps_bind; [apply keeps_gets|]. intros g (t & Ht & ->).
    assert (X : forall key ls l, In (key, ls) (build_groups E (lsrc t) (ldst t) (m_lsps t)) -> In l ls -> In l (m_lsps s0)) by (intros; eapply own_build; eauto).
    kstep; [now apply cj_gr|]. apply keeps_ret. intros key ls A l B. eauto.
  - apply keeps_ret. rewrite <- G. intros key ls A l B. eapply (fu_gr s Hs); eauto.
Qed.
Lemma k_route_group dg key ls : incl ls (m_lsps s0) -> K (route_lsp_group E k dg (key, ls)).
Proof.
  intros H. unfold route_lsp_group. kstep. kstep; [apply k_determine; auto|]. kstep. kstep; [|now apply keeps_ret]. kstep. apply k_optimize. apply filter_In in H0 as [H0 _] || idtac.
  match goal with X : In _ (filter _ _) |- _ => apply filter_In in X as [X _]; auto end.
Qed.
Lemma k_route_lsps : K (route_lsps E k).
Proof.
  unfold route_lsps. kstep. kstep.
  { kstep. apply (cj_if _ full_closed); auto. match goal with H : full ?s, X : In _ (m_ifs ?s) |- _ => now rewrite (k_ifs full full_closed s H) in X end. }
  eapply keeps_bind; [apply k_groups|]. intros g Hg. kstep. kstep. destruct x2 as [key ls] || idtac. match goal with X : In ?p g |- _ => destruct p as [key ls] end. apply k_route_group. eauto.
Qed.

(** *** Demands *)
Lemma in_group g key ls : (forall key ls, In (key, ls) g -> incl ls (m_lsps s0)) -> dict_get key g = Some ls -> incl ls (m_lsps s0).
Proof.
  intros H. induction g as [|[a b] g IH]; simpl; [discriminate|]. destruct (String.eqb key a); [intros X; injection X as <-; apply (H a); now left|].
  apply IH. intros; eapply H; right; eauto.
Qed.
Lemma k_min key : keeps full (min_metric_lsps E k key) ownl.
Proof.
  pose proof full_closed as FC. unfold min_metric_lsps. eapply keeps_bind; [apply k_groups|]. intros g Hg. destruct (dict_get key g) as [c|] eqn:D; [|apply keeps_ret; intros x []].
  apply in_group in D; auto. kstep. eapply keeps_bind; [apply keeps_mmap with (Q := fun _ => True); intros l Hl; apply filter_In in Hl as [Hl _]; apply (k_metric full FC); auto|].
  intros ms _. assert (X : forall m, keeps full (mfilter (fun l => m' <- effective_metric E k l ;; r <- gets (fun s => lsp_routed s l) ;; ret (mval_eqb m' m && r)) c) ownl).
  { intros m. eapply keeps_weak; [apply keeps_mfilter|]. 2: { intros r Hr. now apply incl_tran with c. } intros l Hl. eapply keeps_bind; [apply (k_metric full FC); auto|]. intros. kstep. now apply keeps_ret. }
  destruct (py_min ms) as [m|[]]; auto; try apply keeps_raise. apply keeps_ret. intros ? [].
Qed.
Lemma k_first nm ds : keeps full (first_lsps E k nm ds) ownl.
Proof.
  induction ds as [|d ds IH]; simpl; [apply keeps_ret; intros x []|]. eapply keeps_bind; [apply k_min|]. intros ls Hl. destruct ls; auto. now apply keeps_ret.
Qed.
Lemma k_path_lsps whole : forall rest skip acc, (forall g, In g acc -> incl g (m_lsps s0)) -> keeps full (path_lsps E k whole rest skip acc) (fun gs => forall g, In g gs -> incl g (m_lsps s0)).
Proof.
  induction rest as [|n rest IH]; simpl; intros skip acc H; [now apply keeps_ret|]. eapply keeps_bind with (Q := fun _ => True).
  { kgo. }
  intros [] _; [auto|]. kstep. kstep. kstep; [|auto]. kstep. eapply keeps_bind; [apply k_first|]. intros ls Hl. destruct ls as [|l ls]; [auto|]. kstep. apply IH.
  intros g Hg. apply in_app_or in Hg as [Hg|[<-|[]]]; auto.
Qed.
Lemma k_last nps : forall acc, (forall g, In g acc -> incl g (m_lsps s0)) -> keeps full (last_path_lsps E k nps acc) (fun gs => forall g, In g gs -> incl g (m_lsps s0)).
Proof.
  induction nps as [|np nps IH]; simpl; intros acc H; [now apply keeps_ret|]. eapply keeps_bind; [apply k_path_lsps; intros g []|]. auto.
Qed.
Lemma own_splice p a b l it : (forall it, In it p -> own_item it) -> In l (m_lsps s0) -> In it (splice p a b l) -> own_item it.
Proof.
  intros H Hl X. unfold splice in X. apply in_app_or in X as [X|X]; [apply H; rewrite <- (firstn_skipn a p); apply in_or_app; now left|]. apply in_app_or in X as [[<-|[]]|X]; [exact Hl|]. apply H. rewrite <- (firstn_skipn (Nat.max a b) p). apply in_or_app. now right.
Qed.
Lemma own_insert s gs p fps : (forall g, In g gs -> incl g (m_lsps s0)) -> (forall it, In it p -> own_item it) -> insert_lsps s gs p = Some fps -> ownps fps.
Proof.
  intros Hg Hp. unfold insert_lsps. destruct (opt_all _) as [sl|] eqn:O; [|discriminate]. intros X. injection X as <-.
  assert (S : forall c x, In c sl -> In x c -> In (snd x) (m_lsps s0)).
  { clear Hp. revert sl O. induction gs as [|g gs IH]; simpl; intros sl O.
    - injection O as <-. intros c x [].
    - destruct (group_slice s p g) as [c0|] eqn:G; [|discriminate O]. destruct (opt_all (map (group_slice s p) gs)) as [cs|] eqn:O2; [|discriminate O]. injection O as <-.
      intros c x [<-|Hc] Hx; [|eapply IH; eauto; intros; apply Hg; now right]. unfold group_slice in G. destruct g as [|l0 g]; [discriminate G|].
      destruct (pos_where _ p) as [a|]; [|discriminate G]. destruct (pos_where _ p) as [b|]; [|discriminate G]. injection G as <-.
      assert (Z : In x (map (fun l => (a, Datatypes.S b, l)) (l0 :: g))) by exact Hx. apply in_map_iff in Z as (l & <- & Hl). simpl. apply (Hg (l0 :: g)); auto. now left. }
  intros q it Hq Hit. apply in_map_iff in Hq as (combo & <- & Hc).
  assert (C : forall x, In x combo -> In (snd x) (m_lsps s0)).
  { intros x Hx. destruct (product_in _ _ _ Hc Hx) as (c & Hc' & Hx'). apply in_rev in Hc'. eauto. }
  clear Hc O S. revert p Hp Hit. induction combo as [|c combo IH]; simpl; intros p Hp Hit; auto. eapply IH; [|intros; eapply own_splice; [exact Hp| |eassumption]|exact Hit].
  - intros x Hx. apply C. now right.
  - apply C. now left.
Qed.
Lemma own_substitute s gs ps : (forall g, In g gs -> incl g (m_lsps s0)) -> ownps ps -> ownps (substitute_lsps s gs ps).
Proof.
  intros Hg Hp. unfold substitute_lsps. destruct gs as [|g gs]; auto. assert (H0 : ownps []) by (intros p it []).
  revert Hp H0. match goal with |- _ -> _ -> forall p it, In p (fold_left ?f ps []) -> _ => set (step := f) end.
  generalize (@nil (list item)). induction ps as [|p ps IH]; simpl; intros acc Hp Ha; auto. apply IH; [intros q it X Y; eapply Hp; eauto|]. unfold step.
  destruct (insert_lsps s (g :: gs) p) as [fps|] eqn:I0.
  - pose proof (own_insert s (g :: gs) p fps Hg (fun it X => Hp p it (or_introl eq_refl) X) I0) as I1. clear I0. rename I1 into I0. clear - I0 Ha. revert acc Ha. induction fps as [|f fps IH]; simpl; intros acc Ha; auto. apply IH; [intros q it X Y; eapply I0; eauto; now right|].
    destruct (existsb _ acc); auto. intros q it X Y. apply in_app_or in X as [X|[<-|[]]]; [eapply Ha; eauto|eapply I0; [now left|eauto]].
  - intros q it X Y. apply in_app_or in X as [X|[<-|[]]]; [eapply Ha; eauto|eapply Hp; eauto].
Qed.
Lemma k_path_metric p : (forall it, In it p -> own_item it) -> K (path_metric E k p).
Proof.
  induction p as [|[i|l] p IH]; simpl; intros H; [now apply keeps_ret| |].
  - kstep. eapply keeps_bind; [apply IH; auto|]. intros. now apply keeps_ret.
  - eapply keeps_bind; [apply (k_metric full full_closed); apply (H (ILsp l)); now left|]. intros [z| |] _; try apply keeps_raise. eapply keeps_bind; [apply IH; auto|]. intros. now apply keeps_ret.
Qed.
Lemma k_inspect ps : ownps ps -> keeps full (inspect_metrics E k ps) ownps.
Proof.
  intros H. unfold inspect_metrics. eapply keeps_bind; [apply keeps_mmap with (Q := fun pm => In (fst pm) ps)|].
  { intros p Hp. eapply keeps_bind; [apply k_path_metric; eauto|]. intros. now apply keeps_ret. }
  intros pms Hpm. destruct (Zmin_list _); apply keeps_ret; auto. intros p it X Y. apply in_map_iff in X as (pm & <- & X). apply filter_In in X as [X _]. eapply H; eauto.
Qed.
Lemma k_shortcuts ps nps : ownps ps -> keeps full (find_igp_shortcuts E k ps nps) ownps.
Proof.
  intros H. unfold find_igp_shortcuts. eapply keeps_bind; [apply keeps_mmap with (Q := fun _ => True); intros; kstep; eapply keeps_any; apply keeps_gets|]. intros fl _.
  kstep; [|now apply keeps_ret]. eapply keeps_bind; [apply k_last; intros g []|]. intros gs Hg. eapply keeps_bind; [apply keeps_gets|]. intros qs (s & Hs & ->).
  assert (X : ownps (substitute_lsps s gs ps)) by now apply own_substitute. destruct (substitute_lsps s gs ps) as [|a [|b r]]; [now apply k_inspect|now apply keeps_ret|now apply k_inspect].
Qed.
Lemma k_e2e d : keeps full (e2e_lsps E k d) ownl.
Proof.
  pose proof full_closed as FC. unfold e2e_lsps. eapply keeps_bind; [apply k_groups|]. intros g Hg. kstep. destruct (dict_get _ g) as [c|] eqn:D; [|apply keeps_ret; intros z []].
  apply in_group in D; auto. eapply keeps_bind; [apply keeps_gets|]. intros r (s & Hs & ->). assert (R : incl (filter (lsp_routed s) c) (m_lsps s0)) by (intros l Hl; apply filter_In in Hl as [Hl _]; auto).
  destruct (filter _ c) as [|a l]; [apply keeps_ret; intros z []|]. eapply keeps_bind; [apply keeps_mmap with (Q := fun _ => True); intros; apply (k_metric full FC); auto|].
  intros ms _. destruct (py_min ms) as [m|e]; [|apply keeps_raise]. eapply keeps_weak; [apply keeps_mfilter|]. 2: { intros w Hw. now apply incl_tran with (a :: l). }
  intros z Hz. eapply keeps_bind; [apply (k_metric full FC); auto|]. intros. now apply keeps_ret.
Qed.
Lemma k_route_demand G d : own_graph G -> In d (m_dms s0) -> K (route_demand E k G d).
Proof.
  intros HG Hd. unfold route_demand. kstep; [apply full_dmd; auto; intros r; left; intros p it []|]. eapply keeps_bind; [apply k_e2e|]. intros ls Hl. destruct ls as [|a ls].
  - kstep. destruct (nx_asp _ _ _ _) as [nps| |].
    + eapply keeps_bind; [apply keeps_gets|]. intros ps (s & Hs & ->).
      assert (X : ownps (map (map IIf) (iface_paths k s G nps))).
      { intros p it A B. apply in_map_iff in A as (q & <- & A). apply in_map_iff in B as (i & <- & B). simpl. exact (own_paths s G nps Hs HG q A i B). }
      eapply keeps_bind with (Q := ownps); [destruct k eqn:Hk|].
      * rewrite <- Hk in *. now apply k_shortcuts.
      * now apply keeps_ret.
      * intros qs Hq. kstep. apply full_dmd; auto.
    + kstep. apply full_dmd; auto. intros r. left. exact Logic.I.
    + apply keeps_raise.
  - kstep. apply full_dmd; auto. intros r. left. simpl d_path. intros p it A B. change (In p (map (fun l => [ILsp l]) (a :: ls))) in A. apply in_map_iff in A as (l & <- & A). destruct B as [<-|[]]. simpl. auto.
Qed.
Lemma k_item infos it : own_item it -> K (add_item_traffic k infos it).
Proof.
  pose proof full_closed as FC. intros H. unfold add_item_traffic. destruct k eqn:Hk, it as [i|l]; simpl in H.
  - kstep. kstep. kstep; [now apply (k_add_traffic full FC)|now apply keeps_ret].
  - kstep. eapply keeps_bind; [apply keeps_reads|]. intros p (s & Hs & X). apply in_lsp_ifs in X; auto. kstep. apply (k_add_traffic full FC); auto.
  - kstep. now apply (k_add_traffic full FC).
  - apply keeps_raise.
Qed.
Lemma k_igp d ps : In d (m_dms s0) -> ownps ps -> K (igp_demand_traffic k d ps).
Proof.
  intros Hd H. unfold igp_demand_traffic. eapply keeps_bind; [apply keeps_gets|]. intros items (s & Hs & ->). kstep. kstep. kstep; [apply full_dmd; auto; intros r; now right|].
  kstep. apply k_item. match goal with X : In _ (item_set _ _) |- _ => apply ShareProofs.dedup_In in X; apply in_concat in X as (p & A & B) end. eapply H; eauto.
Qed.
Lemma k_lsp_traffic d ls : In d (m_dms s0) -> incl ls (m_lsps s0) -> K (lsp_demand_traffic k d ls).
Proof.
  pose proof full_closed as FC. intros Hd H. unfold lsp_demand_traffic. kstep.
  assert (A : forall q, K (mfor ls (fun l => ifs <- reads (fun s => lsp_interfaces s l) ;; mfor ifs (fun i => add_traffic i q)))).
  { intros q. kstep. eapply keeps_bind; [apply keeps_reads|]. intros p (s & Hs & X). apply in_lsp_ifs in X; auto. kstep. apply (k_add_traffic full FC); auto. }
  destruct k.
  - kstep; [apply full_dmd; auto; intros r; now right|apply A].
  - eapply keeps_bind; [apply A|]. intros _ _. kstep. apply full_dmd; auto.
Qed.
Lemma k_demand_traffic d : In d (m_dms s0) -> K (demand_traffic E k d).
Proof.
  intros Hd. unfold demand_traffic. eapply keeps_bind; [apply keeps_gets|]. intros p (s & Hs & ->). pose proof (fu_dm s Hs d Hd) as X. destruct (d_path (h_dm s d)) as [|ps]; [now apply keeps_ret|].
  kstep. eapply keeps_bind; [apply k_min|]. intros ls Hl. destruct ls; [now apply k_igp|now apply k_lsp_traffic].
Qed.
Lemma k_route_demands : K (route_demands E k).
Proof.
  pose proof full_closed as FC. unfold route_demands. eapply keeps_bind; [apply keeps_gets|]. intros G (s & Hs & ->).
  assert (HG : own_graph (make_graph k s false 0 false)) by now apply own_make. eapply keeps_bind; [apply keeps_gets|]. intros ds (t & Ht & ->). rewrite (k_dms full FC t Ht).
  kstep; [now apply k_route_demand|]. unfold update_interface_utilization. eapply keeps_bind; [apply keeps_gets|]. intros is (u & Hu & ->). rewrite (k_ifs full FC u Hu).
  kstep; [kstep; now apply cj_if|]. eapply keeps_bind; [apply keeps_gets|]. intros es (v & Hv & ->). rewrite (k_dms full FC v Hv). kstep. now apply k_demand_traffic.
Qed.

Lemma update_within s : steady s -> full (fst (update_simulation E k s)).
Proof.
  intros [W WN WM]. destruct (update_start E k s) as (s1 & P & ->).
  assert (F : full s1).
  { pose proof (k_ifs _ within_closed s W) as Ki. pose proof (k_lsps _ within_closed s W) as Kl. pose proof (k_dms _ within_closed s W) as Kd.
    destruct W as [(A1 & A2 & A3 & A4 & A5) B1 B2 B3 B4 B5 B6]. destruct P as [P1 P2 P3 P4 P5 P6 P7 P8 P9 P10 P11 P12 P13 P14].
    constructor.
    - constructor; [|intros n; rewrite P1; auto|intros l; rewrite P13; destruct (mem_nat _ _); auto; rewrite <- WM; reflexivity].
      constructor; [repeat split; congruence| | | | | |congruence].
      + intros i Hi. rewrite P12. destruct (mem_nat i (m_ifs s)) eqn:M; auto. apply mem_nat_In in M. rewrite Ki in M. contradiction.
      + intros n Hn. rewrite P1. auto.
      + intros d Hd. rewrite P14. destruct (mem_nat d (m_dms s)) eqn:M; auto. apply mem_nat_In in M. rewrite Kd in M. contradiction.
      + intros l Hl. rewrite P13. destruct (mem_nat l (m_lsps s)) eqn:M; auto. apply mem_nat_In in M. rewrite Kl in M. contradiction.
      + intros g Hg. rewrite P2. auto.
    - intros l Hl. rewrite P13. destruct (mem_nat l (m_lsps s)) eqn:M; [exact Logic.I|]. rewrite <- Kl in Hl. apply mem_nat_In in Hl. congruence.
    - intros d Hd. rewrite P14. destruct (mem_nat d (m_dms s)) eqn:M; [exact Logic.I|]. rewrite <- Kd in Hd. apply mem_nat_In in Hd. congruence.
    - rewrite P9. intros key ls l []. }
  assert (X : K (bind (route_lsps E k) (fun _ => bind (route_demands E k) (fun _ => validate_model E k)))).
  { eapply keeps_bind; [apply k_route_lsps|]. intros _ _. eapply keeps_bind; [apply k_route_demands|]. intros _ _. apply k_validate. exact full_closed. }
  now destruct (X s1 F) as [Y _].
Qed.
End Own.
