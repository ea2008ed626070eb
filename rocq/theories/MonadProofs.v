(** MonadProofs.v - reasoning about the state-and-exception monad: inversion of
    successful runs, and preservation of a relation between the state before and
    after by every run, successful or not. *)
From Verif Require Import Base Graph.

(** ** Inversion *)

Lemma bind_ok {A B} (m : M A) (f : A -> M B) s s' b :
  bind m f s = (s', Ok b) -> exists s1 a, m s = (s1, Ok a) /\ f a s1 = (s', Ok b).
Proof. unfold bind. destruct (m s) as [s1 [a|e]]; intros H; [eauto|discriminate]. Qed.

Lemma bind_inv {A B} (m : M A) (f : A -> M B) s s' r :
  bind m f s = (s', r) ->
  (exists s1 a, m s = (s1, Ok a) /\ f a s1 = (s', r)) \/ (exists e, m s = (s', Err e) /\ r = Err e).
Proof. unfold bind. destruct (m s) as [s1 [a|e]]; intros H; [left; eauto|right; injection H as <- <-; eauto]. Qed.

Lemma bind_gets {A B} (f : st -> A) (g : A -> M B) s : bind (gets f) g s = g (f s) s.
Proof. reflexivity. Qed.
Lemma bind_modify {B} (f : st -> st) (g : unit -> M B) s : bind (modify f) g s = g tt (f s).
Proof. reflexivity. Qed.
Lemma bind_ret {A B} (a : A) (g : A -> M B) s : bind (ret a) g s = g a s.
Proof. reflexivity. Qed.
Lemma bind_reads {A B} (f : st -> res A) (g : A -> M B) s :
  bind (reads f) g s = match f s with Ok a => g a s | Err e => (s, Err e) end.
Proof. unfold bind, reads. destruct (f s); reflexivity. Qed.
Lemma bind_run {A B} (m : M A) (g : A -> M B) s s1 a : m s = (s1, Ok a) -> bind m g s = g a s1.
Proof. unfold bind. now intros ->. Qed.

Lemma ret_ok {A} (a : A) s s' b : ret a s = (s', Ok b) -> s' = s /\ b = a.
Proof. unfold ret; intros H; injection H as <- <-; auto. Qed.
Lemma raise_ok {A} e s s' (b : A) : raise e s = (s', Ok b) -> False.
Proof. unfold raise; intros H; discriminate. Qed.
Lemma rbind_ok {A B} (m : res A) (f : A -> res B) b :
  rbind m f = Ok b -> exists a, m = Ok a /\ f a = Ok b.
Proof. destruct m; simpl; intros H; [eauto|discriminate]. Qed.

Lemma rmap_ok {A B} (f : A -> res B) l : forall l',
  rmap f l = Ok l' -> Forall2 (fun x y => f x = Ok y) l l'.
Proof.
  induction l as [|x l IH]; simpl; intros l' H.
  - injection H as <-. constructor.
  - apply rbind_ok in H as (y & Hy & H). apply rbind_ok in H as (ys & Hys & H).
    injection H as <-. constructor; auto.
Qed.

Lemma rmap_total {A B} (f : A -> res B) (g : A -> B) l :
  (forall x, In x l -> f x = Ok (g x)) -> rmap f l = Ok (map g l).
Proof.
  induction l as [|x l IH]; simpl; intros H; auto.
  rewrite (H x) by auto. simpl. rewrite IH by auto. reflexivity.
Qed.

Lemma rmap_ext {A B} (f g : A -> res B) l : (forall x, In x l -> f x = g x) -> rmap f l = rmap g l.
Proof.
  induction l as [|x l IH]; simpl; intros H; auto.
  rewrite (H x) by auto. rewrite IH by auto. reflexivity.
Qed.

(** Invert a hypothesis [m s = (s', Ok b)] step by step. *)

(** ** Loops *)


Lemma mfor_cons_ok {A} (x : A) l body s s' u :
  mfor (x :: l) body s = (s', Ok u) -> exists s1, body x s = (s1, Ok tt) /\ mfor l body s1 = (s', Ok tt).
Proof.
  simpl. intros H. apply bind_ok in H as (s1 & [] & H1 & H). destruct u. eauto.
Qed.

(** Invariant over the processed prefix. *)
Lemma mfor_inv {A} (l : list A) body (I : list A -> st -> Prop) :
  (forall done x rest s s', l = (done ++ x :: rest)%list -> I done s ->
     body x s = (s', Ok tt) -> I (done ++ [x])%list s') ->
  forall s s' u, I [] s -> mfor l body s = (s', Ok u) -> I l s'.
Proof.
  intros Hstep.
  assert (Gen : forall rest done s s' u, l = (done ++ rest)%list -> I done s -> mfor rest body s = (s', Ok u) -> I l s').
  { induction rest as [|x rest IH]; intros done s s' u El HI H.
    - apply ret_ok in H as [-> _]. rewrite app_nil_r in El. now subst.
    - apply mfor_cons_ok in H as (s1 & H1 & H2).
      eapply (IH (done ++ [x])%list); [| |exact H2].
      + rewrite <- app_assoc. exact El.
      + eapply Hstep; eauto. }
  intros s s' u HI H. eapply (Gen l [] s s' u); eauto.
Qed.

(** ** Relations preserved by every run *)

Definition pres {A} (R : st -> st -> Prop) (m : M A) : Prop := forall s, R s (fst (m s)).

Record preorder (R : st -> st -> Prop) : Prop := {
  po_refl : forall s, R s s;
  po_trans : forall a b c, R a b -> R b c -> R a c }.

Section Pres.
Variable R : st -> st -> Prop.
Hypothesis HR : preorder R.

Lemma pres_ret {A} (a : A) : pres R (ret a).
Proof. intros s. apply HR. Qed.
Lemma pres_raise {A} e : pres R (@raise A e).
Proof. intros s. apply HR. Qed.
Lemma pres_gets {A} (f : st -> A) : pres R (gets f).
Proof. intros s. apply HR. Qed.
Lemma pres_reads {A} (f : st -> res A) : pres R (reads f).
Proof. intros s. apply HR. Qed.
Lemma pres_modify f : (forall s, R s (f s)) -> pres R (modify f).
Proof. intros H s. apply H. Qed.
Lemma pres_bind {A B} (m : M A) (f : A -> M B) : pres R m -> (forall a, pres R (f a)) -> pres R (bind m f).
Proof.
  intros Hm Hf s. unfold bind. specialize (Hm s). destruct (m s) as [s1 [a|e]]; simpl in *; auto.
  eapply (po_trans R HR); [exact Hm|apply Hf].
Qed.
Lemma pres_try {A} (m : M A) h : pres R m -> (forall e k, h e = Some k -> pres R k) -> pres R (try m h).
Proof.
  intros Hm Hh s. unfold try. specialize (Hm s). destruct (m s) as [s1 [a|e]]; simpl in *; auto.
  destruct (h e) as [k|] eqn:E; auto. eapply (po_trans R HR); [exact Hm|]. now apply (Hh e).
Qed.
Lemma pres_mfor {A} (l : list A) body : (forall x, In x l -> pres R (body x)) -> pres R (mfor l body).
Proof.
  induction l as [|x l IH]; simpl; intros H; [apply pres_ret|].
  apply pres_bind; auto.
Qed.
Lemma pres_mmap {A B} (body : A -> M B) l : (forall x, In x l -> pres R (body x)) -> pres R (mmap body l).
Proof.
  induction l as [|x l IH]; simpl; intros H; [apply pres_ret|].
  repeat (apply pres_bind; auto; intros); apply pres_ret.
Qed.
Lemma pres_mfilter {A} (body : A -> M bool) l : (forall x, In x l -> pres R (body x)) -> pres R (mfilter body l).
Proof.
  induction l as [|x l IH]; simpl; intros H; [apply pres_ret|].
  repeat (apply pres_bind; auto; intros); apply pres_ret.
Qed.
Lemma pres_if {A} (b : bool) (m1 m2 : M A) : pres R m1 -> pres R m2 -> pres R (if b then m1 else m2).
Proof. destruct b; auto. Qed.
End Pres.

Lemma pres_run {A} R (m : M A) s s' r : pres R m -> m s = (s', r) -> R s s'.
Proof. intros H E. specialize (H s). rewrite E in H. exact H. Qed.

(** Structural steps; [lem] handles calls of other functions and modify. *)
Ltac pres_step HR :=
  match goal with
  | |- pres _ (bind _ _) => apply (pres_bind _ HR); [|intro]
  | |- pres _ (ret _) => apply (pres_ret _ HR)
  | |- pres _ (raise _) => apply (pres_raise _ HR)
  | |- pres _ (gets _) => apply (pres_gets _ HR)
  | |- pres _ (reads _) => apply (pres_reads _ HR)
  | |- pres _ (mfor _ _) => apply (pres_mfor _ HR); intros
  | |- pres _ (mmap _ _) => apply (pres_mmap _ HR); intros
  | |- pres _ (mfilter _ _) => apply (pres_mfilter _ HR); intros
  | |- pres _ (if _ then _ else _) => apply pres_if
  | |- pres _ (match ?x with _ => _ end) => destruct x
  | |- pres _ (let '(_, _) := ?p in _) => destruct p
  end.

(** ** Records that agree except for some fields *)

Definition ls_ex_mm (r r' : lsp) : Prop := r' = ls_mm (l_mm r') (l_imm r') r.
Definition ls_ex_sig (r r' : lsp) : Prop :=
  r' = mkLsp (l_src r) (l_dst r) (l_name r) (l_path r') (l_res r') (l_setup r') (l_cfg r) (l_mm r) (l_imm r).
Definition dm_ex_path (r r' : demand) : Prop := r' = dm_path (d_path r') r.
Definition dm_ex_detail (r r' : demand) : Prop := r' = dm_detail (d_detail r') r.
Definition if_ex_traffic (r r' : iface) : Prop := r' = if_traffic (i_traffic r') r.
Definition if_ex_res (r r' : iface) : Prop := r' = if_res (i_res r') r.
Definition if_ex_inckt (r r' : iface) : Prop := r' = if_inckt (i_inckt r') r.
Definition if_ex_cid (r r' : iface) : Prop := r' = if_cid (i_cid r') r.
Definition if_ex_down (r r' : iface) : Prop := r' = if_res 0 (if_failed true r).

(** Closure of a relation under updates of one kind *)
Definition c_ls (S : lsp -> lsp -> Prop) (l : nat) (R : st -> st -> Prop) : Prop :=
  forall f s, (forall r, S r (f r)) -> R s (upd_ls l f s).
Definition c_dm (S : demand -> demand -> Prop) (d : nat) (R : st -> st -> Prop) : Prop :=
  forall f s, (forall r, S r (f r)) -> R s (upd_dm d f s).
Definition c_if (S : iface -> iface -> Prop) (i : nat) (R : st -> st -> Prop) : Prop :=
  forall f s, (forall r, S r (f r)) -> R s (upd_if i f s).
Definition c_groups (R : st -> st -> Prop) : Prop := forall g s, R s (set_groups g s).
Definition c_ckts (R : st -> st -> Prop) : Prop := forall c s, R s (set_ckts c s).
Definition c_rng (R : st -> st -> Prop) : Prop := forall s, R s (bump_rng s).

Lemma fupd_same {A} (h : nat -> A) i v : fupd h i v i = v.
Proof. unfold fupd. now rewrite Nat.eqb_refl. Qed.
Lemma fupd_other {A} (h : nat -> A) i j v : i <> j -> fupd h i v j = h j.
Proof. intros H. unfold fupd. apply Nat.eqb_neq in H. now rewrite H. Qed.
Lemma fupd_cases {A} (h : nat -> A) i v j (P : A -> Prop) : (j = i -> P v) -> (j <> i -> P (h j)) -> P (fupd h i v j).
Proof. intros H1 H2. unfold fupd. destruct (Nat.eqb_spec i j); subst; auto. Qed.
