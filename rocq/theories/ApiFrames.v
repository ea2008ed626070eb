(** ApiFrames.v - preservation of a relation by the public calls, given that the
    primitive setters preserve it. *)
From Verif Require Import Base Graph Objects Sim Api Spec MonadProofs Frames.

(** The object constructors and set insertions, seen as primitives. *)
Definition put_if (v : iface) (s : st) : st := bump_next (upd_if (s_next s) (fun _ => v) s).
Definition put_nd (v : node) (s : st) : st := bump_next (upd_nd (s_next s) (fun _ => v) s).
Definition put_dm (v : demand) (s : st) : st := bump_next (upd_dm (s_next s) (fun _ => v) s).
Definition put_ls (v : lsp) (s : st) : st := bump_next (upd_ls (s_next s) (fun _ => v) s).
Definition put_sr (v : srlg) (s : st) : st := bump_next (upd_sr (s_next s) (fun _ => v) s).

Lemma pres_bind_reads {A B} (R : st -> st -> Prop) (HR : preorder R) (f : st -> res A) (g : A -> M B) :
  (forall s a, f s = Ok a -> R s (fst (g a s))) -> pres R (bind (reads f) g).
Proof.
  intros H s. unfold bind, reads. destruct (f s) as [a|e] eqn:Ef; simpl; [auto|apply HR].
Qed.

Lemma pres_bind_gets {A B} (R : st -> st -> Prop) (f : st -> A) (g : A -> M B) :
  (forall s, R s (fst (g (f s) s))) -> pres R (bind (gets f) g).
Proof. intros H s. unfold bind, gets. apply H. Qed.

Section ApiFrames.
Variable E : env.
Variable k : kind.
Variable R : st -> st -> Prop.
Hypothesis HR : preorder R.

Ltac go := repeat (first [pres_step HR | assumption]).

Section Fail.
Hypothesis Hsf : forall i b, pres R (iface_set_failed i b).

Lemma pres_fail_interface i n : pres R (fail_interface i n).
Proof. unfold fail_interface. go; apply Hsf. Qed.
Lemma pres_iface_fail i : pres R (iface_fail i).
Proof. unfold iface_fail. go; apply Hsf. Qed.
Lemma pres_iface_unfail i : pres R (iface_unfail i).
Proof. unfold iface_unfail. go; apply Hsf. Qed.

Hypothesis Hnf : forall n b, pres R (node_set_failed n b).

Lemma pres_fail_node n : pres R (fail_node n).
Proof. unfold fail_node. go; first [apply pres_fail_interface|apply Hnf]. Qed.

Lemma pres_fail_srlg n :
  (forall g, pres R (modify (upd_sr g (sr_set true)))) -> pres R (fail_srlg n).
Proof.
  intros Hs. unfold fail_srlg. go; first [apply pres_fail_interface|apply pres_fail_node|apply Hs].
Qed.

Hypothesis Hres0 : forall i, pres R (modify (upd_if i (if_res 0%Q))).
Hypothesis Hval : pres R (validate_model E k).

Lemma pres_unfail_interface i n b : pres R (unfail_interface E k i n b).
Proof. unfold unfail_interface. go; first [apply Hsf|apply Hres0|apply Hval]. Qed.

Lemma pres_unfail_node n : pres R (unfail_node E k n).
Proof. unfold unfail_node. go; first [apply Hnf|apply pres_unfail_interface]. Qed.

Lemma pres_ignore m : pres R m -> pres R (ignore_model_exn m).
Proof.
  intros H. unfold ignore_model_exn. apply (pres_try _ HR); auto.
  intros e f Hf. destruct (is_model_exn e); [injection Hf as <-|discriminate]. apply (pres_ret _ HR).
Qed.

Lemma pres_unfail_srlg n :
  (forall g s, get_srlg s n = Ok g -> R s (upd_sr g (sr_set false) s)) -> pres R (unfail_srlg E k n).
Proof.
  intros Hs. unfold unfail_srlg. apply (pres_bind_reads _ HR). intros s g Hg.
  unfold bind at 1, modify. eapply (po_trans _ HR); [apply (Hs g s Hg)|].
  generalize (upd_sr g (sr_set false) s). clear s Hg.
  match goal with |- forall s, R s (fst (?m s)) => change (pres R m) end.
  go; apply pres_ignore; first [apply pres_unfail_node|apply pres_unfail_interface].
Qed.
End Fail.

(** *** Constructors and the add calls *)
Section Add.
Hypothesis Hval : pres R (validate_model E k).

Lemma pres_node_new name : (forall s, R s (put_nd (mkNode name false 0 0 [] false) s)) -> pres R (node_new name).
Proof. intros H. unfold node_new. intros s. unfold bind, gets, modify, ret; simpl. apply H. Qed.
Lemma pres_lsp_new a b name cfg imm :
  (forall s, R s (put_ls (mkLsp a b name PInit RInit RInit cfg None imm) s)) -> pres R (lsp_new a b name cfg imm).
Proof. intros H. unfold lsp_new. intros s. unfold bind, gets, modify, ret; simpl. apply H. Qed.
Lemma pres_demand_new a b t name :
  (forall s, Qltb t 0 = false -> R s (put_dm (mkDemand a b t name DUnrouted PDInitial) s)) -> pres R (demand_new a b t name).
Proof.
  intros H. unfold demand_new. destruct (Qltb t 0) eqn:Et; [apply (pres_raise _ HR)|].
  intros s. unfold bind, gets, modify, ret; simpl. apply H; auto.
Qed.
Lemma pres_iface_new name cost cap a b c rsvp pct :
  (forall s, 1 <= cost -> (0 < cap)%Q -> R s (put_if (mkIface name cost cap a b c (TNum 0) false 0 [] rsvp pct false) s)) ->
  pres R (iface_new name cost cap a b c rsvp pct).
Proof.
  intros H. unfold iface_new. destruct (Z.ltb_spec cost 1); [apply (pres_raise _ HR)|].
  destruct (Qltb 0 cap) eqn:Ec; simpl; [|apply (pres_raise _ HR)].
  intros s. unfold bind, gets, modify, ret; simpl. apply H; auto.
  unfold Qltb in Ec. apply negb_true_iff in Ec. apply Qnot_le_lt. intros C. apply Qle_bool_iff in C. congruence.
Qed.
End Add.

End ApiFrames.
