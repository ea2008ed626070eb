(** Nets.v - concrete networks used by the Examples: they meet the hypotheses
    of the theorems. *)
From Verif Require Import Base Graph Objects Sim Api Build Spec SpecHist GraphProofs.

Definition E0_ok : env_ok E0 := env_impl_ok (fun _ => O).

(** Nodes A, B, C, D (D isolated); links A=B (twice), B=C, A=C; the paths from A
    to C are A-B-C (over either A=B link) and A-C, all of cost 2. *)
Definition flex1 : st := net
  [nd "A"; nd "B"; nd "C"; nd "D"]
  [itf "ab1" 1 100 0 1 1; itf "ba1" 1 100 1 0 1;
   itf "ab2" 1 100 0 1 2; itf "ba2" 1 100 1 0 2;
   itf "bc" 1 100 1 2 3; itf "cb" 1 100 2 1 3;
   itf "ac" 2 100 0 2 4; itf "ca" 2 100 2 0 4]
  [dmd 0 2 12 "d0"; dmd 1 0 6 "d1"; dmd 0 3 3 "d2"]
  [lsp_ 1 0 "l0"; lsp_ 1 0 "l1"]
  [mkSrlg "g" false].

(** The same without the second A=B link. *)
Definition perf1 : st := net
  [nd "A"; nd "B"; nd "C"; nd "D"]
  [itf "ab1" 1 100 0 1 1; itf "ba1" 1 100 1 0 1;
   itf "bc" 1 100 1 2 3; itf "cb" 1 100 2 1 3;
   itf "ac" 2 100 0 2 4; itf "ca" 2 100 2 0 4]
  [dmd 0 2 12 "d0"; dmd 1 0 6 "d1"; dmd 0 3 3 "d2"]
  [lsp_ 1 0 "l0"; lsp_ 1 0 "l1"]
  [mkSrlg "g" false].

Ltac nodup_tac := repeat constructor; simpl; intuition discriminate.
Ltac in_tac := repeat match goal with H : _ \/ _ |- _ => destruct H; [subst|] | H : False |- _ => destruct H end.

Lemma flex1_keys : keys_unique flex1.
Proof. unfold keys_unique. repeat split; vm_compute; nodup_tac. Qed.
Lemma perf1_keys : keys_unique perf1.
Proof. unfold keys_unique. repeat split; vm_compute; nodup_tac. Qed.
Lemma flex1_refs : refs_ok flex1.
Proof. unfold refs_ok. split; [|split]; intros x H; vm_compute in H; in_tac; vm_compute; auto 10. Qed.
Lemma perf1_refs : refs_ok perf1.
Proof. unfold refs_ok. split; [|split]; intros x H; vm_compute in H; in_tac; vm_compute; auto 10. Qed.
Lemma flex1_costs : costs_ok flex1.
Proof. intros x H; vm_compute in H; in_tac; split; vm_compute; congruence. Qed.
Lemma perf1_costs : costs_ok perf1.
Proof. intros x H; vm_compute in H; in_tac; split; vm_compute; congruence. Qed.

Lemma refs_below (l : list nat) (n : nat) : forallb (fun x => Nat.ltb x n) l = true -> forall x, In x l -> (x < n)%nat.
Proof. rewrite forallb_forall. intros H x Hx. apply Nat.ltb_lt. auto. Qed.

Lemma flex1_wf : wf_refs flex1.
Proof.
  constructor.
  - unfold allocated. eapply (refs_below _ (s_next flex1)). reflexivity.
  - intros x H; vm_compute in H; in_tac; split; apply Nat.ltb_lt; reflexivity.
  - intros x H; vm_compute in H; in_tac; split; apply Nat.ltb_lt; reflexivity.
  - intros x H; vm_compute in H; in_tac; split; apply Nat.ltb_lt; reflexivity.
Qed.
Lemma perf1_wf : wf_refs perf1.
Proof.
  constructor.
  - unfold allocated. eapply (refs_below _ (s_next perf1)). reflexivity.
  - intros x H; vm_compute in H; in_tac; split; apply Nat.ltb_lt; reflexivity.
  - intros x H; vm_compute in H; in_tac; split; apply Nat.ltb_lt; reflexivity.
  - intros x H; vm_compute in H; in_tac; split; apply Nat.ltb_lt; reflexivity.
Qed.
Lemma flex1_alloc : allocated flex1. Proof. apply flex1_wf. Qed.
Lemma perf1_alloc : allocated perf1. Proof. apply perf1_wf. Qed.

(** Both networks simulate without an exception. *)
Example flex1_runs : snd (update_simulation E0 Flex flex1) = Ok tt.
Proof. vm_compute. reflexivity. Qed.
Example perf1_runs : snd (update_simulation E0 Perf perf1) = Ok tt.
Proof. vm_compute. reflexivity. Qed.

Definition flex2 : st := fst (update_simulation E0 Flex flex1).
Definition perf2 : st := fst (update_simulation E0 Perf perf1).

Lemma run_split {A B} (p : A * B) (r : B) : snd p = r -> p = (fst p, r).
Proof. intros <-. apply surjective_pairing. Qed.
