(** ResProofs.v - reserved and reservable bandwidth: model against spec. *)
From Verif Require Import Base Graph Objects Sim Spec MonadProofs RoundProofs.
From Coq Require Import Lqa.

Lemma reserved_iff s i r : reserved s i r <-> (r == reserved_bw s i)%Q.
Proof.
  unfold reserved, reserved_bw. rewrite round1_roundd. split.
  - apply rounds_unique.
  - intros H. eapply rounds_compat; [reflexivity|symmetry; exact H|apply roundd_rounds].
Qed.

Lemma cap_pct (c p : Q) : (c * (p / 100) == c * p / 100)%Q.
Proof. field. Qed.

Lemma reservable_iff s i r : reservable s i r <-> (r == reservable_bw s i)%Q.
Proof.
  unfold reservable, reservable_bw. cbv zeta. destruct (i_rsvp (h_if s i)); [|reflexivity].
  rewrite round1_roundd. split.
  - intros (r0 & H0 & H). apply reserved_iff in H0. apply rounds_unique in H. rewrite H.
    rewrite (roundd_compat 10 _ (i_cap (h_if s i) * (i_pct (h_if s i) / 100) - reserved_bw s i)); [reflexivity|].
    rewrite H0, cap_pct. reflexivity.
  - intros H. exists (reserved_bw s i). split; [now apply reserved_iff|].
    eapply rounds_compat; [|symmetry; exact H|apply roundd_rounds]. now rewrite cap_pct.
Qed.

Lemma reservable_self s i : reservable s i (reservable_bw s i).
Proof. apply reservable_iff. reflexivity. Qed.

Lemma Qleb_le a b : Qleb a b = true <-> (a <= b)%Q.
Proof. unfold Qleb. apply Qle_bool_iff. Qed.

Lemma reservable_ge s i b : (exists r, reservable s i r /\ (b <= r)%Q) <-> Qleb b (reservable_bw s i) = true.
Proof.
  rewrite Qleb_le. split.
  - intros (r & H & L). apply reservable_iff in H. now rewrite <- H.
  - intros L. exists (reservable_bw s i). split; auto. apply reservable_self.
Qed.

Lemma reservable_rsvp s i b : (0 <= b)%Q -> Qleb b (reservable_bw s i) = true -> i_rsvp (h_if s i) = true.
Proof.
  rewrite Qleb_le. unfold reservable_bw. cbv zeta. destruct (i_rsvp (h_if s i)); auto. intros H1 H2. exfalso. lra.
Qed.
