(** FloatMain.v - related states, in the terms of SpecFloat.v. *)
From Verif Require Import Base Graph Objects Sim Spec SpecCkt SpecSim SpecOrder SpecFloat Float GraphProofs FloatProofs FloatLock FloatFree.
From Verif Require FloatSim.
From Coq Require Import Lqa.

Lemma twin_routes (tr : nat -> Q -> Q -> Prop) (sh : Q -> Q -> Prop) c s t : twin tr sh c s t -> same_routes s t.
Proof.
  intros H. constructor.
  - split; [apply (tw_ifs _ _ _ _ _ H)|]. split; [apply (tw_nds _ _ _ _ _ H)|]. split; [apply (tw_dms _ _ _ _ _ H)|]. split; [apply (tw_lsps _ _ _ _ _ H)|apply (tw_srs _ _ _ _ _ H)].
  - split; [apply (tw_ckts _ _ _ _ _ H)|apply (tw_groups _ _ _ _ _ H)].
  - split; [apply (tw_nd _ _ _ _ _ H)|apply (tw_sr _ _ _ _ _ H)].
  - intros d. destruct (tw_dm _ _ _ _ _ H d) as [-> _]. reflexivity.
  - intros i. destruct (tw_if _ _ _ _ _ H i) as [-> _]. reflexivity.
  - intros i. apply (tw_if _ _ _ _ _ H i).
  - intros i. destruct (tw_if _ _ _ _ _ H i) as (_ & _ & X). unfold same_traffic in X. destruct (i_traffic (h_if s i)), (i_traffic (h_if t i)); try contradiction; split; intros Y; try discriminate; auto.
  - intros l. destruct (tw_ls _ _ _ _ _ H l) as [-> _]. reflexivity.
  - intros l. destruct (tw_ls _ _ _ _ _ H l) as (_ & X & _). unfold same_path in X. destruct (l_path (h_ls s l)), (l_path (h_ls t l)); try contradiction; auto.
  - intros l. destruct (tw_ls _ _ _ _ _ H l) as (_ & _ & X & _). unfold same_bw in X. destruct (l_res (h_ls s l)), (l_res (h_ls t l)); try contradiction; auto.
  - intros l. destruct (tw_ls _ _ _ _ _ H l) as (_ & _ & _ & X). unfold same_bw in X. destruct (l_setup (h_ls s l)), (l_setup (h_ls t l)); try contradiction; auto.
Qed.

Lemma all_ways_paths s ds : all_ways s ds = all_paths s ds.
Proof. induction ds as [|d ds IH]; simpl; [reflexivity|]. rewrite IH. unfold ways. reflexivity. Qed.

Lemma close_within n q f : (Z.of_nat n <= 2 ^ 52)%Z -> (0 <= q)%Q -> near n q f -> within n q f.
Proof. intros N Q0 H. exact (near_abs n q f Q0 N H). Qed.

Lemma twin_traffic s t n : twin close_tr close_sh (fun _ => n) s t -> (Z.of_nat (3 + n) <= 2 ^ 52)%Z -> close_traffic (3 + n) s t.
Proof.
  intros H B i Hi. destruct (tw_if _ _ _ _ _ H i) as (_ & _ & X). unfold same_traffic in X. destruct (i_traffic (h_if s i)), (i_traffic (h_if t i)); try contradiction; auto.
  destruct (X Hi) as (P & _ & N). now apply close_within.
Qed.
Lemma twin_details s t (tr : nat -> Q -> Q -> Prop) c : twin tr close_sh c s t -> close_details 3 s t.
Proof.
  intros H d Hd. destruct (tw_dm _ _ _ _ _ H d) as (_ & [X|(xs & ys & X & Y & F)]); [now left|right]. exists xs, ys. split; [exact X|]. split; [exact Y|].
  clear - F. induction F as [|x y xs ys (A & B & C & D & _ & N)]; constructor; auto. split; [exact A|]. split; [exact B|]. split; [exact C|]. apply close_within; auto. vm_compute. discriminate.
Qed.

(** ** Without LSPs *)
Section Free.
Variables (E : env) (k : kind) (s s' : st).
Hypothesis HE : env_ok E.
Hypothesis NL : m_lsps s = [].
Hypothesis WP : well_posed s.
Hypothesis EK : ends_known s.
Hypothesis CS : cids_set k s.
Hypothesis Pos : forall i, In i (m_ifs s) -> (0 <= i_cap (h_if s i))%Q /\ (0 <= i_pct (h_if s i))%Q.
Hypothesis U : update_simulation E k s = (s', Ok tt).

Lemma free_routes : exists t', FloatSim.update_simulation fl E k s = (t', Ok tt) /\ same_routes s' t'.
Proof.
  destruct (free_twin E k s s' HE NL WP EK CS Pos U (fun _ _ _ => True) (fun _ _ => True) True (fun _ => True)) as (t' & R & H); auto.
  exists t'. split; [exact R|]. eapply twin_routes; exact H.
Qed.
Lemma free_traffic : k = Flex -> (forall d, In d (m_dms s) -> (0 <= d_traffic (h_dm s d))%Q) -> (Z.of_nat (3 + all_paths s' (m_dms s')) <= 2 ^ 52)%Z ->
  exists t', FloatSim.update_simulation fl E k s = (t', Ok tt) /\ same_routes s' t' /\ close_traffic (3 + all_paths s' (m_dms s')) s' t' /\ close_details 3 s' t'.
Proof.
  intros K P B.
  destruct (free_twin E k s s' HE NL WP EK CS Pos U close_tr close_sh False (fun t => 0 <= t)%Q) as (t' & R & H); auto.
  - intros [].
  - intros [].
  - apply close_zero.
  - apply close_le.
  - apply close_add.
  - apply close_path.
  - apply close_lsp.
  - exists t'. split; [exact R|]. split; [eapply twin_routes; exact H|]. rewrite all_ways_paths in H. split; [now apply twin_traffic|eapply twin_details; exact H].
Qed.
End Free.
