(** ApiProofs.v - exact effects of the failure and add calls. *)
From Verif Require Import Base Graph Objects Sim Api Spec MonadProofs GraphProofs RoundProofs Frames ApiFrames ObjProofs.

(** ** What validate_model can change *)
Record val_frame (k : kind) (s s' : st) : Prop := {
  vf_nd : h_nd s' = h_nd s; vf_sr : h_sr s' = h_sr s; vf_dm : h_dm s' = h_dm s; vf_ls : h_ls s' = h_ls s;
  vf_sets : same_sets s s'; vf_groups : m_groups s' = m_groups s;
  vf_next : s_next s' = s_next s; vf_rng : s_rng s' = s_rng s;
  vf_data : forall i, same_if_data (h_if s i) (h_if s' i);
  vf_traffic : forall i, i_traffic (h_if s' i) = i_traffic (h_if s i);
  vf_cid : k = Flex -> forall i, i_cid (h_if s' i) = i_cid (h_if s i);
  vf_failed : forall i, i_failed (h_if s i) = true -> i_failed (h_if s' i) = true;
  vf_res : forall i, i_res (h_if s' i) = i_res (h_if s i) \/ i_failed (h_if s' i) = true /\ i_res (h_if s' i) = 0%Q }.

Lemma same_sets_refl s : same_sets s s.
Proof. repeat split. Qed.
Lemma same_sets_trans a b c : same_sets a b -> same_sets b c -> same_sets a c.
Proof. unfold same_sets. intros (?&?&?&?&?) (?&?&?&?&?). repeat split; congruence. Qed.
Lemma same_if_data_refl r : same_if_data r r.
Proof. repeat split. Qed.
Lemma same_if_data_trans a b c : same_if_data a b -> same_if_data b c -> same_if_data a c.
Proof. unfold same_if_data. intros (?&?&?&?&?&?&?&?) (?&?&?&?&?&?&?&?). repeat split; congruence. Qed.

Lemma val_frame_preorder k : preorder (val_frame k).
Proof.
  constructor.
  - intros s. constructor; auto using same_sets_refl, same_if_data_refl.
  - intros a b c [] []. constructor; try congruence; try solve [eauto using same_sets_trans, same_if_data_trans].
    + intros Hk i. rewrite <- vf_cid0 by auto. auto.
    + intros i. destruct (vf_res1 i) as [H|[H1 H2]]; [|auto].
      rewrite H. destruct (vf_res0 i) as [H'|[H1 H2]]; auto.
Qed.

Lemma val_frame_upd_if k i f s :
  (forall r, same_if_data r (f r) /\ i_traffic (f r) = i_traffic r /\ (k = Flex -> i_cid (f r) = i_cid r) /\
     (i_failed r = true -> i_failed (f r) = true) /\ (i_res (f r) = i_res r \/ i_failed (f r) = true /\ i_res (f r) = 0%Q)) ->
  val_frame k s (upd_if i f s).
Proof.
  intros H. constructor; simpl; try reflexivity; try solve [repeat split].
  all: intros; match goal with |- context [fupd _ _ _ ?x] => apply (fupd_cases _ _ _ x) end; intros; subst;
    destruct (H (h_if s i)) as (Ha & Hb & Hc & Hd & He); auto using same_if_data_refl.
Qed.

Lemma val_frame_validate E k : pres (val_frame k) (validate_model E k).
Proof.
  apply pres_validate_model; try apply val_frame_preorder.
  - intros i f s Hf. apply val_frame_upd_if. intros r. specialize (Hf r). unfold if_ex_inckt in Hf. rewrite Hf. destruct r; simpl; repeat split; auto.
  - intros Hk i f s Hf. apply val_frame_upd_if. intros r. specialize (Hf r). unfold if_ex_cid in Hf. rewrite Hf. destruct r; simpl; repeat split; auto. congruence.
  - intros c s. constructor; simpl; auto using same_if_data_refl; repeat split.
  - intros i f s Hf. apply val_frame_upd_if. intros r. specialize (Hf r). unfold if_ex_down in Hf. rewrite Hf. destruct r; simpl; repeat split; auto.
Qed.

(** ** C19 *)
Definition input_frame (s s' : st) : Prop :=
  same_input s s' /\ (forall i, i_failed (h_if s i) = true -> i_failed (h_if s' i) = true).

Lemma same_dm_data_refl r : same_dm_data r r.
Proof. repeat split. Qed.
Lemma same_ls_data_refl r : same_ls_data r r.
Proof. repeat split. Qed.

Lemma input_frame_preorder : preorder input_frame.
Proof.
  constructor.
  - intros s. repeat split; auto.
  - intros a b c [(S1 & N1 & G1 & I1 & D1 & L1) F1] [(S2 & N2 & G2 & I2 & D2 & L2) F2].
    split; [|auto]. split; [eauto using same_sets_trans|].
    split; [intros; now rewrite N2|]. split; [intros; now rewrite G2|].
    split; [eauto using same_if_data_trans|].
    split; intros x.
    + destruct (D1 x) as (?&?&?&?), (D2 x) as (?&?&?&?). repeat split; congruence.
    + destruct (L1 x) as (?&?&?&?), (L2 x) as (?&?&?&?). repeat split; congruence.
Qed.

Lemma input_frame_if i f s :
  (forall r, same_if_data r (f r) /\ (i_failed r = true -> i_failed (f r) = true)) -> input_frame s (upd_if i f s).
Proof.
  intros H. split; [|intros x; simpl; apply fupd_cases; intros; subst; auto; now apply (H (h_if s i))].
  split; [repeat split|]. split; [reflexivity|]. split; [reflexivity|].
  split; [|split; intros; simpl; auto using same_dm_data_refl, same_ls_data_refl].
  intros x; simpl. apply fupd_cases; intros; subst; auto using same_if_data_refl. apply (H (h_if s i)).
Qed.
Lemma input_frame_dm i f s : (forall r, same_dm_data r (f r)) -> input_frame s (upd_dm i f s).
Proof.
  intros H. split; [|auto].
  split; [repeat split|]. split; [reflexivity|]. split; [reflexivity|].
  split; [|split]; intros x; simpl; auto using same_if_data_refl, same_ls_data_refl.
  apply fupd_cases; intros; subst; auto using same_dm_data_refl.
Qed.
Lemma input_frame_ls i f s : (forall r, same_ls_data r (f r)) -> input_frame s (upd_ls i f s).
Proof.
  intros H. split; [|auto].
  split; [repeat split|]. split; [reflexivity|]. split; [reflexivity|].
  split; [|split]; intros x; simpl; auto using same_if_data_refl, same_dm_data_refl.
  apply fupd_cases; intros; subst; auto using same_ls_data_refl.
Qed.

Ltac ex_tac Hf r := specialize (Hf r); red in Hf; rewrite Hf; destruct r; simpl; repeat split; auto.

Lemma update_input E k : pres input_frame (update_simulation E k).
Proof.
  apply pres_update_simulation; try apply input_frame_preorder.
  - intros l f s Hf. apply input_frame_ls. intros r. ex_tac Hf r.
  - intros l f s Hf. apply input_frame_ls. intros r. ex_tac Hf r.
  - intros g s. repeat split; auto.
  - intros g s. repeat split; auto.
  - intros s. repeat split; auto.
  - intros i f s Hf. apply input_frame_if. intros r. ex_tac Hf r.
  - intros i f s Hf. apply input_frame_if. intros r. ex_tac Hf r.
  - intros _ i f s Hf. apply input_frame_if. intros r. ex_tac Hf r.
  - intros i f s Hf. apply input_frame_if. intros r. ex_tac Hf r.
  - intros l f s Hf. apply input_frame_dm. intros r. ex_tac Hf r.
  - intros l f s Hf. apply input_frame_dm. intros r. ex_tac Hf r.
Qed.

(** ** fail_interface *)
Definition down (r : iface) : iface := if_res 0%Q (if_failed true r).

Lemma set_failed_true_run i s : iface_set_failed i true s = (upd_if i down s, Ok tt).
Proof. reflexivity. Qed.

Lemma fail_interface_run s iname nname s' r :
  fail_interface iname nname s = (s', r) ->
  (exists e, r = Err e /\ s' = s /\
     (get_interface s iname nname = Err e \/
      exists i, get_interface s iname nname = Ok i /\ get_remote_interface s i = Err e)) \/
  (r = Ok tt /\ exists i j, get_interface s iname nname = Ok i /\ get_remote_interface s i = Ok j /\
     s' = upd_if i down (upd_if j down s)).
Proof.
  unfold fail_interface, bind, reads.
  destruct (get_interface s iname nname) as [i|e] eqn:Gi; [|intros H; injection H as <- <-; left; exists e; auto].
  destruct (get_remote_interface s i) as [j|e] eqn:Gj; [|intros H; injection H as <- <-; left; exists e; repeat split; auto; right; exists i; auto].
  intros H. injection H as <- <-. right. split; auto. exists i, j. auto.
Qed.

Lemma upd_down_downed s i j x :
  (x = i \/ x = j -> downed (h_if s x) (h_if (upd_if i down (upd_if j down s)) x)) /\
  (x <> i -> x <> j -> h_if (upd_if i down (upd_if j down s)) x = h_if s x).
Proof.
  simpl. unfold fupd. split.
  - intros H. destruct (Nat.eqb_spec i x) as [->|Ni].
    + destruct (Nat.eqb_spec j x); subst; repeat split.
    + destruct (Nat.eqb_spec j x) as [->|Nj]; [repeat split|]. destruct H; congruence.
  - intros H1 H2. destruct (Nat.eqb_spec i x); [congruence|]. destruct (Nat.eqb_spec j x); congruence.
Qed.

Lemma fail_interface_exact s iname nname s' r :
  fail_interface iname nname s = (s', r) ->
  (exists e, r = Err e /\ s' = s) \/
  (r = Ok tt /\ exists i j, In i (m_ifs s) /\ if_key s i = (iname, nname) /\ other_end s i j /\
     only_ifs s s' /\ (forall x, x = i \/ x = j -> downed (h_if s x) (h_if s' x)) /\
     (forall x, x <> i -> x <> j -> h_if s' x = h_if s x)).
Proof.
  intros H. apply fail_interface_run in H as [(e & -> & -> & _)|(-> & i & j & Gi & Gj & ->)]; [left; eauto|].
  right. split; auto. exists i, j.
  assert (Hi := get_interface_spec s iname nname). rewrite Gi in Hi. destruct Hi as [Hi1 Hi2].
  apply get_remote_ok in Gj; auto.
  split; [auto|]. split; [auto|]. split; [auto|]. split; [repeat split|].
  split; intros; apply (upd_down_downed s i j x); auto.
Qed.
