(** SigSeq.v - signalling several LSPs one after the other. *)
From Verif Require Import Base Graph Objects Sim Spec SpecSig GraphProofs MonadProofs RoundProofs ResProofs ObjProofs PathProofs LeastProofs SigProofs ResigProofs.
From Coq Require Import Lqa.

Lemma signalled_only s l bw s' : signalled s l bw s' -> only_signals s l s'.
Proof. intros [(p & H)|H]; apply H. Qed.

Section Only.
Variables (s : st) (l : nat) (s' : st).
Hypothesis O : only_signals s l s'.
Lemma os_nds : m_nds s' = m_nds s. Proof. apply (os_sets _ _ _ O). Qed.
Lemma os_rsvp i : i_rsvp (h_if s' i) = i_rsvp (h_if s i).
Proof. rewrite (os_if _ _ _ O i). reflexivity. Qed.
Lemma os_same m : same_ls_data (h_ls s m) (h_ls s' m).
Proof.
  destruct (Nat.eq_dec m l) as [->|N]; [rewrite (os_l _ _ _ O); repeat split|]. rewrite (os_ls _ _ _ O) by auto. repeat split.
Qed.
Lemma os_cfg m : l_cfg (h_ls s' m) = l_cfg (h_ls s m).
Proof. apply (os_same m). Qed.
Lemma os_wanted m x : wanted s' m x = wanted s m x.
Proof. unfold wanted. now rewrite os_cfg. Qed.
Lemma os_from m : lsp_from s' m = lsp_from s m.
Proof. unfold lsp_from. rewrite (os_nd _ _ _ O). destruct (os_same m) as (-> & _). reflexivity. Qed.
Lemma os_to m : lsp_to s' m = lsp_to s m.
Proof. unfold lsp_to. rewrite (os_nd _ _ _ O). destruct (os_same m) as (_ & -> & _). reflexivity. Qed.
Lemma os_names : node_names s' = node_names s.
Proof. unfold node_names. rewrite os_nds, (os_nd _ _ _ O). reflexivity. Qed.
Lemma os_refl0 : only_signals s l s.
Proof. constructor; auto; [repeat split|intros i; destruct (h_if s i); reflexivity|destruct (h_ls s l); reflexivity]. Qed.
End Only.

(** ** Signalling [l1 ; l2 ; ...] *)
(** facts kept by every step *)
Record seq_frame (s s' : st) : Prop := {
  qf_sets : same_sets s s'; qf_nd : h_nd s' = h_nd s; qf_sr : h_sr s' = h_sr s; qf_dm : h_dm s' = h_dm s;
  qf_ckts : m_ckts s' = m_ckts s; qf_groups : m_groups s' = m_groups s; qf_next : s_next s' = s_next s;
  qf_if : forall i, h_if s' i = if_res (i_res (h_if s' i)) (h_if s i);
  qf_ls : forall l, h_ls s' l = ls_setup (l_setup (h_ls s' l)) (ls_res (l_res (h_ls s' l)) (ls_path (l_path (h_ls s' l)) (h_ls s l))) }.
Lemma seq_refl s : seq_frame s s.
Proof. constructor; auto; [repeat split|intros i; destruct (h_if s i); reflexivity|intros l; destruct (h_ls s l); reflexivity]. Qed.
Lemma seq_trans a b c : seq_frame a b -> seq_frame b c -> seq_frame a c.
Proof.
  intros [] []. constructor; try congruence.
  - destruct qf_sets0 as (?&?&?&?&?), qf_sets1 as (?&?&?&?&?). repeat split; congruence.
  - intros i. rewrite (qf_if1 i), (qf_if0 i). reflexivity.
  - intros i. rewrite (qf_ls1 i), (qf_ls0 i). reflexivity.
Qed.
Lemma only_seq s l s' : only_signals s l s' -> seq_frame s s'.
Proof.
  intros O. constructor; try apply O. intros m. destruct (Nat.eq_dec m l) as [->|N]; [apply O|].
  rewrite (os_ls _ _ _ O) by auto. destruct (h_ls s m); reflexivity.
Qed.
Lemma signalling_frame s order s' : signalling s order s' -> seq_frame s s'.
Proof. induction 1; [apply seq_refl|]. eapply seq_trans; [eapply only_seq, signalled_only; eauto|auto]. Qed.
Lemma signalling_app s o1 o2 s1 s2 : signalling s o1 s1 -> signalling s1 o2 s2 -> signalling s (o1 ++ o2) s2.
Proof. induction 1; simpl; auto. intros. econstructor; eauto. Qed.
Lemma signalling_other s order s' l : signalling s order s' -> ~ In l (map fst order) -> h_ls s' l = h_ls s l.
Proof.
  induction 1 as [|s m bw tl s1 s' S Q IH]; simpl; intros N; auto. rewrite IH by tauto. apply (os_ls _ _ _ (signalled_only _ _ _ _ S)). intros ->. apply N. auto.
Qed.

(** *** Admission control (C12) *)
Lemma round1_ge0 x : (- (1 # 20) <= x)%Q -> (0 <= round1 x)%Q.
Proof.
  intros H. apply (roundd_mono 10) in H. assert (Z : roundd 10 (- (1 # 20)) = 0 # 10) by (vm_compute; reflexivity).
  rewrite Z in H. rewrite round1_roundd. eapply Qle_trans; [|exact H]. vm_compute. discriminate.
Qed.
Lemma round1_ge0_inv x : (0 <= round1 x)%Q -> (- (1 # 20) <= x)%Q.
Proof.
  intros H. rewrite round1_roundd in H. destruct (roundd_rounds 10 x) as (z & Hz & Ha & _). apply Qabs_bound in Ha. 
  change (1 # 2 * 10)%Q with (1 # 20)%Q in Ha. lra.
Qed.

Definition open_if (s : st) (i : nat) : Prop := i_rsvp (h_if s i) = true -> (0 <= reservable_bw s i)%Q.

Lemma admit_step (C r0 want : Q) : tenths r0 -> (0 <= round1 (C - r0))%Q -> (want <= round1 (C - r0))%Q -> (0 <= round1 (C - round1 (r0 + want)))%Q.
Proof.
  intros T0 H0 Hw. set (m := round1 (C - r0)) in *. assert (Tm : multiple 10 m) by apply roundd_multiple.
  assert (L : (round1 (r0 + want) <= r0 + m)%Q).
  { rewrite <- (roundd_plus_multiple 10 r0 m) by auto. apply roundd_mono. lra. }
  destruct (roundd_rounds 10 (C - r0)) as (z & Hz & Ha & _). fold (round1 (C - r0)) in Ha. rewrite <- round1_roundd in Ha. fold m in Ha.
  apply Qabs_bound in Ha. change (1 # 2 * 10)%Q with (1 # 20)%Q in Ha. apply round1_ge0. lra.
Qed.

Lemma signalled_open s l bw s' i : signalled s l bw s' -> open_if s i -> open_if s' i.
Proof.
  intros [(p & S)|S] O.
  - destruct (in_dec Nat.eq_dec i p) as [Hi|Hi].
    + intros R. assert (OS := so_only _ _ _ _ _ S). rewrite (os_rsvp _ _ _ OS) in R. specialize (O R).
      destruct (so_on _ _ _ _ _ S i Hi) as (r & Hr & He). apply reserved_iff in Hr.
      destruct (route_in _ _ _ _ _ (proj1 (proj1 (so_best _ _ _ _ _ S))) i Hi) as [_ (_ & _ & r1 & H1 & Hb)]. apply reservable_iff in H1.
      rewrite H1 in Hb. 
      assert (C1 : i_cap (h_if s' i) = i_cap (h_if s i)) by (rewrite (os_if _ _ _ OS i); reflexivity).
      assert (C2 : i_pct (h_if s' i) = i_pct (h_if s i)) by (rewrite (os_if _ _ _ OS i); reflexivity).
      unfold reservable_bw in *. rewrite (os_rsvp _ _ _ OS), C1, C2. rewrite R in O, Hb |- *.
      set (C := (i_cap (h_if s i) * (i_pct (h_if s i) / 100))%Q) in *. 
      assert (EQ : reserved_bw s' i = round1 (reserved_bw s i + bw)) by (unfold reserved_bw at 1; apply roundd_compat; rewrite He, Hr; reflexivity).
      rewrite EQ. apply admit_step; auto. apply roundd_multiple.
    + red. unfold reservable_bw, reserved_bw. rewrite (so_off _ _ _ _ _ S i Hi). exact O.
  - red. unfold reservable_bw, reserved_bw. rewrite (sx_if _ _ _ _ S). exact O.
Qed.
Lemma signalling_open s order s' i : signalling s order s' -> open_if s i -> open_if s' i.
Proof. induction 1; auto. intros O. apply IHsignalling. eapply signalled_open; eauto. Qed.

Lemma open_reservable s i : i_rsvp (h_if s i) = true -> (open_if s i <-> exists r, reservable s i r /\ (0 <= r)%Q).
Proof.
  intros R. unfold open_if. rewrite reservable_ge. rewrite Qleb_le. tauto.
Qed.
Lemma open_bound s i r : open_if s i -> i_rsvp (h_if s i) = true -> reserved s i r -> (r <= i_cap (h_if s i) * i_pct (h_if s i) / 100 + (1 # 20))%Q.
Proof.
  intros O R H. specialize (O R). unfold reservable_bw in O. rewrite R in O. apply round1_ge0_inv in O. apply reserved_iff in H. rewrite H.
  rewrite cap_pct in O. lra.
Qed.

(** *** Reservations add up (C13) *)
Lemma Qsum_app l1 l2 : (Qsum (l1 ++ l2) == Qsum l1 + Qsum l2)%Q.
Proof. induction l1 as [|x l1 IH]; simpl; [lra|]. rewrite IH. lra. Qed.

Lemma holds_ext s s' i l : h_ls s' l = h_ls s l -> holds s' i l = holds s i l.
Proof. unfold holds. intros ->. reflexivity. Qed.

Lemma signalled_booked s l bw s' i : signalled s l bw s' -> tenths bw -> (reserved_bw s' i == reserved_bw s i + holds s' i l)%Q.
Proof.
  assert (RR : forall x, round1 (round1 x) == round1 x) by (intros x; apply roundd_id, roundd_multiple).
  intros [(p & S)|S] T.
  - destruct (so_path _ _ _ _ _ S) as (b & Hp & _). destruct (so_bw _ _ _ _ _ S) as [Hr _]. unfold holds. rewrite Hp, Hr.
    destruct (existsb (Nat.eqb i) p) eqn:M.
    + apply mem_nat_In in M. destruct (so_on _ _ _ _ _ S i M) as (r & H1 & H2). apply reserved_iff in H1.
      unfold reserved_bw at 1. assert (EQ : round1 (i_res (h_if s' i)) = round1 (reserved_bw s i + bw)) by (apply roundd_compat; rewrite H2, H1; reflexivity).
      rewrite EQ. apply roundd_plus_multiple; auto. apply roundd_multiple.
    + unfold reserved_bw. rewrite (so_off _ _ _ _ _ S i); [lra|]. intros X. apply mem_nat_In in X. unfold mem_nat in X. congruence.
  - unfold holds. rewrite (sx_path _ _ _ _ S). unfold reserved_bw. rewrite (sx_if _ _ _ _ S). lra.
Qed.

Lemma signalling_booked s order s' i : signalling s order s' -> NoDup (map fst order) -> (forall l bw, In (l, bw) order -> tenths bw) ->
  (reserved_bw s' i == reserved_bw s i + booked s' i (map fst order))%Q.
Proof.
  induction 1 as [s|s l bw tl s1 s' S Q IH]; simpl; intros N T; [unfold booked; simpl; lra|]. inversion N as [|? ? N1 N2]; subst.
  rewrite IH by eauto. rewrite (signalled_booked _ _ _ _ i S) by eauto.
  unfold booked at 2. simpl. fold (booked s' i (map fst tl)). rewrite (holds_ext s1 s' i l); [lra|]. eapply signalling_other; eauto.
Qed.

(** ** The loop over the LSPs of a group *)
Section Loop.
Variables (E : env) (k : kind).
Hypothesis HE : env_ok E.

Record good (s : st) : Prop := {
  gd_nd : NoDup (m_ifs s);
  gd_cost : forall i, In i (m_ifs s) -> 1 <= i_cost (h_if s i);
  gd_par : k = Perf -> no_parallel s }.
Lemma good_seq s s' : seq_frame s s' -> good s -> good s'.
Proof.
  intros F [A B C]. assert (EI : m_ifs s' = m_ifs s) by apply (qf_sets _ _ F).
  assert (L : forall i, loc s' i = loc s i) by (intros i; unfold loc; rewrite (qf_nd _ _ F), (qf_if _ _ F i); reflexivity).
  assert (R : forall i, rem s' i = rem s i) by (intros i; unfold rem; rewrite (qf_nd _ _ F), (qf_if _ _ F i); reflexivity).
  constructor; rewrite ?EI; auto.
  - intros i Hi. rewrite (qf_if _ _ F i). apply B, Hi.
  - intros Hk i j. rewrite EI, !L, !R. now apply C.
Qed.

Lemma determine_ok s l share s' : good s -> determine_lsp E k l share s = (s', Ok tt) -> lsp_from s l <> lsp_to s l /\ signalled s l (wanted s l share) s'.
Proof.
  intros [A B C] H. destruct (signal_cases E k HE s l share A B C) as [(N & s1 & R & S)|(s1 & e & R & _)].
  - rewrite R in H. injection H as <-. auto.
  - rewrite R in H. discriminate.
Qed.

Lemma determine_loop lsps share : forall s s', good s -> mfor lsps (fun l => determine_lsp E k l share) s = (s', Ok tt) ->
  signalling s (map (fun l => (l, wanted s l share)) lsps) s' /\ forall l, In l lsps -> lsp_from s l <> lsp_to s l.
Proof.
  induction lsps as [|l lsps IH]; intros s s' G H.
  - injection H as <-. split; [constructor|]. intros l [].
  - apply mfor_cons_ok in H as (s1 & H1 & H2). apply determine_ok in H1 as [N1 H1]; auto.
    assert (O := signalled_only _ _ _ _ H1). assert (G1 : good s1) by (eapply good_seq; [eapply only_seq; eauto|auto]).
    destruct (IH s1 s' G1 H2) as [Q X]. split.
    + cbn [map]. econstructor; [exact H1|]. erewrite map_ext; [exact Q|]. intros m. simpl. now rewrite (os_wanted _ _ _ O).
    + intros m [<-|Hm]; auto. rewrite <- (os_from _ _ _ O m), <- (os_to _ _ _ O m). auto.
Qed.
End Loop.
