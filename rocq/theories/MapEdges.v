(** MapEdges.v - which edges of the weather map are marked, and clicks on edges. *)
From Coq Require Import DecimalString Lqa.
From Verif Require Import Base Graph Objects Sim Api Spec SpecCkt SpecSim MapTypes Map SpecMap
  MonadProofs GroupProofs ObjProofs MapProofs MapMore MapLists MapSelect.


Section Edges.
Variable s : st.
Hypothesis PA : paired s.
Hypothesis CA : cid_texts_apart s.

Lemma ckt_facts c i : In c (m_ckts s) -> end_of c i -> In i (m_ifs s) /\ exists j, other_end s i j /\ In j (m_ifs s) /\ end_of c j /\
  loc s j = rem s i /\ rem s j = loc s i /\ i_cid (h_if s j) = i_cid (h_if s i) /\ i_cid (h_if s (fst c)) = i_cid (h_if s i).
Proof.
  destruct c as [a b]. intros Hc He. destruct PA as (P1 & _ & _). destruct (P1 a b Hc) as (A1 & A2 & A3 & A4 & A5). unfold end_of, other_end in *.
  destruct He as [-> | ->]; cbn [fst snd]; (split; [assumption|]).
  - exists b. repeat split; auto.
  - exists a. repeat split; auto.
Qed.
Lemma other_unique i j k : other_end s i j -> other_end s i k -> j = k \/ (other_end s i i /\ (j = i \/ k = i)).
Proof.
  unfold other_end. intros Hj Hk. destruct PA as (_ & P2 & _).
  assert (X : forall a b, In (a, b) (m_ckts s) -> end_of (a, b) a /\ end_of (a, b) b) by (unfold end_of; auto).
  destruct Hj as [Hj|Hj], Hk as [Hk|Hk].
  - assert (Q := P2 _ _ i Hj Hk (proj1 (X _ _ Hj)) (proj1 (X _ _ Hk))). left. congruence.
  - assert (Q := P2 _ _ i Hj Hk (proj1 (X _ _ Hj)) (proj2 (X _ _ Hk))). injection Q as -> ->. auto.
  - assert (Q := P2 _ _ i Hj Hk (proj2 (X _ _ Hj)) (proj1 (X _ _ Hk))). injection Q as -> ->. auto.
  - assert (Q := P2 _ _ i Hj Hk (proj2 (X _ _ Hj)) (proj2 (X _ _ Hk))). left. congruence.
Qed.

(** the edge of [i] is selected by the texts of [j] exactly if [j] is [i] *)
Lemma edge_out c i e j x : In c (m_ckts s) -> end_of c i -> edge_for s c i e -> In j (m_ifs s) -> shown_cid (i_cid (h_if s j)) x ->
  (picked x (loc s j) e <-> j = i).
Proof.
  intros Hc He (E1 & _ & _ & _ & _ & E6 & _) Hj X. destruct (ckt_facts c i Hc He) as (Hi & k & _ & _ & _ & _ & _ & _ & Q). rewrite Q in E6. unfold picked. split.
  - intros [P1 P2]. apply (CA j i x); auto; [congruence|]. now rewrite <- P1.
  - intros ->. split; auto. eapply shown_fun; eauto.
Qed.
Lemma edge_back c i e j x : In c (m_ckts s) -> end_of c i -> edge_for s c i e -> In j (m_ifs s) -> shown_cid (i_cid (h_if s j)) x ->
  (picked x (rem s j) e <-> other_end s i j).
Proof.
  intros Hc He Ee Hj X. destruct PA as (P1 & P2 & P3). destruct (P3 j Hj) as (c' & Hc' & He'). destruct (ckt_facts c' j Hc' He') as (_ & k & O & Hk & Hek & K1 & K2 & K3 & K4).
  rewrite <- K1. rewrite (edge_out c i e k x Hc He Ee Hk) by (rewrite K3; exact X). split.
  - intros ->. unfold other_end in *. tauto.
  - intros O'. assert (O'' : other_end s j i) by (unfold other_end in *; tauto). destruct (other_unique j k i O O'') as [Q|(Q & [-> | ->])]; auto.
    + assert (In (j, j) (m_ckts s)) by (unfold other_end in Q; tauto). destruct (other_unique j i j O'' Q) as [Y|(_ & [Y|Y])]; auto.
      unfold other_end in O''. destruct O'' as [O''|O''].
      * assert (Z := P2 _ _ j O'' H (or_introl eq_refl) (or_introl eq_refl)). congruence.
      * assert (Z := P2 _ _ j O'' H (or_intror eq_refl) (or_introl eq_refl)). congruence.
    + assert (In (j, j) (m_ckts s)) by (unfold other_end in Q; tauto). unfold other_end in O. destruct O as [O|O].
      * assert (Z := P2 _ _ j O H (or_introl eq_refl) (or_introl eq_refl)). congruence.
      * assert (Z := P2 _ _ j O H (or_intror eq_refl) (or_introl eq_refl)). congruence.
Qed.
End Edges.

(** ** A click on an edge *)
Lemma click_spec s c i j e : In c (m_ckts s) -> end_of c i -> end_of c j -> (c = (i, j) \/ c = (j, i)) -> edge_for s c i e -> loc s i <> loc s j -> dash_free (loc s i) -> dash_free (loc s j) ->
  exists v, select_edge e = Ok v /\ si_source v = loc s i /\ si_name v = i_name (h_if s i) /\ si_dest v = loc s j /\
    (exists x, si_cid v = CStr x /\ shown_cid (i_cid (h_if s (fst c))) x) /\ shown_util s i (si_util v) /\ si_cost v = i_cost (h_if s i).
Proof.
  intros Hc _ _ Q (E1 & E2 & E3 & E4 & E5 & E6 & E7) N Fi Fj.
  assert (T : select_edge e = Ok (mkSeli (je_source e) (je_name e) (loc s j) (CStr (je_cid e)) (je_util e) (je_cost e))).
  { unfold select_edge. rewrite E2. unfold mid_text. change (String.append "midpoint-" (ends_text (loc s (fst c)) (loc s (snd c)))) with (String.append "midpoint" (String.append "-" (ends_text (loc s (fst c)) (loc s (snd c))))).
    rewrite split_app by (cbn; repeat split; discriminate). cbn [tl]. rewrite E1. destruct Q as [-> | ->]; cbn [fst snd]; rewrite split_ends by auto; cbn [filter].
    - rewrite String.eqb_refl. destruct (String.eqb_spec (loc s j) (loc s i)) as [Y|Y]; [exfalso; auto|reflexivity].
    - destruct (String.eqb_spec (loc s j) (loc s i)) as [Y|Y]; [exfalso; auto|reflexivity]. }
  eexists. split; [exact T|]. cbn. rewrite E1, E3, E4. repeat split; auto. eauto.
Qed.

(** ** Marked edges *)
Lemma over_in s d i : sound_paths s d -> demand_over s d i -> In i (m_ifs s).
Proof.
  intros SP O. destruct (hops_of_demand s d SP) as (ifs & _ & A & B). apply A. now apply B.
Qed.
Section Marked.
Variable s : st.
Hypothesis KU : keys_unique s.
Hypothesis RO : refs_ok s.
Hypothesis PA : paired s.
Hypothesis CA : cid_texts_apart s.
Variables (E : env) (cols : list string) (dm : option sel) (ifc : option seli) (lp : option sel) (es : list entry).
Hypothesis HE : env_ok E.
Hypothesis PN : plain_names s TDemand.
Hypothesis GC : good_choice s dm lp.
Hypothesis U : update_stylesheet E s cols dm ifc lp = Ok es.

Lemma style_of en : In en es <-> wanted s cols dm ifc lp en.
Proof.
  destruct GC as [G1 G2]. destruct (style_spec s KU RO E cols dm ifc lp HE PN G1) as (es' & U' & W).
  - intros k Q. destruct (G2 k Q) as (l & ifs & c & b & A1 & A2 & A3 & _). eauto 10.
  - assert (es' = es) by congruence. subst es'. apply W.
Qed.
Lemma lsp_over_in i : chosen_lsp_over s lp i -> In i (m_ifs s).
Proof.
  intros (k & l & ifs & c & b & Q & Hl & Kl & P & Hi). destruct GC as [_ G2]. destruct (G2 k Q) as (l' & ifs' & c' & b' & A1 & A2 & A3 & A4).
  assert (l' = l) by (eapply (NoDup_map_inj (lsp_key s) (m_lsps s)); auto; [apply KU|congruence]). subst l'. apply A4. congruence.
Qed.
Lemma demand_over_in i : chosen_demand_over s dm i -> In i (m_ifs s).
Proof.
  intros (k & d & Q & Hd & Se & O). destruct GC as [G1 _]. destruct (G1 k Q) as [_ SP]. eapply over_in; eauto.
Qed.

Ltac wcases H := apply style_of in H; destruct H as [(? & _ & H)|[(? & ? & ? & ? & ? & ? & ? & [(? & ? & [H|H])|[H|H]])|[(? & ? & ? & ? & ? & ? & ? & ? & ? & ? & ? & [(? & ? & [H|H])|[H|H]])|(? & ? & ? & ? & H)]]]; try discriminate H.

Lemma marks c i e : In c (m_ckts s) -> end_of c i -> edge_for s c i e ->
  (marked es DemandOut e <-> chosen_demand_over s dm i) /\
  (marked es DemandIn e <-> exists j, other_end s i j /\ chosen_demand_over s dm j) /\
  (marked es LspOut e <-> chosen_lsp_over s lp i) /\
  (marked es LspIn e <-> exists j, other_end s i j /\ chosen_lsp_over s lp j) /\
  (marked es Chosen e <-> chosen_interface s ifc i).
Proof.
  intros Hc He Ee. split; [|split; [|split; [|split]]].
  - split.
    + intros (x & src & H & P). wcases H. injection H as -> ->.
      match goal with X : demand_over _ ?d ?j, Sh : shown_cid (i_cid (h_if s ?j)) ?y |- _ =>
        assert (Ch : chosen_demand_over s dm j) by (unfold chosen_demand_over; eauto 10); assert (Q := proj1 (edge_out s PA CA c i e j y Hc He Ee (demand_over_in _ Ch) Sh) P) end.
      subst. exact Ch.
    + intros Ch. exists (cid_text (i_cid (h_if s i))), (loc s i). split.
      * apply style_of. right. left. destruct Ch as (k & d & A1 & A2 & A3 & A4). exists k, d, i. unfold demand_mark. split; [exact A1|]. split; [exact A2|]. split; [exact A3|]. split; [exact A4|]. left. eexists. split; [apply shown_text|]. auto.
      * apply (edge_out s PA CA c i e i _ Hc He Ee (demand_over_in _ Ch) (shown_text _)). reflexivity.
  - split.
    + intros (x & src & H & P). wcases H. injection H as -> ->.
      match goal with X : demand_over _ ?d ?j, Sh : shown_cid (i_cid (h_if s ?j)) ?y |- _ =>
        assert (Ch : chosen_demand_over s dm j) by (unfold chosen_demand_over; eauto 10); assert (Q := proj1 (edge_back s PA CA c i e j y Hc He Ee (demand_over_in _ Ch) Sh) P) end.
      eauto.
    + intros (j & O & Ch). exists (cid_text (i_cid (h_if s j))), (rem s j). split.
      * apply style_of. right. left. destruct Ch as (k & d & A1 & A2 & A3 & A4). exists k, d, j. unfold demand_mark. split; [exact A1|]. split; [exact A2|]. split; [exact A3|]. split; [exact A4|]. left. eexists. split; [apply shown_text|]. auto.
      * apply (edge_back s PA CA c i e j _ Hc He Ee (demand_over_in _ Ch) (shown_text _)). exact O.
  - split.
    + intros (x & src & H & P). wcases H. injection H as -> ->.
      match goal with X : In ?j ?ifs, Sh : shown_cid (i_cid (h_if s ?j)) ?y |- _ =>
        assert (Ch : chosen_lsp_over s lp j) by (unfold chosen_lsp_over; eauto 12); assert (Q := proj1 (edge_out s PA CA c i e j y Hc He Ee (lsp_over_in _ Ch) Sh) P) end.
      subst. exact Ch.
    + intros Ch. exists (cid_text (i_cid (h_if s i))), (loc s i). split.
      * apply style_of. right. right. left. destruct Ch as (k & l & ifs & z & b & A1 & A2 & A3 & A4 & A5). exists k, l, ifs, z, b, i. unfold lsp_mark. split; [exact A1|]. split; [exact A2|]. split; [exact A3|]. split; [exact A4|]. split; [exact A5|]. left. eexists. split; [apply shown_text|]. auto.
      * apply (edge_out s PA CA c i e i _ Hc He Ee (lsp_over_in _ Ch) (shown_text _)). reflexivity.
  - split.
    + intros (x & src & H & P). wcases H. injection H as -> ->.
      match goal with X : In ?j ?ifs, Sh : shown_cid (i_cid (h_if s ?j)) ?y |- _ =>
        assert (Ch : chosen_lsp_over s lp j) by (unfold chosen_lsp_over; eauto 12); assert (Q := proj1 (edge_back s PA CA c i e j y Hc He Ee (lsp_over_in _ Ch) Sh) P) end.
      eauto.
    + intros (j & O & Ch). exists (cid_text (i_cid (h_if s j))), (rem s j). split.
      * apply style_of. right. right. left. destruct Ch as (k & l & ifs & z & b & A1 & A2 & A3 & A4 & A5). exists k, l, ifs, z, b, j. unfold lsp_mark. split; [exact A1|]. split; [exact A2|]. split; [exact A3|]. split; [exact A4|]. split; [exact A5|]. left. eexists. split; [apply shown_text|]. auto.
      * apply (edge_back s PA CA c i e j _ Hc He Ee (lsp_over_in _ Ch) (shown_text _)). exact O.
  - destruct (ckt_facts s PA c i Hc He) as (_ & _ & _ & _ & _ & _ & _ & _ & Qc).
    assert (Ee' := Ee). destruct Ee' as (E1 & _ & _ & _ & _ & E6 & _). rewrite Qc in E6. split.
    + intros (x & src & H & [P1 P2]). wcases H. injection H as -> ->. eexists _, _. split; [eassumption|]. split; [congruence|]. split; [eassumption|]. now rewrite <- P1.
    + intros (v & x & A1 & A2 & A3 & A4). exists x, (loc s i). split.
      * apply style_of. right. right. right. exists v, x. split; [exact A1|]. split; [exact A3|]. congruence.
      * split; [eapply shown_fun; eauto|auto].
Qed.
End Marked.
