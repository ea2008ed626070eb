(** RenameProofs.v - simulations of models whose nodes have other names. *)
From Verif Require Import Base Graph Objects Sim Api Frames ApiFrames ApiProofs HistProofs FailProofs RepairProofs Spec SpecCkt SpecSim SpecMetric SpecFlow SpecOrder SpecFail GraphProofs MonadProofs RoundProofs ResProofs ObjProofs CircuitProofs
  ValidateProofs GroupProofs PathProofs QuietProofs RouteProofs LeastProofs IgpProofs Ecmp TrafficProofs ShareProofs SpecSig SigUpdate MetricProofs FlowProofs UtilProofs OrderProofs SpecWhatIf WhatIf WhatIfMore WhatIfApi SpecCost.
From Coq Require Import Lqa Permutation.

Section Rename.
Variables (f : string -> string) (s t : st).
Hypothesis R : renamed f s t.
Notation RS := (route (unreserved s) (usable (unreserved s))).
Notation RT := (route (unreserved t) (usable (unreserved t))).
Notation LS := (least_cost (unreserved s) (usable (unreserved s))).
Notation LT := (least_cost (unreserved t) (usable (unreserved t))).
Lemma used_loc i : In i (m_ifs s) -> In (loc s i) (names_used s).
Proof. intros H. unfold names_used. apply in_or_app. left. now apply in_map. Qed.
Lemma used_rem i : In i (m_ifs s) -> In (rem s i) (names_used s).
Proof. intros H. unfold names_used. apply in_or_app. right. apply in_or_app. left. now apply in_map. Qed.
Lemma used_from d : In d (m_dms s) -> In (dmd_from s d) (names_used s).
Proof. intros H. unfold names_used. apply in_or_app. right. apply in_or_app. right. apply in_or_app. left. now apply in_map. Qed.
Lemma used_to d : In d (m_dms s) -> In (dmd_to s d) (names_used s).
Proof. intros H. unfold names_used. apply in_or_app. right. apply in_or_app. right. apply in_or_app. right. now apply in_map. Qed.
Lemma name_to u p v : RS u p v -> RT (f u) p (f v).
Proof.
  induction 1 as [|i p v Hi [Hf Ha] Rt IH]; [constructor|]. simpl in Hi. change (loc (unreserved s) i) with (loc s i). rewrite <- (rn_loc _ _ _ R i Hi).
  change (loc t i) with (loc (unreserved t) i). constructor.
  - simpl. now apply (rn_ifs _ _ _ R).
  - split; [change (i_failed (h_if t i) = false); rewrite (rn_fail _ _ _ R i Hi); exact Hf|]. now apply (rn_open _ _ _ R i Hi).
  - change (rem (unreserved t) i) with (rem t i). rewrite (rn_rem _ _ _ R i Hi). exact IH.
Qed.
Lemma name_back p : forall u v, In u (names_used s) -> In v (names_used s) -> RT (f u) p (f v) -> RS u p v.
Proof.
  induction p as [|i p IH]; intros u v Hu Hv H.
  - apply route_nil_inv in H. rewrite (rn_apart _ _ _ R u v Hu Hv H). constructor.
  - apply route_cons_inv in H as (E & Hi & [Hf Ha] & H). simpl in Hi. apply (rn_ifs _ _ _ R) in Hi. change (loc (unreserved t) i) with (loc t i) in E. rewrite (rn_loc _ _ _ R i Hi) in E.
    rewrite (rn_apart _ _ _ R u (loc s i) Hu (used_loc i Hi) E). change (loc s i) with (loc (unreserved s) i). constructor.
    + exact Hi.
    + split; [change (i_failed (h_if s i) = false); rewrite <- (rn_fail _ _ _ R i Hi); exact Hf|]. now apply (rn_open _ _ _ R i Hi).
    + change (rem (unreserved t) i) with (rem t i) in H. rewrite (rn_rem _ _ _ R i Hi) in H. apply IH; auto. apply used_rem, Hi.
Qed.
Lemma name_cost u p v : RS u p v -> route_cost t p = route_cost s p.
Proof. induction 1 as [|i p v Hi Ho Rt IH]; [reflexivity|]. simpl. rewrite IH. now rewrite (rn_cost _ _ _ R i Hi). Qed.
Lemma name_least u p v : In u (names_used s) -> In v (names_used s) -> (LS u p v <-> LT (f u) p (f v)).
Proof.
  intros Hu Hv. split; intros [R1 M].
  - split; [now apply name_to|]. intros q Q. apply (name_back _ _ _ Hu Hv) in Q. specialize (M q Q). rewrite !un_cost in *. rewrite (name_cost _ _ _ R1), (name_cost _ _ _ Q). exact M.
  - apply (name_back _ _ _ Hu Hv) in R1. split; [exact R1|]. intros q Q. specialize (M q (name_to _ _ _ Q)). rewrite !un_cost in *. rewrite (name_cost _ _ _ R1), (name_cost _ _ _ Q) in M. exact M.
Qed.
Lemma named_w o o' p : (forall i, In i p -> List.length (o' (loc t i)) = List.length (o (loc s i))) -> w (loc t) o' p = w (loc s) o p.
Proof.
  intros H. induction p as [|i p IH]; [reflexivity|]. cbn [w]. rewrite IH by (intros; apply H; right; auto). unfold deg. now rewrite (H i (or_introl eq_refl)).
Qed.

Variables (E E' : env) (k : kind) (s' t' : st).
Hypothesis HE : env_ok E.
Hypothesis HE' : env_ok E'.
Hypothesis P : plain k s.
Hypothesis P' : plain k t.
Hypothesis U : update_simulation E k s = (s', Ok tt).
Hypothesis U' : update_simulation E' k t = (t', Ok tt).
Lemma name_lc d : In d (m_dms s) -> forall p, LS (dmd_from s d) p (dmd_to s d) <-> LT (dmd_from t d) p (dmd_to t d).
Proof. intros Hd p. rewrite (rn_from _ _ _ R d Hd), (rn_to _ _ _ R d Hd). apply name_least; [now apply used_from|now apply used_to]. Qed.
Lemma name_paths d : In d (m_dms s) -> same_paths (d_path (h_dm s' d)) (d_path (h_dm t' d)).
Proof.
  intros Hd. assert (Hd' : In d (m_dms t)) by (rewrite (rn_dms _ _ _ R); exact Hd). exact (two_paths E E' k k s t s' t' HE HE' P P' U U' d Hd Hd' (name_lc d Hd)).
Qed.
Lemma name_loads d L o es M o' fs i T : In d (m_dms s) -> routes k s s' d L o es -> routes k t t' d M o' fs -> (loads k t M o' i T == loads k s L o i T)%Q.
Proof.
  intros Hd (_ & _ & N1 & A & _ & O1 & X1 & _) (_ & _ & N2 & B & _ & O2 & X2 & _). unfold loads.
  assert (LM : forall p, In p L <-> In p M) by (intros p; now rewrite A, B, (name_lc d Hd)).
  assert (Ip : forall p j, In p L -> In j p -> In j (m_ifs s)).
  { intros p j Hp Hj. apply A in Hp as [Rt _]. exact (proj1 (route_all _ _ _ _ _ j Rt Hj)). }
  assert (OO : forall p i, In p L -> In i p -> List.length (o' (loc t i)) = List.length (o (loc s i))).
  { intros q x Hq Hx. apply same_count; auto. intros j. rewrite X1, X2. assert (Hxi := Ip q x Hq Hx). split; intros [H (p & Hp & Hj)].
    - apply LM in Hp. assert (Hji := Ip p j Hp Hj). split; [|eauto]. rewrite (rn_loc _ _ _ R j Hji), (rn_loc _ _ _ R x Hxi) in H. exact (rn_apart _ _ _ R _ _ (used_loc j Hji) (used_loc x Hxi) H).
    - assert (Hji := Ip p j Hp Hj). split; [rewrite (rn_loc _ _ _ R j Hji), (rn_loc _ _ _ R x Hxi), H; reflexivity|]. exists p. split; [now apply LM|exact Hj]. }
  rewrite <- (sumq_perm _ _ _ (NoDup_Permutation N1 N2 LM)). apply sumq_ext. intros p Hp. rewrite (crossings_if t s), (named_w o o' p); [reflexivity|]. intros j Hj. exact (OO p j Hp Hj).
Qed.
Lemma name_adds d i x y : In d (m_dms s) -> adds k s' d i x -> adds k t' d i y -> (x == y)%Q.
Proof.
  intros Hd A B. assert (Hd' : In d (m_dms t)) by (rewrite (rn_dms _ _ _ R); exact Hd). assert (SP := name_paths d Hd).
  destruct (run_puts E k s s' HE P U d i x Hd A) as [[X1 X2]|(L & o & es & RL & X)], (run_puts E' k t t' HE' P' U' d i y Hd' B) as [[Y1 Y2]|(M & o' & fs & RM & Y)].
  - now rewrite X2, Y2.
  - rewrite X1, (proj1 RM) in SP. destruct SP.
  - rewrite Y1, (proj1 RL) in SP. destruct SP.
  - rewrite X, Y. apply amount_eq. rewrite (name_loads d L o es M o' fs i _ Hd RL RM), (rn_traffic _ _ _ R d Hd). reflexivity.
Qed.
Lemma name_traffic i : In i (m_ifs s) -> same_traffic (i_traffic (h_if s' i)) (i_traffic (h_if t' i)).
Proof.
  intros Hi. assert (Hi' : In i (m_ifs t)) by (apply (rn_ifs _ _ _ R); exact Hi).
  assert (A := run_traffic E k s s' HE P U i Hi). assert (B := run_traffic E' k t t' HE' P' U' i Hi'). rewrite (rn_fail _ _ _ R i Hi) in B.
  destruct (i_failed (h_if s i)); [rewrite A, B; exact I|]. destruct A as (q & g & -> & A2 & A3), B as (r & h & -> & B2 & B3).
  simpl. rewrite A2, B2, (rn_dms _ _ _ R). rewrite (rn_dms _ _ _ R) in B3. apply sumq_ext. intros d Hd. exact (name_adds d i (g d) (h d) Hd (A3 d Hd) (B3 d Hd)).
Qed.
End Rename.

Section Whole.
Variables (f : string -> string) (k : kind) (s : st).
Notation t := (rename_nodes f s).
Hypothesis J : forall a b, In a (all_names s) -> In b (all_names s) -> f a = f b -> a = b.
Lemma an_used a : In a (names_used s) -> In a (all_names s).
Proof. intros H. unfold all_names. apply in_or_app. now left. Qed.
Lemma an_node n : In n (m_nds s) -> In (nd_name s n) (all_names s).
Proof. intros H. unfold all_names. apply in_or_app. right. apply in_or_app. left. now apply in_map. Qed.
Lemma an_from l : In l (m_lsps s) -> In (lsp_from s l) (all_names s).
Proof. intros H. unfold all_names. do 2 (apply in_or_app; right). apply in_or_app. left. now apply in_map. Qed.
Lemma an_to l : In l (m_lsps s) -> In (lsp_to s l) (all_names s).
Proof. intros H. unfold all_names. do 3 (apply in_or_app; right). now apply in_map. Qed.
Lemma whole_renamed : renamed f s t.
Proof.
  constructor; try reflexivity; auto.
  - intros a b Ha Hb. apply J; now apply an_used.
  - intros i Hi. reflexivity.
Qed.
Lemma wr_eq a b : In a (names_used s) -> In b (names_used s) -> (f a = f b <-> a = b).
Proof. intros Ha Hb. split; [apply J; now apply an_used|now intros ->]. Qed.
Lemma wr_av i : available (unreserved t) i <-> available (unreserved s) i.
Proof. reflexivity. Qed.
Lemma wr_reverse i j : In i (m_ifs s) -> In j (m_ifs s) -> (is_reverse k (unreserved t) i j <-> is_reverse k (unreserved s) i j).
Proof.
  intros Hi Hj. unfold is_reverse. change (loc (unreserved t)) with (fun x => f (loc s x)). change (rem (unreserved t)) with (fun x => f (rem s x)). cbn beta.
  change (loc (unreserved s)) with (loc s). change (rem (unreserved s)) with (rem s). rewrite !wr_eq by auto using used_loc, used_rem. reflexivity.
Qed.
Lemma nodup_inj {A B C} (g : A -> B) (h : B -> C) l : (forall x y, In x l -> In y l -> h (g x) = h (g y) -> g x = g y) -> NoDup (map g l) -> NoDup (map (fun x => h (g x)) l).
Proof.
  induction l as [|a l IH]; intros H N; [constructor|]. simpl in *. inversion N as [|? ? N1 N2]; subst. constructor; [|apply IH; auto].
  intros I. apply in_map_iff in I as (x & X1 & X2). apply N1. rewrite (H a x); auto. now apply in_map.
Qed.
Lemma nodup_weak {A B C} (g : A -> B) (h : A -> C) l : (forall x y, In x l -> In y l -> h x = h y -> g x = g y) -> NoDup (map g l) -> NoDup (map h l).
Proof.
  induction l as [|a l IH]; intros H N; [constructor|]. simpl in *. inversion N as [|? ? N1 N2]; subst. constructor; [|apply IH; auto].
  intros I. apply in_map_iff in I as (x & X1 & X2). apply N1. rewrite (H a x); auto. now apply in_map.
Qed.
Lemma wr_fine : demands_fine s -> demands_fine t.
Proof.
  intros H d Hd. destruct (H d Hd) as [A B]. change (dmd_from t d) with (f (dmd_from s d)). change (dmd_to t d) with (f (dmd_to s d)). split.
  - apply in_map_iff in A as (n & <- & Hn). change (In (nd_name t n) (map (nd_name t) (m_nds t))). now apply in_map.
  - intros E. apply B. revert E. apply wr_eq; auto using used_from, used_to.
Qed.
Lemma wr_fit : (k = Perf -> NoDup (map (fun i => ends_text (f (loc s i)) (f (rem s i))) (m_ifs s))) -> fit k (unreserved s) -> fit k (unreserved t).
Proof.
  intros G (F1 & F2 & F3 & F4 & F5).
  assert (O : forall (P Q : nat -> Prop), (forall x, In x (m_ifs s) -> (P x <-> Q x)) -> one_in (m_ifs s) P -> one_in (m_ifs s) Q).
  { intros P Q H (x & Hx & Px & U). exists x. split; [exact Hx|]. split; [now apply H|]. intros y Hy Qy. apply U; auto. now apply H. }
  split; [|split; [|split; [|split]]].
  - intros i Hi Av. change (In i (m_ifs s)) in Hi. destruct (F1 i Hi Av) as [(j & J1 & J2 & J3 & J4) X]. split.
    + exists j. split; [exact J1|]. split; [exact J2|]. change (f (loc s j) = f (rem s i) /\ f (rem s j) = f (loc s i)). change (loc s j = rem s i) in J3. change (rem s j = loc s i) in J4. now rewrite J3, J4.
    + intros Hk Nc. destruct (X Hk Nc) as [X1 X2]. split; [revert X1|revert X2]; apply O; intros x Hx;
        change (loc (unreserved t)) with (fun x => f (loc s x)); change (rem (unreserved t)) with (fun x => f (rem s x)); cbn beta; change (loc (unreserved s)) with (loc s); change (rem (unreserved s)) with (rem s);
        rewrite !wr_eq by auto using used_loc, used_rem; reflexivity.
  - exact F2.
  - intros i j Hi Hj Av Rv. apply (F3 i j Hi Hj Av). now apply wr_reverse.
  - change (NoDup (map (fun n => f (nd_name s n)) (m_nds s))). apply nodup_inj; [|exact F4]. intros x y Hx Hy. apply J; now apply an_node.
  - intros Hk. split; [exact (G Hk)|]. exact (proj2 (F5 Hk)).
Qed.
Lemma wr_known : ends_known s -> ends_known t.
Proof.
  intros H i Hi. destruct (H i Hi) as [A B]. apply in_map_iff in A as (n & A & Hn). apply in_map_iff in B as (m & B & Hm). split; apply in_map_iff.
  - exists n. split; [|exact Hn]. change (f (nd_name s n) = f (loc s i)). now rewrite A.
  - exists m. split; [|exact Hm]. change (f (nd_name s m) = f (rem s i)). now rewrite B.
Qed.
Lemma wr_plain : plain k s -> texts_distinct t -> plain k t.
Proof.
  intros (NL & WP & EK & CS & EA & KU) T. split; [exact NL|]. split; [destruct WP as (A & B & _); split; [exact A|split; [exact B|exact T]]|]. split; [now apply wr_known|].
  split; [exact CS|]. split.
  - intros i j Hi Hj Rv. apply (EA i j Hi Hj). exact (proj1 (wr_reverse i j Hi Hj) Rv).
  - unfold if_keys_unique in *. refine (nodup_weak _ _ _ _ KU). intros i j Hi Hj H. change ((i_name (h_if s i), f (loc s i)) = (i_name (h_if s j), f (loc s j))) in H. unfold if_key. injection H as H1 H2. rewrite wr_eq in H2 by auto using used_loc. now rewrite H1, H2.
Qed.
Lemma wr_texts : (forall a, In a (all_names s) -> dash_free (f a)) -> m_lsps s = [] -> texts_distinct t.
Proof.
  intros D NL a a' b b' Ha Ha' _ _ H. unfold from_names in Ha, Ha'. change (m_lsps t) with (m_lsps s) in Ha, Ha'. rewrite NL in Ha, Ha'. cbn [map app] in Ha, Ha'.
  apply in_map_iff in Ha as (d & <- & Hd). apply in_map_iff in Ha' as (e & <- & He). apply ends_text_inj; [| |exact H].
  - exact (D _ (an_used _ (used_from s d Hd))).
  - exact (D _ (an_used _ (used_from s e He))).
Qed.
Lemma whole_names E E' s' : env_ok E -> env_ok E' -> plain k s -> (forall a, In a (all_names s) -> dash_free (f a)) -> update_simulation E k s = (s', Ok tt) ->
  exists t', update_simulation E' k t = (t', Ok tt) /\ (forall d, In d (m_dms s) -> same_paths (d_path (h_dm s' d)) (d_path (h_dm t' d))) /\
    (forall d i x y, In d (m_dms s) -> adds k s' d i x -> adds k t' d i y -> (x == y)%Q) /\
    forall i, In i (m_ifs s) -> same_traffic (i_traffic (h_if s' i)) (i_traffic (h_if t' i)).
Proof.
  intros HE HE' P D U. assert (P' : plain k t) by (apply wr_plain; [exact P|apply wr_texts; [exact D|exact (proj1 P)]]).
  destruct P as (NL & WP & EK & CS & EA & KU). assert (P : plain k s) by (repeat (split; [assumption|]); assumption).
  destruct P' as (NL' & WP' & EK' & CS' & EA' & KU'). assert (P' : plain k t) by (repeat (split; [assumption|]); assumption).
  destruct (proj1 (succeeds E k HE s NL WP EK CS) (ex_intro _ s' U)) as [F1 F2].
  assert (X : exists t', update_simulation E' k t = (t', Ok tt)).
  { apply (succeeds E' k HE' t NL' WP' EK' CS'). split; [apply wr_fine, F1|]. apply wr_fit; [|exact F2]. intros Hk. destruct F2 as (_ & _ & _ & _ & F5). destruct (F5 Hk) as [F6 _].
    refine (nodup_weak _ _ _ _ F6). intros i j Hi Hj H. apply ends_text_inj in H as [H1 H2]; try (apply D, an_used, used_loc; assumption).
    rewrite wr_eq in H1 by auto using used_loc. rewrite wr_eq in H2 by auto using used_rem. change (ends_text (loc s i) (rem s i) = ends_text (loc s j) (rem s j)). now rewrite H1, H2. }
  destruct X as (t' & U'). exists t'. split; [exact U'|]. assert (R := whole_renamed). split; [|split].
  - intros d Hd. exact (name_paths f s t R E E' k s' t' HE HE' P P' U U' d Hd).
  - intros d i x y Hd. exact (name_adds f s t R E E' k s' t' HE HE' P P' U U' d i x y Hd).
  - intros i Hi. exact (name_traffic f s t R E E' k s' t' HE HE' P P' U U' i Hi).
Qed.
End Whole.
