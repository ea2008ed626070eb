(** SigProofs.v - what signalling one LSP does. *)
From Verif Require Import Base Graph Objects Sim Spec SpecSig GraphProofs MonadProofs RoundProofs ResProofs PathProofs Frames CircuitProofs RouteProofs LeastProofs.

(** ** Minima *)
Lemma fold_Nmin l : forall a, (fold_left Nat.min l a <= a)%nat /\ (forall x, In x l -> (fold_left Nat.min l a <= x)%nat) /\
  (fold_left Nat.min l a = a \/ In (fold_left Nat.min l a) l).
Proof.
  induction l as [|y l IH]; simpl; intros a; [repeat split; auto; tauto|].
  destruct (IH (Nat.min a y)) as (A & B & C). split; [lia|]. split.
  - intros x [->|H]; [lia|auto].
  - destruct C as [C|C]; [|auto]. rewrite C. destruct (Nat.min_spec a y) as [[_ D]|[_ D]]; rewrite D; auto.
Qed.
Lemma Nmin_list_some l n : Nmin_list l = Some n -> In n l /\ forall x, In x l -> (n <= x)%nat.
Proof.
  destruct l as [|a l]; simpl; [discriminate|]. intros H; injection H as <-. destruct (fold_Nmin l a) as (A & B & C).
  split; [destruct C as [C|C]; auto|]. intros x [->|H]; auto.
Qed.
Lemma fold_Qmin l : forall a, let m := fold_left (fun a b => if Qle_bool a b then a else b) l a in
  (m <= a)%Q /\ (forall x, In x l -> (m <= x)%Q) /\ (m = a \/ In m l).
Proof.
  induction l as [|y l IH]; simpl; intros a; [repeat split; auto; [apply Qle_refl|tauto]|].
  destruct (IH (if Qle_bool a y then a else y)) as (A & B & C). destruct (Qle_bool a y) eqn:L.
  - apply Qle_bool_iff in L. split; [auto|]. split; [|destruct C; auto]. intros x [<-|H]; [|auto]. eapply Qle_trans; eauto.
  - assert (L' : (y <= a)%Q) by (destruct (Qlt_le_dec y a); [now apply Qlt_le_weak|]; apply Qle_bool_iff in q; congruence).
    split; [eapply Qle_trans; eauto|]. split; [|destruct C; auto]. intros x [<-|H]; auto.
Qed.
Lemma Qmin_list_some l m : Qmin_list l = Some m -> In m l /\ forall x, In x l -> (m <= x)%Q.
Proof.
  destruct l as [|a l]; simpl; [discriminate|]. intros H; injection H as <-. destruct (fold_Qmin l a) as (A & B & C).
  split; [destruct C as [C|C]; auto|]. intros x [<-|H]; auto.
Qed.
Lemma Qmin_list_ex a l : exists m, Qmin_list (a :: l) = Some m.
Proof. simpl; eauto. Qed.

Lemma mfilter_all {A} (body : A -> M bool) l s : (forall x, In x l -> body x s = (s, Ok true)) -> mfilter body l s = (s, Ok l).
Proof.
  induction l as [|x l IH]; intros H; [reflexivity|]. cbn [mfilter]. rewrite (bind_run _ _ _ _ _ (H x (or_introl eq_refl))).
  rewrite (bind_run _ _ _ _ _ (IH (fun y Hy => H y (or_intror Hy)))). reflexivity.
Qed.

Lemma path_min_run s p : p <> [] -> exists b, path_min_reservable s p = Ok b /\ least_reservable s p b.
Proof.
  intros N. unfold path_min_reservable. destruct p as [|i p]; [congruence|]. cbn [map].
  destruct (Qmin_list_ex (reservable_bw s i) (map (reservable_bw s) p)) as (m & Hm). rewrite Hm. exists m. split; auto.
  apply Qmin_list_some in Hm as [A B]. change (reservable_bw s i :: map (reservable_bw s) p) with (map (reservable_bw s) (i :: p)) in *. split.
  - apply in_map_iff in A as (j & <- & Hj). exists j. split; auto. apply reservable_self.
  - intros j r Hj Hr. apply reservable_iff in Hr. rewrite Hr. apply B. now apply in_map.
Qed.
Lemma path_min_nil s : path_min_reservable s [] = Err ValueError. Proof. reflexivity. Qed.

Lemma Zsum_cost s p : Zsum (map (fun i => i_cost (h_if s i)) p) = route_cost s p.
Proof. 
  induction p as [|i p IH]; [reflexivity|]. cbn [map route_cost]. rewrite <- IH. reflexivity.
Qed.

(** ** Choosing *)
Lemma choose_run E c s : c <> [] -> exists p s', choose_path E c s = (s', Ok p) /\ (s' = s \/ s' = bump_rng s) /\
  In p c /\ forall q, In q c -> (List.length p <= List.length q)%nat.
Proof.
  intros N. unfold choose_path. 
  assert (G : exists p s', (match Nmin_list (map (@List.length nat) c) with
      | None => ret []
      | Some n => match filter (fun p => Nat.eqb (List.length p) n) c with [p] => ret p | low => random_choice E [] low end
      end) s = (s', Ok p) /\ (s' = s \/ s' = bump_rng s) /\ In p c /\ forall q, In q c -> (List.length p <= List.length q)%nat).
  { destruct (Nmin_list (map (@List.length nat) c)) as [n|] eqn:Hm; [|destruct c; [congruence|discriminate]].
    apply Nmin_list_some in Hm as [A B]. apply in_map_iff in A as (p0 & E0 & H0).
    assert (F : forall p, In p (filter (fun p => Nat.eqb (List.length p) n) c) <-> In p c /\ List.length p = n).
    { intros p. rewrite filter_In, Nat.eqb_eq. reflexivity. }
    assert (H00 : In p0 (filter (fun p => Nat.eqb (List.length p) n) c)) by (apply F; auto).
    assert (Fin : forall p, In p (filter (fun p => Nat.eqb (List.length p) n) c) -> In p c /\ forall q, In q c -> (List.length p <= List.length q)%nat).
    { intros p Hp. apply F in Hp as [Hp L]. split; auto. intros q Hq. rewrite L. apply B. now apply in_map. }
    destruct (filter _ c) as [|a [|b low]] eqn:Hf; [destruct H00| |].
    - exists a, s. split; [reflexivity|]. split; [auto|]. apply Fin. simpl; auto.
    - unfold random_choice. rewrite bind_gets, bind_modify. eexists _, _. split; [reflexivity|]. split; [auto|]. apply Fin. apply nth_In.
      apply Nat.mod_upper_bound. discriminate. }
  destruct c as [|p [|q c]]; [congruence| |exact G].
  exists p, s. repeat split; auto; simpl; auto. intros q [<-|[]]. auto.
Qed.

(** ** Reserving along a path *)
Lemma reserve_run x p : forall s, exists h, mfor p (fun i => add_reserved i x) s = (with_if s h, Ok tt) /\
  (forall i, if_ex_res (h_if s i) (h i)) /\ (forall i, ~ In i p -> h i = h_if s i) /\
  (NoDup p -> forall i, In i p -> i_res (h i) = (reserved_bw s i + x)%Q).
Proof.
  induction p as [|j p IH]; intros s.
  - exists (h_if s). split; [destruct s; reflexivity|]. split; [intros i; unfold if_ex_res; destruct (h_if s i); reflexivity|]. split; [auto|]. intros _ i [].
  - cbn [mfor]. unfold add_reserved at 1. rewrite bind_modify. set (s1 := upd_if j (if_res (reserved_bw s j + x)%Q) s).
    destruct (IH s1) as (h & R & A & B & C). exists h. split; [rewrite R; reflexivity|]. split; [|split].
    + intros i. specialize (A i). unfold if_ex_res in *. rewrite A. unfold s1. simpl. unfold fupd. destruct (Nat.eqb_spec j i) as [->|N]; reflexivity.
    + intros i Hi. rewrite B by (simpl in Hi; tauto). unfold s1. simpl. rewrite fupd_other; auto. intros ->. apply Hi. simpl; auto.
    + intros N. inversion N as [|? ? N1 N2]; subst. intros i [<-|Hi].
      * rewrite B by auto. unfold s1. simpl. rewrite fupd_same. reflexivity.
      * rewrite C by auto. unfold reserved_bw at 1. unfold s1. simpl. rewrite fupd_other by (intros ->; auto). reflexivity.
Qed.

Lemma considered_lsp s bw i : considered s false bw true i = true <-> lsp_usable s bw i.
Proof.
  unfold considered, lsp_usable. simpl. rewrite !andb_true_iff, negb_true_iff, reservable_ge. tauto.
Qed.

(** ** The setter of setup_bandwidth *)
Lemma set_setup_run s l x : (set_setup_bw l x s = (upd_ls l (ls_setup (RNum (match l_cfg (h_ls s l) with Some c => if Qeqb c 0 then x else c | None => x end))) s, Ok tt))
  \/ (exists e, set_setup_bw l x s = (s, Err e) /\ e = ModelException "setup_bandwidth must be 0 or greater" /\ (x < 0)%Q /\
       match l_cfg (h_ls s l) with Some c => (c == 0)%Q | None => True end).
Proof.
  unfold set_setup_bw. rewrite bind_gets. 
  assert (L : Qleb 0 x = false -> (x < 0)%Q) by (intros H; destruct (Qlt_le_dec x 0) as [Q|Q]; auto; apply Qleb_le in Q; congruence).
  destruct (l_cfg (h_ls s l)) as [c|].
  - destruct (Qeqb c 0) eqn:C; [|left; reflexivity]. destruct (Qleb 0 x) eqn:X; [left; reflexivity|]. right. eexists. split; [reflexivity|]. split; auto. split; auto. now apply Qeq_bool_iff.
  - destruct (Qleb 0 x) eqn:X; [left; reflexivity|]. right. eexists. split; [reflexivity|]. auto.
Qed.

Lemma route_mono s (P Q : nat -> Prop) u p v : (forall i, P i -> Q i) -> route s P u p v -> route s Q u p v.
Proof. intros H. induction 1; constructor; auto. Qed.
Lemma least_iff s (P Q : nat -> Prop) u p v : (forall i, P i <-> Q i) -> (least_cost s P u p v <-> least_cost s Q u p v).
Proof.
  intros H. split; intros [R M]; (split; [eapply route_mono; [|exact R]; firstorder|]); intros q Hq; apply M; (eapply route_mono; [|exact Hq]; firstorder).
Qed.

(** Fields of the four states the signalling of [l] goes through *)
Section Signal.
Variables (E : env) (k : kind).
Hypothesis HE : env_ok E.
Variables (s : st) (l : nat) (share : Q).
Hypothesis ND : NoDup (m_ifs s).
Hypothesis Cost : forall i, In i (m_ifs s) -> 1 <= i_cost (h_if s i).
Hypothesis NoPar : k = Perf -> forall i j, In i (m_ifs s) -> In j (m_ifs s) -> loc s i = loc s j -> rem s i = rem s j -> i = j.
Let want := wanted s l share.
Let u := lsp_from s l.
Let v := lsp_to s l.

Lemma signal_cases :
  (u <> v /\ exists s', determine_lsp E k l share s = (s', Ok tt) /\ signalled s l want s') \/
  (exists s' e, determine_lsp E k l share s = (s', Err e) /\ 
    ((want < 0)%Q /\ e = ModelException "setup_bandwidth must be 0 or greater" \/ u = v /\ e = ValueError \/ ~ In u (node_names s) /\ e = NodeNotFound)).
Proof.
  unfold determine_lsp. rewrite bind_gets. cbv zeta. fold (wanted s l share). fold want.
  rewrite bind_modify. set (sa := upd_ls l (ls_res (RNum want)) s).
  assert (Ca : l_cfg (h_ls sa l) = l_cfg (h_ls s l)) by (unfold sa; simpl; now rewrite fupd_same).
  destruct (set_setup_run sa l want) as [R|(e & R & -> & X & _)].
  2:{ right. rewrite (surjective_pairing (bind _ _ sa)). unfold bind. rewrite R. simpl. eauto 6. }
  rewrite (bind_run _ _ _ _ _ R). rewrite Ca in R. rewrite Ca.
  assert (W : match l_cfg (h_ls s l) with Some c => if Qeqb c 0 then want else c | None => want end = want).
  { unfold want, wanted. destruct (l_cfg (h_ls s l)) as [c|]; auto. destruct (Qeqb c 0); auto. }
  rewrite W. clear R W. set (sb := upd_ls l (ls_setup (RNum want)) sa).
  rewrite bind_gets. assert (Sv : lsp_setup_value sb l = want) by (unfold lsp_setup_value, sb; simpl; rewrite fupd_same; reflexivity).
  rewrite Sv, bind_gets, bind_modify. set (sc := upd_ls l (ls_path PEmpty) sb). rewrite bind_gets. cbn [fst snd].
  change (make_graph k sb false want true) with (make_graph k s false want true).
  assert (U : lsrc sc l = u) by (unfold lsrc, sc, sb, sa; simpl; rewrite !fupd_same; reflexivity).
  assert (V : ldst sc l = v) by (unfold ldst, sc, sb, sa; simpl; rewrite !fupd_same; reflexivity).
  rewrite U, V. clear U V Sv.
  assert (Hl : h_ls sc l = ls_path PEmpty (ls_setup (RNum want) (ls_res (RNum want) (h_ls s l)))).
  { unfold sc, sb, sa. simpl. rewrite !fupd_same. reflexivity. }
  assert (Ho : forall m, m <> l -> h_ls sc m = h_ls s m) by (intros m Hm; unfold sc, sb, sa; simpl; rewrite !fupd_other by auto; reflexivity).
  assert (Frame : forall s', (exists p a, h_ls s' = fupd (h_ls sc) l (ls_res a (ls_path p (h_ls sc l)))) -> h_nd s' = h_nd s -> h_sr s' = h_sr s -> h_dm s' = h_dm s -> m_ifs s' = m_ifs s -> m_nds s' = m_nds s ->
     m_dms s' = m_dms s -> m_lsps s' = m_lsps s -> m_srs s' = m_srs s -> m_ckts s' = m_ckts s -> m_groups s' = m_groups s -> s_next s' = s_next s ->
     (forall i, if_ex_res (h_if s i) (h_if s' i)) -> only_signals s l s').
  { intros s' (p & a & X) F1 F2 F3 F4 F5 F6 F7 F8 F9 F10 F11 F12. constructor; auto.
    - repeat split; auto.
    - intros m Hm. rewrite X, fupd_other by auto. auto.
    - rewrite X, fupd_same, Hl. reflexivity. }
  assert (Same : forall i, if_ex_res (h_if s i) (h_if s i)) by (intros i; unfold if_ex_res; destruct (h_if s i); reflexivity).
  assert (A := asp_paths E k s (considered s false want true) (node_names s) HE ND Cost NoPar u v).
  change (mkG (nx_edges k (map (edge_of s) (filter (considered s false want true) (m_ifs s)))) (node_names s)) with (make_graph k s false want true) in A.
  assert (OK : forall i, considered s false want true i = true <-> lsp_usable s want i) by (intros; apply considered_lsp).
  destruct (nx_asp E (make_graph k s false want true) u v) as [nps| |].
  - destruct A as (A1 & A2 & A3 & _). rewrite bind_gets. 
    change (iface_paths k sc (make_graph k s false want true) nps) with (iface_paths k s (make_graph k s false want true) nps).
    set (cands := iface_paths k s (make_graph k s false want true) nps) in *. clearbody cands.
    destruct (string_dec u v) as [Huv|Huv].
    { right. assert (Em : forall p, In p cands -> p = []).
      { intros p Hp. apply A3 in Hp. rewrite <- Huv in Hp. eapply least_self; eauto. }
      destruct cands as [|p0 cands]; [congruence|]. cbn [mfilter]. rewrite (Em p0) by (simpl; auto). eexists _, ValueError. split; [|auto].
      unfold bind, reads. rewrite path_min_nil. reflexivity. }
    left. split; [exact Huv|].
    assert (Ne : forall p, In p cands -> p <> []) by (intros p Hp; apply A3 in Hp as [Hp _]; eapply least_nonempty; eauto).
    rewrite (bind_run _ _ sc sc cands).
    2:{ apply mfilter_all. intros p Hp. destruct (path_min_run sc p (Ne p Hp)) as (b & Rb & (i & Hi & Hb) & _). rewrite bind_reads, Rb. 
        replace (Qleb want b) with true; [reflexivity|]. symmetry. apply Qleb_le. apply A3 in Hp as [Hp _].
        assert (Oi : considered s false want true i = true).
        { assert (All : Forall (fun i => considered s false want true i = true) p) by (clear -Hp; induction Hp; constructor; auto). rewrite Forall_forall in All. auto. }
        apply OK in Oi as (_ & _ & r & Hr & Hle). apply reservable_iff in Hr. apply reservable_iff in Hb. change (reservable_bw sc i) with (reservable_bw s i) in Hb. now rewrite Hb, <- Hr. }
    destruct (choose_run E cands sc A2) as (p & sd & Rc & Sd & Hp & Hmin).
    assert (K : (p0 <- choose_path E cands;; add_lsp_path_data l p0;;; mfor p0 (fun i : nat => add_reserved i want)) sc = 
       match cands with [] => modify (upd_ls l (fun r : lsp => ls_res RUnrouted (ls_path PUnrouted r))) | _ => (p0 <- choose_path E cands;; add_lsp_path_data l p0;;; mfor p0 (fun i : nat => add_reserved i want)) end sc) by (destruct cands; [congruence|reflexivity]).
    rewrite <- K. clear K. rewrite (bind_run _ _ _ _ _ Rc). unfold add_lsp_path_data. 
    destruct (path_min_run sd p (Ne p Hp)) as (b & Rb & Lb). 
    unfold bind at 1. rewrite bind_reads, Rb. unfold modify at 1. 
    assert (I0 : h_if sd = h_if s /\ h_nd sd = h_nd s) by (destruct Sd as [->| ->]; auto). destruct I0 as [If0 Nd0].
    match goal with |- context [mfor p _ ?x] => set (se := x) end.
    assert (Le : least_cost s (lsp_usable s want) u p v) by (apply A3 in Hp; eapply least_iff; [|exact Hp]; intros i; symmetry; apply OK).
    destruct (reserve_run want p se) as (h & Rh & Fh & Off & On). rewrite Rh. eexists. split; [reflexivity|]. left. exists p.
    assert (Lse : h_ls se = fupd (h_ls sc) l (ls_path (PRouted p (route_cost s p) b) (h_ls sc l))).
    { unfold se. simpl. rewrite Zsum_cost. assert (RC : route_cost sd p = route_cost s p) by (clear -If0; induction p as [|j p IH]; simpl; congruence). rewrite RC. destruct Sd as [->| ->]; reflexivity. }
    constructor.
    + apply Frame; try (destruct Sd as [->| ->]; reflexivity).
      * change (h_ls (with_if se h)) with (h_ls se). rewrite Lse. exists (PRouted p (route_cost s p) b), (RNum want). f_equal. rewrite Hl. reflexivity.
      * intros i. simpl. specialize (Fh i). unfold se in Fh. simpl in Fh. rewrite If0 in Fh. exact Fh.
    + split; [exact Le|]. intros q Hq. apply Hmin. apply A3. eapply least_iff; [|exact Hq]. exact OK.
    + exists b. change (h_ls (with_if se h)) with (h_ls se). rewrite Lse, fupd_same. split; [reflexivity|]. destruct Lb as [(i & Hi & Hr) L2]. 
      assert (RR : forall i r, reservable sd i r <-> reservable s i r) by (intros; unfold reservable, reserved; rewrite If0; reflexivity).
      split; [exists i; split; auto; now apply RR|]. intros j r Hj Hr'. apply (L2 j); auto. now apply RR.
    + change (h_ls (with_if se h)) with (h_ls se). rewrite Lse, fupd_same, Hl. split; reflexivity.
    + intros i Hi. simpl. exists (reserved_bw s i). split; [now apply reserved_iff|]. rewrite On; auto.
      * assert (Ise : reserved_bw se i = reserved_bw s i) by (unfold reserved_bw; f_equal; exact (f_equal (fun h => i_res (h i)) If0)). rewrite Ise. reflexivity.
      * eapply least_nodup; eauto.
    + intros i Hi. simpl. rewrite Off by auto. exact (f_equal (fun h => h i) If0).
  - destruct A as [Nuv A]. left. split; [exact Nuv|]. eexists. split; [reflexivity|]. right. constructor.
    + apply Frame; try reflexivity; auto. eexists _, _. simpl. reflexivity.
    + intros p Hp. apply (A p). red in Hp. eapply route_mono; [|exact Hp]. intros i Hi. now apply OK.
    + simpl. now rewrite fupd_same.
    + simpl. rewrite !fupd_same. split; reflexivity.
    + reflexivity.
  - right. eexists _, _. split; [reflexivity|]. auto.
Qed.
End Signal.
