(** InfoProofs.v - simple queries and calls that add or edit objects. *)
From Verif Require Import Base Graph Objects Sim Api Spec SpecCkt SpecInfo MonadProofs ObjProofs Frames ApiProofs AddProofs QueryProofs ValidateProofs RepairProofs.

(** ** Setters and renaming *)
Lemma rename_exact nname old new s s' r : change_interface_name nname old new s = (s', r) ->
  ((forall i, In i (m_ifs s) -> if_key s i <> (old, nname)) -> s' = s /\ exists m, r = Err (ModelException m)) /\
  (keys_unique s -> refs_ok s -> forall i, In i (m_ifs s) -> if_key s i = (old, nname) ->
     r = Ok tt /\ only_ifs s s' /\ (forall x, x <> i -> h_if s' x = h_if s x) /\ but_name (h_if s i) (h_if s' i) /\ i_name (h_if s' i) = new).
Proof.
  intros H. unfold change_interface_name in H. rewrite bind_reads in H. split.
  - intros X. unfold get_interface in H. destruct (existsb _ (m_ifs s)) eqn:B.
    + apply existsb_exists in B as (i & Hi & K). apply key2_eqb_eq in K. destruct (X i Hi K).
    + injection H as <- <-. eauto.
  - intros U R i Hi K. assert (G := get_interface_spec s old nname). destruct (get_interface s old nname) as [j|e].
    + destruct G as [G1 G2]. assert (j = i) by (destruct U as (U & _); apply (NoDup_map_inj _ _ j i U G1 Hi); congruence). subst j.
      injection H as <- <-. split; [reflexivity|]. split; [repeat split|]. split; [intros x Nx; simpl; now rewrite fupd_other by congruence|].
      simpl. rewrite fupd_same. repeat split.
    + exfalso. destruct G as [_ [G|G]]; [apply (G i Hi K)|]. destruct R as (R & _). destruct (R i Hi) as [A _]. apply (G _ A).
      unfold if_key, loc in K. unfold nd_name. congruence.
Qed.
Lemma set_cost_exact i c s s' r : iface_set_cost i c s = (s', r) ->
  ((c < 1)%Z -> s' = s /\ exists m, r = Err (ModelException m)) /\
  ((1 <= c)%Z -> r = Ok tt /\ only_ifs s s' /\ (forall x, x <> i -> h_if s' x = h_if s x) /\ but_cost (h_if s i) (h_if s' i) /\ i_cost (h_if s' i) = c).
Proof.
  intros H. unfold iface_set_cost in H. destruct (Z.ltb_spec c 1) as [L|L]; injection H as <- <-; (split; intros ?; [|]); try lia; eauto.
  split; [reflexivity|]. split; [repeat split|]. split; [intros x Nx; simpl; now rewrite fupd_other by congruence|].
  simpl. rewrite fupd_same. repeat split.
Qed.
Lemma set_cap_exact i c s s' r : iface_set_capacity i c s = (s', r) ->
  ((c <= 0)%Q -> s' = s /\ exists m, r = Err (ModelException m)) /\
  ((0 < c)%Q -> r = Ok tt /\ only_ifs s s' /\ (forall x, x <> i -> h_if s' x = h_if s x) /\ but_cap (h_if s i) (h_if s' i) /\ i_cap (h_if s' i) = c).
Proof.
  intros H. unfold iface_set_capacity in H. assert (B := Qltb_true 0 c). destruct (Qltb 0 c); injection H as <- <-; (split; intros X).
  - exfalso. destruct B as [B _]. specialize (B eq_refl). apply (Qlt_not_le _ _ B X).
  - split; [reflexivity|]. split; [repeat split|]. split; [intros x Nx; simpl; now rewrite fupd_other by congruence|].
    simpl. rewrite fupd_same. repeat split.
  - eauto.
  - exfalso. destruct B as [_ B]. discriminate (B X).
Qed.

(** ** Queries *)
Lemma Zsum_cost s p : Zsum (map (fun i => i_cost (h_if s i)) p) = route_cost s p.
Proof. induction p as [|i p IH]; [reflexivity|]. simpl. unfold Zsum in *. simpl. rewrite <- IH. reflexivity. Qed.
Lemma topology_exact s l :
  match l_path (h_ls s l) with
  | PRouted ifs _ _ => topology_metric s l = Ok (Some (route_cost s ifs))
  | PEmpty => topology_metric s l = Err KeyError
  | _ => topology_metric s l = Ok None
  end.
Proof.
  unfold topology_metric, lsp_interfaces. destruct (l_path (h_ls s l)); simpl; auto. now rewrite Zsum_cost.
Qed.

Lemma filter_names s P : NoDup (map (nd_name s) (m_nds s)) ->
  rmap (fun n => get_node s (n_name (h_nd s n))) (filter P (m_nds s)) = Ok (filter P (m_nds s)).
Proof.
  intros N. rewrite (rmap_total _ (fun n => n)); [now rewrite map_id|]. intros n Hn. apply filter_In in Hn as [Hn _]. now apply get_node_ref.
Qed.
Lemma orphans_exact s n : In n (get_orphans s) <-> In n (m_nds s) /\ forall i, In i (m_ifs s) -> loc s i <> nd_name s n.
Proof.
  unfold get_orphans. rewrite filter_In. unfold node_interfaces, ifaces_of_name. split; intros [A B]; split; auto.
  - intros i Hi L. destruct (filter _ (m_ifs s)) as [|x l] eqn:F; [|discriminate B].
    assert (X : In i (filter (fun i => String.eqb (ilocal s i) (n_name (h_nd s n))) (m_ifs s))) by (apply filter_In; split; auto; now apply String.eqb_eq).
    rewrite F in X. destruct X.
  - destruct (filter _ (m_ifs s)) as [|x l] eqn:F; [reflexivity|]. exfalso.
    assert (X : In x (x :: l)) by (left; auto). rewrite <- F in X. apply filter_In in X as [X1 X2]. apply String.eqb_eq in X2. apply (B x X1 X2).
Qed.
Lemma is_orphan_exact s n : NoDup (map (nd_name s) (m_nds s)) -> In n (m_nds s) ->
  (is_orphan s n = true <-> forall i, In i (m_ifs s) -> loc s i <> nd_name s n).
Proof.
  intros N Hn. unfold is_orphan, mem_nd. rewrite existsb_exists. split.
  - intros (m & Hm & E). apply node_eqb_name in E. apply orphans_exact in Hm as [Hm X]. intros i Hi. rewrite E. auto.
  - intros X. exists n. split; [apply orphans_exact; auto|apply node_eqb_refl].
Qed.
Lemma find_first {A} (f : A -> bool) l : match filter f l with x :: _ => In x l /\ f x = true | [] => forall x, In x l -> f x = false end.
Proof.
  destruct (filter f l) as [|x tl] eqn:F.
  - intros x Hx. destruct (f x) eqn:B; auto. assert (X : In x (filter f l)) by (apply filter_In; auto). rewrite F in X. destruct X.
  - apply filter_In. rewrite F. left; auto.
Qed.
Lemma get_circuit_exact s i : keys_unique s -> refs_ok s -> (forall a b, In (a, b) (m_ckts s) -> In a (m_ifs s) /\ In b (m_ifs s)) -> In i (m_ifs s) ->
  match get_circuit s (i_name (h_if s i)) (loc s i) with
  | Ok c => In c (m_ckts s) /\ end_of c i
  | Err e => e = IndexError /\ forall c, In c (m_ckts s) -> ~ end_of c i
  end.
Proof.
  intros U R C Hi. unfold get_circuit. assert (G := get_interface_spec s (i_name (h_if s i)) (loc s i)).
  destruct (get_interface s (i_name (h_if s i)) (loc s i)) as [j|e].
  - destruct G as [G1 G2]. assert (j = i) by (destruct U as (U & _); apply (NoDup_map_inj _ _ j i U G1 Hi); exact G2). subst j. simpl rbind.
    assert (F := find_first (fun c => iface_eqb s i (fst c) || iface_eqb s i (snd c)) (m_ckts s)).
    assert (Q : forall c, In c (m_ckts s) -> (iface_eqb s i (fst c) || iface_eqb s i (snd c) = true <-> end_of c i)).
    { intros [a b] Hc. destruct (C a b Hc) as [Ca Cb]. destruct U as (U & _). simpl. rewrite orb_true_iff, (iface_eqb_eq s i a U Hi Ca), (iface_eqb_eq s i b U Hi Cb). unfold end_of. simpl. tauto. }
    destruct (filter _ (m_ckts s)) as [|c tl].
    + split; [reflexivity|]. intros c Hc E. apply (Q c Hc) in E. rewrite (F c Hc) in E. discriminate E.
    + destruct F as [F1 F2]. split; auto. now apply Q.
  - exfalso. destruct G as [_ [G|G]]; [apply (G i Hi eq_refl)|]. destruct R as (R & _). destruct (R i Hi) as [A _]. apply (G _ A). reflexivity.
Qed.

(** ** add_node *)
Lemma add_node_exact E k n s s' r : add_node E k n s = (s', r) ->
  ((exists m, In m (m_nds s) /\ nd_name s m = nd_name s n) -> s' = s /\ exists m, r = Err (ModelException m)) /\
  ((forall m, In m (m_nds s) -> nd_name s m <> nd_name s n) ->
     exists s1, only_node_set s s1 /\ m_nds s1 = (m_nds s ++ [n])%list /\ validate_model E k s1 = (s', r)).
Proof.
  intros H. unfold add_node in H. rewrite bind_gets in H. cbv beta in H. split.
  - intros (m & Hm & E1). replace (mem_str (n_name (h_nd s n)) (node_names s)) with true in H.
    + injection H as <- <-. eauto.
    + symmetry. unfold mem_str. apply existsb_exists. exists (nd_name s m). split; [unfold node_names; apply in_map_iff; exists m; auto|]. apply String.eqb_eq. symmetry. exact E1.
  - intros X. replace (mem_str (n_name (h_nd s n)) (node_names s)) with false in H.
    + cbv iota in H. rewrite bind_modify in H. eexists. split; [|split; [|exact H]]; [repeat split|]. simpl. unfold set_add_nd.
      replace (mem_nd s n (m_nds s)) with false; [reflexivity|]. symmetry. destruct (mem_nd s n (m_nds s)) eqn:M; auto. exfalso.
      unfold mem_nd in M. apply existsb_exists in M as (m & Hm & E1). apply node_eqb_name in E1. apply (X m Hm). auto.
    + symmetry. destruct (mem_str _ _) eqn:M; auto. exfalso. unfold mem_str in M. apply existsb_exists in M as (x & Hx & E1). apply String.eqb_eq in E1. subst x.
      unfold node_names in Hx. apply in_map_iff in Hx as (m & E1 & Hm). apply (X m Hm E1).
Qed.

(** ** add_network_interfaces_from_list *)
Definition fresh (nm : string) : node := mkNode nm false 0 0 [] false.
(** only new objects *)
Record grown (s s' : st) : Prop := {
  gr_next : (s_next s <= s_next s')%nat;
  gr_old : forall y, (y < s_next s)%nat -> h_if s' y = h_if s y /\ h_nd s' y = h_nd s y;
  gr_rest : m_ifs s' = m_ifs s /\ m_nds s' = m_nds s /\ m_dms s' = m_dms s /\ m_lsps s' = m_lsps s /\ m_srs s' = m_srs s /\ m_ckts s' = m_ckts s /\
    m_groups s' = m_groups s /\ h_dm s' = h_dm s /\ h_ls s' = h_ls s /\ h_sr s' = h_sr s }.
Lemma grown_refl s : grown s s.
Proof. constructor; auto. repeat split. Qed.
Lemma grown_trans a b c : grown a b -> grown b c -> grown a c.
Proof.
  intros A B. constructor.
  - destruct A, B. lia.
  - intros y Hy. destruct (gr_old _ _ A y Hy) as [A1 A2]. destruct (gr_old _ _ B y) as [B1 B2]; [destruct A; lia|]. split; congruence.
  - destruct A as [_ _ (?&?&?&?&?&?&?&?&?&?)], B as [_ _ (?&?&?&?&?&?&?&?&?&?)]. repeat split; congruence.
Qed.

Lemma node_new_run {B} nm (f : nat -> M B) s : exists t, bind (node_new nm) f s = f (s_next s) t /\ grown s t /\ s_next t = S (s_next s) /\
  h_nd t (s_next s) = fresh nm /\ h_if t = h_if s.
Proof.
  eexists. split; [|split; [|split; [|split]]]; [unfold node_new; unfold bind at 1; rewrite bind_gets, bind_modify; reflexivity| | | |].
  - constructor; [simpl; lia| |repeat split]. intros y Hy. split; [reflexivity|]. simpl. rewrite fupd_other by lia. reflexivity.
  - reflexivity.
  - simpl. now rewrite fupd_same.
  - reflexivity.
Qed.
Definition made (x : if_info) (a b : nat) : iface :=
  mkIface (in_name x) (in_cost x) (in_cap x) a b (in_cid x) (TNum 0) false 0 [] true 100 false.
Lemma iface_new_run {B} x a b (f : nat -> M B) s :
  let m := iface_new (in_name x) (in_cost x) (in_cap x) a b (in_cid x) true 100 in
  ((in_cost x < 1 \/ (in_cap x <= 0)%Q) /\ exists msg, bind m f s = (s, Err (ModelException msg))) \/
  (1 <= in_cost x /\ (0 < in_cap x)%Q /\
   exists t, bind m f s = f (s_next s) t /\ grown s t /\ s_next t = S (s_next s) /\ h_if t (s_next s) = made x a b /\ h_nd t = h_nd s).
Proof.
  intros m. unfold m, iface_new. destruct (Z.ltb_spec (in_cost x) 1) as [L|L]; [left; split; [auto|eexists; reflexivity]|].
  destruct (Qltb 0 (in_cap x)) eqn:Q; [|left; apply Qltb_false in Q; split; [auto|eexists; reflexivity]].
  right. apply Qltb_true in Q. split; [exact L|]. split; [exact Q|]. cbv iota. simpl negb. cbv iota.
  eexists. split; [|split; [|split; [|split]]]; [unfold bind at 1; rewrite bind_gets, bind_modify; reflexivity| | | |].
  - constructor; [simpl; lia| |repeat split]. intros y Hy. split; [|reflexivity]. simpl. rewrite fupd_other by lia. reflexivity.
  - reflexivity.
  - simpl. now rewrite fupd_same.
  - reflexivity.
Qed.

Lemma fresh_eqb s a b x y : h_nd s a = fresh x -> h_nd s b = fresh y -> (node_eqb s a b = true <-> x = y).
Proof.
  intros A B. split.
  - intros H. apply node_eqb_name in H. unfold nd_name in H. rewrite A, B in H. exact H.
  - intros ->. unfold node_eqb. rewrite A, B. cbv zeta. simpl. rewrite String.eqb_refl. apply orb_true_r.
Qed.
Lemma iface_eqb_parts s i j : iface_eqb s i j = true ->
  i_name (h_if s i) = i_name (h_if s j) /\ loc s i = loc s j /\ rem s i = rem s j /\ (i_cap (h_if s i) == i_cap (h_if s j))%Q /\ i_cid (h_if s i) = i_cid (h_if s j).
Proof.
  unfold iface_eqb. rewrite orb_true_iff. intros [H|H].
  - apply Nat.eqb_eq in H. subst. repeat split.
  - cbv zeta in H. rewrite !andb_true_iff in H. destruct H as [[[[H1 H2] H3] H4] H5]. apply node_eqb_name in H1, H2. apply String.eqb_eq in H3. apply Qeq_bool_eq in H4. apply cid_eqb_eq in H5.
    repeat split; auto.
Qed.

Record loop_inv (s0 : st) (done : list if_info) (s : st) (ifs nds : list nat) : Prop := {
  li_grown : grown s0 s;
  li_ifs : forall i, In i ifs -> (s_next s0 <= i < s_next s)%nat /\ exists x a b, In x done /\ h_if s i = made x a b /\
    (s_next s0 <= a < s_next s)%nat /\ (s_next s0 <= b < s_next s)%nat /\ h_nd s a = fresh (in_node x) /\ h_nd s b = fresh (in_remote x) /\ ~ In a nds /\ ~ In b nds;
  li_nodup : NoDup ifs;
  li_all : forall x, In x done -> exists i, In i ifs /\ stands_for s i x;
  li_nds : forall n, In n nds -> (s_next s0 <= n < s_next s)%nat /\ exists nm, h_nd s n = fresh nm;
  li_names : NoDup (map (nd_name s) nds);
  li_which : forall nm, In nm (map (nd_name s) nds) <-> (exists x, In x done /\ (nm = in_node x \/ nm = in_remote x)) /\ ~ In nm (node_names s0) }.

(** the invariant does not mind new objects *)
Lemma made_stable s t i x a b : grown s t -> (i < s_next s)%nat -> (a < s_next s)%nat -> (b < s_next s)%nat -> h_if s i = made x a b ->
  h_if t i = made x a b /\ h_nd t a = h_nd s a /\ h_nd t b = h_nd s b.
Proof. intros G Hi Ha Hb H. destruct (gr_old _ _ G i Hi) as [-> _], (gr_old _ _ G a Ha) as [_ ->], (gr_old _ _ G b Hb) as [_ ->]. auto. Qed.
Lemma names_stable s t nds : grown s t -> (forall n, In n nds -> (n < s_next s)%nat) -> map (nd_name t) nds = map (nd_name s) nds.
Proof. intros G H. apply map_ext_in. intros n Hn. unfold nd_name. destruct (gr_old _ _ G n (H n Hn)) as [_ ->]. reflexivity. Qed.
Lemma loop_inv_grow s0 done s ifs nds t : loop_inv s0 done s ifs nds -> grown s t -> loop_inv s0 done t ifs nds.
Proof.
  intros L G. assert (X := gr_next _ _ G). assert (NM : map (nd_name t) nds = map (nd_name s) nds) by (apply names_stable; auto; intros n Hn; apply (li_nds _ _ _ _ _ L n Hn)).
  constructor.
  - eapply grown_trans; [apply L|exact G].
  - intros i Hi. destruct (li_ifs _ _ _ _ _ L i Hi) as (R & x & a & b & Hx & F & Ra & Rb & Fa & Fb & Na & Nb). split; [lia|].
    destruct (made_stable s t i x a b G) as (F' & A' & B'); try lia; auto. exists x, a, b. rewrite A', B'. repeat (split; [auto; try lia|]); auto.
  - apply L.
  - intros x Hx. destruct (li_all _ _ _ _ _ L x Hx) as (i & Hi & S). exists i. split; auto.
    destruct (li_ifs _ _ _ _ _ L i Hi) as (R & y & a & b & _ & F & Ra & Rb & _).
    destruct (made_stable s t i y a b G) as (F' & A' & B'); try lia; auto. unfold stands_for, loc, rem in *. rewrite F in S. rewrite F'. simpl in *. now rewrite A', B'.
  - intros n Hn. destruct (li_nds _ _ _ _ _ L n Hn) as (R & nm & F). split; [lia|]. exists nm. destruct (gr_old _ _ G n) as [_ ->]; [lia|auto].
  - rewrite NM. apply L.
  - intros nm. rewrite NM. apply L.
Qed.

(** adding a node to network_node_objects if its name is new *)
Lemma set_add_nd_fresh s n nm nds : h_nd s n = fresh nm -> (forall m, In m nds -> exists y, h_nd s m = fresh y) ->
  (In nm (map (nd_name s) nds) /\ set_add_nd s n nds = nds) \/ (~ In nm (map (nd_name s) nds) /\ set_add_nd s n nds = (nds ++ [n])%list).
Proof.
  intros Hn H. unfold set_add_nd. destruct (mem_nd s n nds) eqn:M.
  - left. split; auto. unfold mem_nd in M. apply existsb_exists in M as (m & Hm & E). destruct (H m Hm) as [y Hy]. apply (fresh_eqb s n m nm y Hn Hy) in E. subst y.
    apply in_map_iff. exists m. split; auto. unfold nd_name. now rewrite Hy.
  - right. split; auto. intros I. apply in_map_iff in I as (m & E & Hm). assert (M' : mem_nd s n nds = true); [|congruence].
    unfold mem_nd. apply existsb_exists. exists m. split; auto. destruct (H m Hm) as [y Hy]. unfold nd_name in E. rewrite Hy in E. simpl in E. subst y. apply (fresh_eqb s n m nm nm Hn Hy). reflexivity.
Qed.
Lemma NoDup_snoc {A} (l : list A) x : NoDup l -> ~ In x l -> NoDup (l ++ [x]).
Proof.
  intros N H. rewrite <- (rev_involutive (l ++ [x])). apply NoDup_rev. rewrite rev_app_distr. simpl. constructor; [now rewrite <- in_rev|now apply NoDup_rev].
Qed.

(** the state of network_node_objects half way through an entry: [pend] are the
    names already looked at *)
Record nd_inv (s0 : st) (s : st) (nds : list nat) (seen : string -> Prop) : Prop := {
  ni_nds : forall n, In n nds -> (s_next s0 <= n < s_next s)%nat /\ exists nm, h_nd s n = fresh nm;
  ni_names : NoDup (map (nd_name s) nds);
  ni_which : forall nm, In nm (map (nd_name s) nds) <-> seen nm /\ ~ In nm (node_names s0) }.
Lemma mem_str_In x l : mem_str x l = true <-> In x l.
Proof. unfold mem_str. rewrite existsb_exists. split; [intros (y & Hy & E); apply String.eqb_eq in E; now subst|intros H; exists x; split; auto; apply String.eqb_refl]. Qed.
Lemma nd_step {B} s0 s nds seen nm (f : list nat -> M B) : grown s0 s -> nd_inv s0 s nds seen ->
  exists t nds', bind (if mem_str nm (node_names s0) then ret nds else bind (node_new nm) (fun n => gets (fun s => set_add_nd s n nds))) f s = f nds' t /\
    grown s t /\ nd_inv s0 t nds' (fun x => seen x \/ x = nm) /\ (forall m, In m nds' -> In m nds \/ (s_next s <= m < s_next t)%nat).
Proof.
  intros G N. destruct (mem_str nm (node_names s0)) eqn:M.
  - exists s, nds. split; [reflexivity|]. split; [apply grown_refl|]. split; [|auto]. apply mem_str_In in M. destruct N as [N1 N2 N3]. constructor; auto.
    intros x. rewrite N3. split; [tauto|]. intros [[A| ->] C]; tauto.
  - assert (NM : ~ In nm (node_names s0)) by (rewrite <- mem_str_In; congruence). clear M.
    destruct (node_new_run nm (fun n => gets (fun s => set_add_nd s n nds)) s) as (t & R & Gt & Nx & Fn & _).
    assert (D : map (nd_name t) nds = map (nd_name s) nds) by (apply names_stable; auto; intros n Hn; apply (ni_nds _ _ _ _ N n Hn)).
    assert (K : forall m, In m nds -> (s_next s0 <= m < s_next t)%nat /\ exists y, h_nd t m = fresh y).
    { intros m Hm. destruct (ni_nds _ _ _ _ N m Hm) as (R1 & y & Hy). split; [lia|]. exists y. destruct (gr_old _ _ Gt m) as [_ ->]; [lia|auto]. }
    exists t, (set_add_nd t (s_next s) nds). split; [|split; [exact Gt|]].
    { unfold bind at 1. rewrite R. reflexivity. }
    assert (G0 := gr_next _ _ G). destruct (set_add_nd_fresh t (s_next s) nm nds Fn) as [[I ->]|[I ->]]; [intros m Hm; apply K; auto| |].
    + split; [|auto]. constructor; auto; [rewrite D; apply N|]. intros x. rewrite (D) in *. rewrite (ni_which _ _ _ _ N). apply (ni_which _ _ _ _ N) in I. split; [tauto|]. intros [[A| ->] C]; tauto.
    + split.
      * constructor.
        -- intros m Hm. apply in_app_iff in Hm as [Hm|[<-|[]]]; [auto|]. split; [lia|eauto].
        -- rewrite map_app. simpl. apply NoDup_snoc; [rewrite D; apply N|]. unfold nd_name at 1. rewrite Fn. exact I.
        -- intros x. rewrite map_app, in_app_iff. simpl. unfold nd_name at 2. rewrite Fn. simpl. rewrite D. rewrite (ni_which _ _ _ _ N). split; [intros [[A C]|[->|[]]]; tauto|].
           intros [[A| ->] C]; [left; auto|right; left; auto].
      * intros m Hm. apply in_app_iff in Hm as [Hm|[<-|[]]]; auto. right. lia.
Qed.

Lemma node_names_grown s0 s : grown s0 s -> (forall n, In n (m_nds s0) -> (n < s_next s0)%nat) -> node_names s = node_names s0.
Proof.
  intros G A. unfold node_names. destruct (gr_rest _ _ G) as (_ & -> & _). apply map_ext_in. intros n Hn. destruct (gr_old _ _ G n (A n Hn)) as [_ ->]. reflexivity.
Qed.

Lemma make_loop s0 : (forall n, In n (m_nds s0) -> (n < s_next s0)%nat) -> forall l done s ifs nds s' r, loop_inv s0 done s ifs nds -> make_network_interfaces l ifs nds s = (s', r) ->
  (exists x, In x l /\ (in_cost x < 1 \/ (in_cap x <= 0)%Q)) /\ (exists m, r = Err (ModelException m)) /\ grown s0 s' \/
  (forall x, In x l -> 1 <= in_cost x /\ (0 < in_cap x)%Q) /\ exists ifs' nds', r = Ok (ifs', nds') /\ loop_inv s0 (done ++ l) s' ifs' nds'.
Proof.
  intros AL. induction l as [|x l IH]; intros done s ifs nds s' r L H.
  - injection H as <- <-. right. split; [intros ? []|]. exists ifs, nds. rewrite app_nil_r. auto.
  - simpl in H. set (K := fun ifs' nds2 => make_network_interfaces l ifs' nds2) in *.
    destruct (node_new_run (in_node x) (fun a => bind (node_new (in_remote x)) (fun b => bind (iface_new (in_name x) (in_cost x) (in_cap x) a b (in_cid x) true 100) (fun i =>
      bind (gets (fun s => set_add_if s i ifs)) (fun ifs' => bind (gets node_names) (fun names =>
      bind (if mem_str (in_node x) names then ret nds else bind (node_new (in_node x)) (fun n => gets (fun s => set_add_nd s n nds))) (fun nds1 =>
      bind (if mem_str (in_remote x) names then ret nds1 else bind (node_new (in_remote x)) (fun n => gets (fun s => set_add_nd s n nds1))) (fun nds2 => K ifs' nds2))))))) s) as (t1 & R1 & G1 & N1 & F1 & I1).
    rewrite R1 in H. clear R1.
    match type of H with bind (node_new _) ?f _ = _ => destruct (node_new_run (in_remote x) f t1) as (t2 & R2 & G2 & N2 & F2 & I2) end. rewrite R2 in H. clear R2.
    assert (G02 := grown_trans _ _ _ (grown_trans _ _ _ (li_grown _ _ _ _ _ L) G1) G2).
    match type of H with bind (iface_new _ _ _ ?a ?b _ _ _) ?f _ = _ => destruct (iface_new_run x a b f t2) as [[Bad (msg & R3)]|(C1 & C2 & t3 & R3 & G3 & N3 & F3 & I3)] end.
    + rewrite R3 in H. injection H as <- <-. left. split; [exists x; split; [left; auto|exact Bad]|]. eauto.
    + rewrite R3 in H. clear R3. rewrite !bind_gets in H.
      assert (G03 := grown_trans _ _ _ G02 G3). rewrite (node_names_grown s0 t3 G03 AL) in H.
      assert (L3 := loop_inv_grow _ _ _ _ _ t3 L (grown_trans _ _ _ (grown_trans _ _ _ G1 G2) G3)).
      set (i := s_next t2) in *.
      assert (Bs := gr_next _ _ (li_grown _ _ _ _ _ L)).
      assert (ND3 : nd_inv s0 t3 nds (fun nm => exists y, In y done /\ (nm = in_node y \/ nm = in_remote y))) by (constructor; apply L3).
      match type of H with bind _ ?f _ = _ => destruct (nd_step s0 t3 nds _ (in_node x) f G03 ND3) as (t4 & nds1 & R4 & G4 & ND4 & M4) end. rewrite R4 in H. clear R4.
      assert (G04 := grown_trans _ _ _ G03 G4).
      match type of H with bind _ ?f _ = _ => destruct (nd_step s0 t4 nds1 _ (in_remote x) f G04 ND4) as (t5 & nds2 & R5 & G5 & ND5 & M5) end. rewrite R5 in H. clear R5.
      set (ifs' := set_add_if t3 i ifs) in *. unfold K in H.
      assert (G35 := grown_trans _ _ _ G4 G5). assert (L5 := loop_inv_grow _ _ _ _ _ t5 L3 G35).
      assert (A3 : h_nd t3 (s_next s) = fresh (in_node x)) by (rewrite I3; destruct (gr_old _ _ G2 (s_next s)) as [_ ->]; [lia|exact F1]).
      assert (B3 : h_nd t3 (s_next t1) = fresh (in_remote x)) by (rewrite I3; exact F2).
      assert (FR : forall m, In m nds2 -> In m nds \/ (s_next t3 <= m < s_next t5)%nat).
      { intros m Hm. assert (X4 := gr_next _ _ G4). assert (X5 := gr_next _ _ G5). destruct (M5 m Hm) as [Q|Q]; [|right; lia]. destruct (M4 m Q) as [Q'|Q']; [auto|right; lia]. }
      assert (X35 := gr_next _ _ G35).
      assert (OLD : forall m, In m nds -> (m < s_next s)%nat) by (intros m Hm; apply (li_nds _ _ _ _ _ L m Hm)).
      assert (F5 : h_if t5 i = made x (s_next s) (s_next t1) /\ h_nd t5 (s_next s) = h_nd t3 (s_next s) /\ h_nd t5 (s_next t1) = h_nd t3 (s_next t1)).
      { apply (made_stable t3 t5 i x (s_next s) (s_next t1) G35); try lia; auto. }
      destruct F5 as (F5 & A5 & B5). rewrite A3 in A5. rewrite B3 in B5.
      assert (SF : stands_for t5 i x) by (unfold stands_for, loc, rem; rewrite F5; simpl; rewrite A5, B5; repeat split; reflexivity).
      assert (IC : (ifs' = ifs /\ exists j, In j ifs /\ stands_for t5 j x) \/ ifs' = (ifs ++ [i])%list).
      { unfold ifs', set_add_if. destruct (mem_if t3 i ifs) eqn:M; [left|right; reflexivity]. split; [reflexivity|].
        unfold mem_if in M. apply existsb_exists in M as (j & Hj & E). exists j. split; [auto|]. apply iface_eqb_parts in E.
        destruct (li_ifs _ _ _ _ _ L3 j Hj) as (Rj & y & a & b & Hy & Fj & Ra & Rb & Fa & Fb & _).
        destruct (made_stable t3 t5 j y a b G35) as (F' & A' & B'); try lia; auto.
        unfold stands_for, loc, rem in *. rewrite Fj, F3 in E. rewrite F'. simpl in *. rewrite A', B', Fa, Fb. rewrite Fa, Fb, A3, B3 in E. simpl in *.
        destruct E as (E1 & E2 & E3 & E4 & E5). rewrite <- E1, <- E2, <- E3, <- E5. repeat split; auto. symmetry. exact E4. }
      destruct (IH (done ++ [x]) t5 ifs' nds2 s' r) as [(P1 & P2 & P3)|(P1 & P2)].
      * constructor.
        -- eapply grown_trans; [exact G04|exact G5].
        -- assert (OLDI : forall j, In j ifs -> (s_next s0 <= j < s_next t5)%nat /\ exists y a b, In y (done ++ [x]) /\ h_if t5 j = made y a b /\
             (s_next s0 <= a < s_next t5)%nat /\ (s_next s0 <= b < s_next t5)%nat /\ h_nd t5 a = fresh (in_node y) /\ h_nd t5 b = fresh (in_remote y) /\ ~ In a nds2 /\ ~ In b nds2).
           { intros j Hj. destruct (li_ifs _ _ _ _ _ L j Hj) as (_ & y' & a' & b' & _ & Fj' & Ra' & Rb' & _).
             destruct (li_ifs _ _ _ _ _ L5 j Hj) as (Rj & y & a & b & Hy & Fj & Ra & Rb & Fa & Fb & Na & Nb).
             assert (Lj : (j < s_next s)%nat) by (apply (li_ifs _ _ _ _ _ L j Hj)).
             destruct (gr_old _ _ (grown_trans _ _ _ (grown_trans _ _ _ (grown_trans _ _ _ G1 G2) G3) G35) j Lj) as [Ej _]. rewrite Fj, Fj' in Ej. injection Ej as _ _ _ -> -> _.
             split; [exact Rj|]. exists y, a', b'. split; [apply in_or_app; auto|]. split; [exact Fj|]. split; [exact Ra|]. split; [exact Rb|]. split; [exact Fa|]. split; [exact Fb|].
             split; intros Q; destruct (FR _ Q) as [Q'|Q']; try lia; tauto. }
           intros j Hj. destruct IC as [[-> _]| ->]; [auto|]. apply in_app_iff in Hj as [Hj|[<-|[]]]; [auto|].
           split; [unfold i; lia|]. exists x, (s_next s), (s_next t1). split; [apply in_or_app; right; left; auto|]. split; [exact F5|]. split; [lia|]. split; [lia|]. split; [exact A5|]. split; [exact B5|].
           split; intros Q; destruct (FR _ Q) as [Q'|Q']; try lia; apply OLD in Q'; lia.
        -- destruct IC as [[-> _]| ->]; [apply L|]. apply NoDup_snoc; [apply L|]. intros Q. apply (li_ifs _ _ _ _ _ L) in Q as [Q _]. unfold i in Q. lia.
        -- intros y Hy. apply in_app_iff in Hy as [Hy|[<-|[]]].
           ++ destruct (li_all _ _ _ _ _ L5 y Hy) as (j & Hj & S). exists j. split; [|exact S]. destruct IC as [[-> _]| ->]; auto. apply in_or_app. auto.
           ++ destruct IC as [[-> S]| ->]; [exact S|]. exists i. split; [apply in_or_app; right; left; auto|exact SF].
        -- apply ND5.
        -- apply ND5.
        -- intros nm. rewrite (ni_which _ _ _ _ ND5). split; intros [Q1 Q2]; split; auto.
           ++ destruct Q1 as [[(y & Hy & E)| ->]| ->]; [exists y|exists x|exists x]; (split; [apply in_or_app; simpl; auto|auto]).
           ++ destruct Q1 as (y & Hy & E). apply in_app_iff in Hy as [Hy|[<-|[]]]; [left; left; eauto|]. destruct E as [-> | ->]; auto.
      * exact H.
      * left. destruct P1 as (y & Hy & B). split; [exists y; split; [right; auto|auto]|auto].
      * right. split; [intros y [<-|Hy]; auto|]. rewrite <- app_assoc in P2. exact P2.
Qed.

Lemma fold_nds s l : forall acc, NoDup (map (nd_name s) l) -> (forall n, In n l -> exists nm, h_nd s n = fresh nm) ->
  (forall n m, In n l -> In m acc -> nd_name s n <> nd_name s m) ->
  fold_left (fun acc n => set_add_nd s n acc) l acc = (acc ++ l)%list.
Proof.
  induction l as [|n l IH]; intros acc N F D; simpl; [now rewrite app_nil_r|]. simpl in N. inversion N as [|? ? N1 N2]; subst.
  assert (X : set_add_nd s n acc = (acc ++ [n])%list).
  { unfold set_add_nd. destruct (mem_nd s n acc) eqn:M; auto. exfalso. unfold mem_nd in M. apply existsb_exists in M as (m & Hm & E). apply node_eqb_name in E. apply (D n m); simpl; auto. }
  rewrite X, IH; auto.
  - now rewrite <- app_assoc.
  - intros; apply F; simpl; auto.
  - intros a b Ha Hb. apply in_app_iff in Hb as [Hb|[<-|[]]]; [apply D; simpl; auto|]. intros E. apply N1. rewrite <- E. now apply in_map.
Qed.
Lemma fold_ifs s l : forall acc, NoDup l -> (forall i, In i l -> ~ In i acc) ->
  exists new, fold_left (fun acc i => set_add_if s i acc) l acc = (acc ++ new)%list /\ NoDup new /\ (forall i, In i new -> In i l) /\
    forall i, In i l -> In i new \/ exists j, In j (acc ++ new) /\ iface_eqb s i j = true.
Proof.
  induction l as [|i l IH]; intros acc N D; simpl.
  - exists []. rewrite app_nil_r. split; [reflexivity|]. split; [constructor|]. split; intros ? [].
  - inversion N as [|? ? N1 N2]; subst. unfold set_add_if at 2. destruct (mem_if s i acc) eqn:M.
    + destruct (IH acc N2) as (new & E & ND & I & A); [intros; apply D; simpl; auto|]. exists new. rewrite E. split; auto. split; auto. split; auto.
      intros x [<-|Hx]; [|destruct (A x Hx); auto]. right. unfold mem_if in M. apply existsb_exists in M as (j & Hj & Ej). exists j. split; [apply in_or_app; auto|auto].
    + destruct (IH (acc ++ [i])%list N2) as (new & E & ND & I & A).
      { intros x Hx Q. apply in_app_iff in Q as [Q|[<-|[]]]; [apply (D x); simpl; auto|auto]. }
      exists (i :: new). rewrite E, <- app_assoc. split; [reflexivity|]. split; [constructor; auto|]. split; [intros x [<-|Hx]; auto|].
      intros x [<-|Hx]; [left; left; auto|]. destruct (A x Hx) as [A'|(j & Hj & Ej)]; [left; right; auto|]. right. exists j. rewrite <- app_assoc in Hj. auto.
Qed.

Theorem add_network_exact E k l s s' r : allocated s -> add_network_interfaces E k l s = (s', r) ->
  ((exists x, In x l /\ (in_cost x < 1 \/ (in_cap x <= 0)%Q)) -> (exists m, r = Err (ModelException m)) /\ m_ifs s' = m_ifs s /\ m_nds s' = m_nds s /\
     forall y, (y < s_next s)%nat -> h_if s' y = h_if s y /\ h_nd s' y = h_nd s y) /\
  ((forall x, In x l -> 1 <= in_cost x /\ (0 < in_cap x)%Q) -> exists s1, ifs_added l s s1 /\ validate_model E k s1 = (s', r)).
Proof.
  intros AL H. unfold add_network_interfaces in H.
  assert (ALn : forall n, In n (m_nds s) -> (n < s_next s)%nat) by (intros n Hn; apply AL; rewrite !in_app_iff; auto).
  assert (ALi : forall n, In n (m_ifs s) -> (n < s_next s)%nat) by (intros n Hn; apply AL; rewrite !in_app_iff; auto).
  destruct (make_network_interfaces l [] [] s) as [t m] eqn:X.
  assert (L0 : loop_inv s [] s [] []).
  { constructor; try (intros ? []); try constructor; auto using grown_refl; try (intros (Q & _); destruct Q as (? & [] & _)); try (intros []). repeat split. }
  destruct (make_loop s ALn l [] s [] [] t m L0 X) as [(B & (msg & ->) & G)|(OK & ifs & nds & -> & L)].
  - unfold bind in H. rewrite X in H. injection H as <- <-. split.
    + intros _. split; [eauto|]. destruct (gr_rest _ _ G) as (A1 & A2 & _). split; [auto|split; [auto|apply G]].
    + intros OK. destruct B as (x & Hx & B). destruct (OK x Hx) as [O1 O2]. exfalso. destruct B as [B|B]; [lia|]. apply (Qlt_not_le _ _ O2 B).
  - split.
    + intros (x & Hx & B). destruct (OK x Hx) as [O1 O2]. exfalso. destruct B as [B|B]; [lia|]. apply (Qlt_not_le _ _ O2 B).
    + intros _. rewrite (bind_run _ _ _ _ _ X), !bind_modify in H. simpl fst in H. simpl snd in H.
      assert (G := li_grown _ _ _ _ _ L). destruct (gr_rest _ _ G) as (R1 & R2 & R3 & R4 & R5 & R6 & R7 & R8 & R9 & R10).
      assert (Gx := gr_next _ _ G).
      rewrite (fold_nds t nds (m_nds t)) in H.
      2: apply L.
      2: intros n Hn; apply (li_nds _ _ _ _ _ L n Hn).
      2:{ intros n m' Hn Hm' E'. rewrite R2 in Hm'. assert (I : In (nd_name t n) (map (nd_name t) nds)) by now apply in_map. apply (li_which _ _ _ _ _ L) in I as [_ I]. apply I.
          unfold node_names. apply in_map_iff. exists m'. split; auto. rewrite E'. unfold nd_name. destruct (gr_old _ _ G m' (ALn m' Hm')) as [_ ->]. reflexivity. }
      set (t1 := set_nds (m_nds t ++ nds) t) in *. simpl app in L.
      destruct (fold_ifs t1 ifs (m_ifs t)) as (new & FE & ND & NI & NA).
      { apply L. }
      { intros i Hi Q. rewrite R1 in Q. apply ALi in Q. apply (li_ifs _ _ _ _ _ L) in Hi as [Hi _]. lia. }
      change (m_ifs t1) with (m_ifs t) in H. rewrite FE in H.
      eexists. split; [|exact H].
      assert (SF : forall i x, stands_for (set_ifs (m_ifs t ++ new) t1) i x <-> stands_for t i x) by (intros; reflexivity).
      constructor.
      * intros y Hy. apply (gr_old _ _ G y Hy).
      * repeat split; auto.
      * exists new. simpl. rewrite R1. split; [reflexivity|]. split; [exact ND|]. intros i Hi. assert (Q := NI i Hi).
        destruct (li_ifs _ _ _ _ _ L i Q) as (Rj & y & a & b & Hy & Fj & Ra & Rb & Fa & Fb & Na & Nb).
        split; [intros Z; apply ALi in Z; lia|]. split.
        -- exists y. split; auto. unfold made_from, loc, rem. simpl. rewrite Fj. simpl. rewrite Fa, Fb. repeat split.
        -- rewrite Fj. simpl. rewrite R2. split; intros Z; apply in_app_iff in Z as [Z|Z]; auto; apply ALn in Z; lia.
      * intros x Hx. destruct (li_all _ _ _ _ _ L x Hx) as (i & Hi & S). simpl m_ifs. destruct (NA i Hi) as [A|(j & Hj & Ej)].
        -- exists i. split; [apply in_or_app; auto|exact S].
        -- exists j. split; [exact Hj|]. apply SF. apply iface_eqb_parts in Ej. destruct Ej as (E1 & E2 & E3 & E4 & E5), S as (S1 & S2 & S3 & S4 & S5).
           change (loc t1) with (loc t) in *. change (rem t1) with (rem t) in *. change (h_if t1) with (h_if t) in *.
           repeat split; try congruence. rewrite <- E4. exact S4.
      * exists nds. simpl. rewrite R2. split; [reflexivity|]. split; [apply L|]. split.
        -- intros n Hn. destruct (li_nds _ _ _ _ _ L n Hn) as (Rn & nm & Fn). split; [intros Z; apply ALn in Z; lia|]. rewrite Fn. repeat split.
        -- intros nm. change (nd_name (set_ifs (m_ifs t ++ new) t1)) with (nd_name t). rewrite (li_which _ _ _ _ _ L). unfold node_names. rewrite in_map_iff.
           split; intros [Q1 Q2]; (split; [exact Q1|]); intros (n & Z1 & Z2); apply Q2; exists n; auto.
Qed.

(** ** More queries *)
Lemma get_circuit_none s iname nname : (forall i, In i (m_ifs s) -> if_key s i <> (iname, nname)) -> exists m, get_circuit s iname nname = Err (ModelException m).
Proof.
  intros X. unfold get_circuit, get_interface. destruct (existsb _ (m_ifs s)) eqn:B; [|simpl; eauto].
  apply existsb_exists in B as (i & Hi & K). apply key2_eqb_eq in K. destruct (X i Hi K).
Qed.
Lemma adjacent_nodup s n : NoDup (adjacent_nodes s n).
Proof.
  unfold adjacent_nodes.
  assert (G : forall l acc, NoDup acc -> NoDup (fold_left (fun acc i => set_add_nd s (i_rem (h_if s i)) acc) l acc)); [|apply G; constructor].
  induction l as [|i l IH]; intros acc N; simpl; auto. apply IH. unfold set_add_nd. destruct (mem_nd s _ acc) eqn:M; auto.
  apply NoDup_snoc; auto. intros X. assert (Y : mem_nd s (i_rem (h_if s i)) acc = true); [|congruence].
  unfold mem_nd. apply existsb_exists. eexists. split; [exact X|apply node_eqb_refl].
Qed.
Lemma adjacent_exact s n : keys_unique s -> refs_ok s -> forall m,
  In m (adjacent_nodes s n) <-> exists i, In i (m_ifs s) /\ loc s i = nd_name s n /\ i_rem (h_if s i) = m.
Proof.
  intros (_ & U & _) (R & _) m. unfold adjacent_nodes.
  assert (G : forall l acc, (forall i, In i l -> In (i_rem (h_if s i)) (m_nds s)) -> (forall x, In x acc -> In x (m_nds s)) ->
    (In m (fold_left (fun acc i => set_add_nd s (i_rem (h_if s i)) acc) l acc) <-> In m acc \/ exists i, In i l /\ i_rem (h_if s i) = m)).
  { induction l as [|i l IH]; intros acc Hl Ha; simpl; [split; [auto|intros [?|(? & [] & _)]; auto]|].
    assert (Y : In (i_rem (h_if s i)) (m_nds s)) by (apply Hl; simpl; auto).
    assert (X : forall x, In x (set_add_nd s (i_rem (h_if s i)) acc) <-> In x acc \/ x = i_rem (h_if s i)).
    { intros x. unfold set_add_nd. destruct (mem_nd s _ acc) eqn:M.
      - split; [auto|]. intros [?| ->]; auto. unfold mem_nd in M. apply existsb_exists in M as (y & Hy & E). apply node_eqb_name in E.
        rewrite (NoDup_map_inj _ _ _ y U Y (Ha y Hy) E). exact Hy.
      - rewrite in_app_iff. simpl. intuition. }
    rewrite IH; [|intros; apply Hl; simpl; auto|intros x Hx; apply X in Hx as [?| ->]; auto].
    rewrite X. split.
    - intros [[?| ->]|(j & Hj & E)]; [auto|right; exists i; auto|right; exists j; auto].
    - intros [?|(j & [<-|Hj] & E)]; [auto|left; right; auto|right; eauto]. }
  rewrite G.
  - simpl. unfold node_interfaces, ifaces_of_name. split.
    + intros [[]|(i & Hi & E)]. apply filter_In in Hi as [Hi L]. apply String.eqb_eq in L. exists i. auto.
    + intros (i & Hi & L & E). right. exists i. split; auto. apply filter_In. split; auto. now apply String.eqb_eq.
  - intros i Hi. apply filter_In in Hi as [Hi _]. apply (R i Hi).
  - intros x [].
Qed.

(** ** The circuit of an interface in a validated model *)
Lemma validate_input E k : pres input_frame (validate_model E k).
Proof.
  apply pres_validate_model; try apply input_frame_preorder;
    first [intros _ i f s Hf; apply input_frame_if; intros r; ex_tac Hf r
          |intros i f s Hf; apply input_frame_if; intros r; ex_tac Hf r
          |intros g s; repeat split; auto].
Qed.
Lemma input_keys s s' : same_input s s' -> keys_unique s -> refs_ok s -> keys_unique s' /\ refs_ok s' /\ (forall i, loc s' i = loc s i /\ rem s' i = rem s i).
Proof.
  intros ((M1 & M2 & M3 & M4 & M5) & N & G & I & D & L) (U1 & U2 & U3 & U4 & U5) (R1 & R2 & R3).
  assert (LR : forall i, loc s' i = loc s i /\ rem s' i = rem s i).
  { intros i. destruct (I i) as (_&_&_&A&B&_). unfold loc, rem. rewrite A, B, !N. auto. }
  split; [|split; [|exact LR]].
  - unfold keys_unique. rewrite M1, M2, M3, M4, M5.
    rewrite (map_ext (if_key s') (if_key s)) by (intros i; unfold if_key; destruct (LR i) as [-> _]; destruct (I i) as (->&_); reflexivity).
    rewrite (map_ext (nd_name s') (nd_name s)) by (intros n; unfold nd_name; now rewrite N).
    rewrite (map_ext (srlg_name s') (srlg_name s)) by (intros n; unfold srlg_name; now rewrite G).
    rewrite (map_ext (dmd_key s') (dmd_key s)) by (intros d; unfold dmd_key, dmd_from, dmd_to; destruct (D d) as (->&->&_&->); now rewrite !N).
    rewrite (map_ext (lsp_key s') (lsp_key s)) by (intros d; unfold lsp_key, lsp_from, lsp_to; destruct (L d) as (->&->&->&_); now rewrite !N).
    auto.
  - unfold refs_ok. rewrite M1, M2, M3, M4. split; [|split]; intros x Hx.
    + destruct (I x) as (_&_&_&->&->&_). auto.
    + destruct (D x) as (->&->&_). auto.
    + destruct (L x) as (->&->&_). auto.
Qed.
Lemma validated_circuit E s s' i : env_ok E -> keys_unique s -> refs_ok s -> cids_set Flex s -> validate_model E Flex s = (s', Ok tt) ->
  In i (m_ifs s') -> available s i ->
  exists a b, get_circuit s' (i_name (h_if s' i)) (loc s' i) = Ok (a, b) /\ In (a, b) (m_ckts s') /\ end_of (a, b) i /\
    is_reverse Flex s' a b /\ (circuit_failed s' (a, b) = true <-> i_failed (h_if s' i) = true).
Proof.
  intros HE U R C V Hi Av. assert (ND : NoDup (m_ifs s)) by (destruct U as (U & _); eapply NoDup_map_inv; eauto).
  destruct (circuits_flex E s s' HE ND C V) as (_ & C2 & _ & C4 & _).
  assert (IF := validate_input E Flex s). rewrite V in IF. simpl in IF. destruct IF as [IF _]. destruct (input_keys s s' IF U R) as (U' & R' & _).
  assert (AG := validate_circuits_agree E Flex s s' HE ND V).
  assert (G := get_circuit_exact s' i U' R' (fun a b H => conj (proj1 (C2 a b H)) (proj1 (proj2 (C2 a b H)))) Hi).
  destruct (get_circuit s' (i_name (h_if s' i)) (loc s' i)) as [[a b]|e].
  - destruct G as [G1 G2]. exists a, b. split; [reflexivity|]. split; [exact G1|]. split; [exact G2|]. destruct (C2 a b G1) as (_ & _ & A & B & D).
    split; [split; [exact A|split; [exact B|right; exact D]]|]. unfold circuit_failed. simpl. rewrite orb_true_iff. assert (X := AG a b G1).
    destruct G2 as [-> | ->]; simpl; rewrite X; tauto.
  - exfalso. destruct G as [_ G]. destruct (proj2 (C4 i Hi) (or_introl Av)) as (c & Hc & Ec). apply (G c Hc Ec).
Qed.
