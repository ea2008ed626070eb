(** MapSelect.v - lemmas about selections and highlighted edges of the weather map. *)
From Coq Require Import DecimalString Sorting.Sorted Lqa.
From Verif Require Import Base Graph Objects Sim Api Spec SpecCkt SpecSim MapTypes Map SpecMap
  MonadProofs GraphProofs GroupProofs ObjProofs ApiProofs QueryProofs MapProofs MapLists.

Lemma rmap_all {A B} (f : A -> res B) l (P : A -> B -> Prop) : (forall x, In x l -> exists y, f x = Ok y /\ P x y) ->
  exists ys, rmap f l = Ok ys /\ Forall2 P l ys.
Proof.
  induction l as [|x l IH]; intros H; [exists []; split; [reflexivity|constructor]|].
  destruct (H x (or_introl eq_refl)) as (y & Ey & Py). destruct IH as (ys & Eys & Pys); [intros z Hz; apply H; simpl; auto|].
  exists (y :: ys). cbn [rmap]. rewrite Ey. cbn [rbind]. rewrite Eys. split; [reflexivity|constructor; auto].
Qed.
Lemma concat_in {A B} (P : A -> list B -> Prop) l parts : Forall2 P l parts -> forall y, In y (List.concat parts) -> exists x ys, In x l /\ P x ys /\ In y ys.
Proof.
  induction 1 as [|x ys l parts H F IH]; intros y Hy; [destruct Hy|]. cbn [List.concat] in Hy. apply in_app_iff in Hy as [Hy|Hy].
  - exists x, ys. simpl. auto.
  - destruct (IH y Hy) as (x' & ys' & A1 & A2 & A3). exists x', ys'. simpl. auto.
Qed.
Lemma in_concat2 {A B} (P : A -> list B -> Prop) l parts x : Forall2 P l parts -> In x l -> exists ys, P x ys /\ forall y, In y ys -> In y (List.concat parts).
Proof.
  induction 1 as [|x' ys l parts H F IH]; intros Hx; [destruct Hx|]. destruct Hx as [-> |Hx].
  - exists ys. split; auto. intros y Hy. cbn [List.concat]. apply in_app_iff. auto.
  - destruct (IH Hx) as (ys' & A1 & A2). exists ys'. split; auto. intros y Hy. cbn [List.concat]. apply in_app_iff. auto.
Qed.

Section Select.
Variable s : st.

(** ** The interfaces and LSPs of demands *)
Lemma hops_of_item x : match x with
    | IIf i => In i (m_ifs s)
    | ILsp l => exists ifs c b, l_path (h_ls s l) = PRouted ifs c b /\ forall i, In i ifs -> In i (m_ifs s)
    end -> exists ifs, item_hops s x = Ok (map HIf ifs) /\ (forall i, In i ifs -> In i (m_ifs s)) /\
      (forall i, In i ifs <-> path_over s [x] i).
Proof.
  unfold path_over. destruct x as [i|l]; cbn [item_hops].
  - intros H. exists [i]. split; [reflexivity|]. split; [intros j [<-|[]]; auto|]. intros j. simpl. split.
    + intros [<-|[]]. auto.
    + intros [[Q|[]]|(l & ifs & c & b & [Q|[]] & _)]; [injection Q; auto|discriminate].
  - intros (ifs & c & b & P & H). exists ifs. unfold lsp_interfaces. rewrite P. split; [reflexivity|]. split; [exact H|]. intros j. simpl. split.
    + intros Hj. right. exists l, ifs, c, b. auto.
    + intros [[Q|[]]|(l' & ifs' & c' & b' & [Q|[]] & P' & Hj)]; [discriminate|]. injection Q as <-. congruence.
Qed.
Lemma path_over_one p i : path_over s p i <-> exists x, In x p /\ path_over s [x] i.
Proof.
  unfold path_over. split.
  - intros [H|(l & ifs & c & b & H & P & Hi)].
    + exists (IIf i). simpl. auto.
    + exists (ILsp l). split; auto. right. exists l, ifs, c, b. simpl. auto.
  - intros (x & Hx & [H|(l & ifs & c & b & H & P & Hi)]).
    + destruct H as [H|[]]; subst x. auto.
    + destruct H as [H|[]]; subst x. right. exists l, ifs, c, b. auto.
Qed.
Lemma hops_of_demand d : sound_paths s d -> exists ifs, demand_hops s d = Ok (map HIf ifs) /\ (forall i, In i ifs -> In i (m_ifs s)) /\
  forall i, In i ifs <-> demand_over s d i.
Proof.
  intros (ps & P & H). unfold demand_hops, demand_over. rewrite P.
  destruct (rmap_all (item_hops s) (List.concat ps) (fun x hs => exists ifs, hs = map HIf ifs /\ (forall i, In i ifs -> In i (m_ifs s)) /\ forall i, In i ifs <-> path_over s [x] i)) as (hss & R & F).
  { intros x Hx. apply in_concat in Hx as (p & Hp & Hx). destruct (hops_of_item x (H p x Hp Hx)) as (ifs & E1 & E2 & E3). eexists. split; [exact E1|]. exists ifs. auto. }
  rewrite R. cbn [rbind].
  assert (X : exists ifs, List.concat hss = map HIf ifs).
  { clear R. induction F as [|x hs l hss (ifs & -> & _) F IH]; [exists []; reflexivity|]. destruct IH as (ifs' & IH). exists (ifs ++ ifs'). cbn [List.concat]. rewrite IH, map_app. reflexivity. }
  destruct X as (ifs & X). exists ifs. rewrite X. split; [reflexivity|].
  assert (Y : forall i, In i ifs <-> exists x, In x (List.concat ps) /\ path_over s [x] i).
  { intros i. assert (Z : In i ifs <-> In (HIf i) (List.concat hss)). { rewrite X, in_map_iff. split; [eauto|]. intros (j & Q & Hj). injection Q as ->. auto. }
    rewrite Z. split.
    - intros Hi. destruct (concat_in _ _ _ F _ Hi) as (x & hs & Hx & (js & -> & _ & Q) & Hj). exists x. split; auto. apply Q. apply in_map_iff in Hj as (j & Ej & Hj). injection Ej as ->. auto.
    - intros (x & Hx & Q). destruct (in_concat2 _ _ _ x F Hx) as (hs & (js & -> & _ & Q2) & Q3). apply Q3. apply in_map. now apply Q2. }
  split.
  - intros i Hi. apply Y in Hi as (x & Hx & Q). apply in_concat in Hx as (p & Hp & Hx). destruct (hops_of_item x (H p x Hp Hx)) as (js & _ & Q1 & Q2). apply Q1. now apply Q2.
  - intros i. rewrite Y. split.
    + intros (x & Hx & Q). apply in_concat in Hx as (p & Hp & Hx). exists ps, p. split; auto. split; auto. apply path_over_one. eauto.
    + intros (ps' & p & P' & Hp & Q). assert (ps' = ps) by congruence. subst ps'. apply path_over_one in Q as (x & Hx & Q). exists x. split; auto. apply in_concat. eauto.
Qed.
Lemma lsps_of_demand d l : In l (demand_lsps s d) <-> demand_rides s d l.
Proof.
  unfold demand_lsps, demand_rides. destruct (d_path (h_dm s d)) as [|ps].
  - split; [intros []|]. intros (ps & p & Q & _). discriminate.
  - rewrite in_flat_map. split.
    + intros (x & Hx & Hl). apply in_concat in Hx as (p & Hp & Hx). destruct x as [i|l']; [destruct Hl|]. destruct Hl as [<-|[]]. exists ps, p. auto.
    + intros (ps' & p & Q & Hp & Hl). injection Q as <-. exists (ILsp l). split; [apply in_concat; eauto|simpl; auto].
Qed.

Lemma dedup_hops ifs : NoDup (map (if_key s) (m_ifs s)) -> (forall i, In i ifs -> In i (m_ifs s)) ->
  exists js, dedup_by (hop_eqb s) (map HIf ifs) = map HIf js /\ NoDup js /\ forall i, In i js <-> In i ifs.
Proof.
  intros K. induction ifs as [|i ifs IH]; intros H; [exists []; split; [reflexivity|]; split; [constructor|tauto]|].
  destruct IH as (js & E1 & E2 & E3); [intros; apply H; simpl; auto|]. cbn [map dedup_by]. rewrite E1.
  assert (X : forall l, (forall j, In j l -> In j (m_ifs s)) -> filter (fun y => negb (hop_eqb s (HIf i) y)) (map HIf l) = map HIf (filter (fun j => negb (Nat.eqb i j)) l)).
  { induction l as [|j l IHl]; intros Hl; [reflexivity|]. cbn [map filter]. rewrite IHl by (intros; apply Hl; simpl; auto).
    cbn [hop_eqb]. destruct (iface_eqb s i j) eqn:Q, (Nat.eqb_spec i j) as [->|N]; cbn [negb]; auto.
    - exfalso. apply N. apply (iface_eqb_eq s i j K); auto; [apply H; simpl; auto|apply Hl; simpl; auto].
    - rewrite iface_eqb_refl in Q. discriminate. }
  exists (i :: filter (fun j => negb (Nat.eqb i j)) js). rewrite X. 2:{ intros j Hj. apply H. simpl. right. now apply E3. }
  split; [reflexivity|]. split.
  - constructor; [|now apply NoDup_filter]. intros C. apply filter_In in C as [_ C]. rewrite Nat.eqb_refl in C. discriminate.
  - intros j. cbn [In]. rewrite filter_In, E3. destruct (Nat.eqb_spec i j) as [->|N]; cbn [negb]; intuition congruence.
Qed.
Lemma find_exact ds : NoDup (map (if_key s) (m_ifs s)) -> (forall d, In d ds -> sound_paths s d) ->
  exists ifs ls, find_demand_interfaces_and_lsps s ds = Ok (map HIf ifs, ls) /\ NoDup ifs /\ NoDup ls /\
    (forall i, In i ifs <-> exists d, In d ds /\ demand_over s d i) /\ (forall l, In l ls <-> exists d, In d ds /\ demand_rides s d l).
Proof.
  intros K H. unfold find_demand_interfaces_and_lsps.
  destruct (rmap_all (demand_hops s) ds (fun d hs => exists ifs, hs = map HIf ifs /\ (forall i, In i ifs -> In i (m_ifs s)) /\ forall i, In i ifs <-> demand_over s d i)) as (hss & R & F).
  { intros d Hd. destruct (hops_of_demand d (H d Hd)) as (ifs & E1 & E2 & E3). eexists. split; [exact E1|]. eauto. }
  rewrite R. cbn [rbind].
  assert (X : exists ifs, List.concat hss = map HIf ifs).
  { clear R. induction F as [|x hs l hss (ifs & -> & _) F IH]; [exists []; reflexivity|]. destruct IH as (ifs' & IH); [intros; apply H; simpl; auto|].
    exists (ifs ++ ifs'). cbn [List.concat]. rewrite IH, map_app. reflexivity. }
  destruct X as (ifs & X).
  assert (Y : forall i, In i ifs <-> exists d, In d ds /\ demand_over s d i).
  { intros i. assert (Z : In i ifs <-> In (HIf i) (List.concat hss)). { rewrite X, in_map_iff. split; [eauto|]. intros (j & Q & Hj). injection Q as ->. auto. }
    rewrite Z. split.
    - intros Hi. destruct (concat_in _ _ _ F _ Hi) as (x & hs & Hx & (js & -> & _ & Q) & Hj). exists x. split; auto. apply Q. apply in_map_iff in Hj as (j & Ej & Hj). injection Ej as ->. auto.
    - intros (x & Hx & Q). destruct (in_concat2 _ _ _ x F Hx) as (hs & (js & -> & _ & Q2) & Q3). apply Q3. apply in_map. now apply Q2. }
  destruct (dedup_hops ifs K) as (js & E1 & E2 & E3).
  { intros i Hi. apply Y in Hi as (d & Hd & Q). destruct (hops_of_demand d (H d Hd)) as (js & _ & Q1 & Q2). apply Q1. now apply Q2. }
  rewrite X, E1. exists js. eexists. split; [reflexivity|]. split; [exact E2|]. split; [apply NoDup_dedup_by; apply Nat.eqb_eq|].
  split; [intros i; rewrite E3; apply Y|]. intros l. rewrite in_dedup_by by apply Nat.eqb_eq. rewrite in_flat_map.
  split; intros (d & Hd & Q); exists d; split; auto; now apply lsps_of_demand.
Qed.
Lemma rmap_hop ifs : rmap hop_interface (map HIf ifs) = Ok ifs.
Proof. induction ifs as [|i ifs IH]; [reflexivity|]. cbn [map rmap hop_interface rbind]. now rewrite IH. Qed.

(** ** Lookups *)
Section Keys.
Hypothesis KU : keys_unique s.
Hypothesis RO : refs_ok s.
Lemma find_dmd d : In d (m_dms s) -> get_demand s (fst (fst (dmd_key s d))) (snd (fst (dmd_key s d))) (snd (dmd_key s d)) = Ok d.
Proof.
  intros Hd. destruct (lookups_exact s KU RO) as (_ & _ & L & _). specialize (L (fst (fst (dmd_key s d))) (snd (fst (dmd_key s d))) (snd (dmd_key s d))).
  rewrite <- !surjective_pairing in L. destruct (get_demand _ _ _ _) as [x|e]; [|exfalso; now apply (proj2 L d Hd)]. f_equal. symmetry. apply L. auto.
Qed.
Lemma find_lsp l : In l (m_lsps s) -> get_lsp s (fst (fst (lsp_key s l))) (snd (fst (lsp_key s l))) (snd (lsp_key s l)) = Ok l.
Proof.
  intros Hd. destruct (lookups_exact s KU RO) as (_ & _ & _ & L & _). specialize (L (fst (fst (lsp_key s l))) (snd (fst (lsp_key s l))) (snd (lsp_key s l))).
  rewrite <- !surjective_pairing in L. destruct (get_lsp _ _ _ _) as [x|e]; [|exfalso; now apply (proj2 L l Hd)]. f_equal. symmetry. apply L. auto.
Qed.
Lemma find_iface i : In i (m_ifs s) -> get_interface s (i_name (h_if s i)) (loc s i) = Ok i.
Proof.
  intros Hd. destruct (lookups_exact s KU RO) as (_ & L & _). specialize (L (i_name (h_if s i)) (loc s i)).
  destruct (get_interface _ _ _) as [x|e]; [|exfalso; now apply (proj2 L i Hd)]. f_equal. symmetry. apply L. auto.
Qed.
Lemma find_node n : In n (m_nds s) -> get_node s (nd_name s n) = Ok n.
Proof.
  intros Hd. destruct (lookups_exact s KU RO) as (L & _). specialize (L (nd_name s n)).
  destruct (get_node _ _) as [x|e]; [|exfalso; now apply (proj2 L n Hd)]. f_equal. symmetry. apply L. auto.
Qed.

Lemma select_demand_spec d : In d (m_dms s) -> exists b, select_demand s (dmd_key s d) = Ok (mkSel (dmd_key s d) b) /\ (b = true <-> exists ps, d_path (h_dm s d) = DPaths ps).
Proof.
  intros Hd. unfold select_demand. rewrite find_dmd by auto. cbn [rbind]. eexists. split; [reflexivity|]. destruct (d_path (h_dm s d)) as [|ps].
  - split; [discriminate|]. intros (ps & Q). discriminate.
  - split; eauto.
Qed.
Lemma select_lsp_spec l : In l (m_lsps s) -> exists b, select_lsp s (lsp_key s l) = Ok (mkSel (lsp_key s l) b) /\ (b = true <-> l_path (h_ls s l) <> PUnrouted).
Proof.
  intros Hd. unfold select_lsp. rewrite find_lsp by auto. cbn [rbind]. eexists. split; [reflexivity|]. destruct (l_path (h_ls s l)); split; congruence.
Qed.
Lemma select_interface_spec i : In i (m_ifs s) -> exists v, select_interface s (format_interface s i) = Ok v /\
  si_source v = loc s i /\ si_name v = i_name (h_if s i) /\ si_dest v = rem s i /\ si_cid v = i_cid (h_if s i) /\ shown_util s i (si_util v) /\ si_cost v = i_cost (h_if s i).
Proof.
  intros Hi. unfold select_interface, format_interface. cbn [ji_name ji_source]. change (ilocal s i) with (loc s i). rewrite find_iface by auto. cbn [rbind].
  eexists. split; [reflexivity|]. cbn. repeat split. apply util_shown.
Qed.
Lemma node_options n : In n (m_nds s) -> interfaces_on_node s (nd_name s n) =
  Ok (match filter (fun i => String.eqb (loc s i) (nd_name s n)) (m_ifs s) with [] => [] | l => Clear :: map (fun i => Obj (format_interface s i)) l end).
Proof.
  intros Hn. unfold interfaces_on_node. rewrite find_node by auto. cbn [rbind]. unfold node_interfaces, ifaces_of_name.
  change (n_name (h_nd s n)) with (nd_name s n). change (ilocal s) with (loc s). destruct (filter _ _); reflexivity.
Qed.

Lemma on_interface_lsps v i : In i (m_ifs s) -> (si_name v, si_source v) = if_key s i ->
  (forall l ifs c b, In l (m_lsps s) -> l_path (h_ls s l) = PRouted ifs c b -> forall j, In j ifs -> In j (m_ifs s)) ->
  (forall l, In l (m_lsps s) -> l_path (h_ls s l) <> PEmpty) -> NoDup (m_lsps s) ->
  exists os ls, on_interface s TLsp v = Ok os /\ said "no lsps on interface" os (map (lsp_key s) ls) /\ NoDup ls /\
    forall l, In l ls <-> In l (m_lsps s) /\ exists ifs c b, l_path (h_ls s l) = PRouted ifs c b /\ In i ifs.
Proof.
  intros Hi Kv H1 H2 N. destruct (iface_lsps_exact s i (proj1 KU) Hi H1 H2) as (ls & R & ND & I). unfold on_interface.
  injection Kv as -> ->. rewrite find_iface by auto. cbn [rbind]. rewrite R. cbn [rbind].
  exists (match ls with [] => [Text "no lsps on interface"] | _ => Clear :: map (fun x => Obj (lsp_key s x)) ls end), ls. split; [destruct ls; reflexivity|]. split; [|auto].
  unfold said. destruct ls as [|l ls]; [reflexivity|]. cbn [map]. rewrite map_map. reflexivity.
Qed.
Lemma on_interface_demands v i : In i (m_ifs s) -> (si_name v, si_source v) = if_key s i ->
  (forall d, In d (m_dms s) -> d_path (h_dm s d) = DUnrouted \/ sound_paths s d) -> NoDup (m_dms s) ->
  exists os ds, on_interface s TDemand v = Ok os /\ said "no demands on interface" os (map (dmd_key s) ds) /\ NoDup ds /\
    forall d, In d ds <-> In d (m_dms s) /\ demand_over s d i.
Proof.
  intros Hi Kv H N. destruct (iface_demands_exact s i (proj1 KU) Hi) as (ds & R & ND & I).
  { intros d ps p Hd P Hp. destruct (H d Hd) as [Q|(ps' & P' & Q)]; [congruence|]. assert (ps' = ps) by congruence. subst ps'.
    split; [intros j Hj; exact (Q p _ Hp Hj)|]. intros l Hl. exact (Q p _ Hp Hl). }
  unfold on_interface. injection Kv as -> ->. rewrite find_iface by auto. cbn [rbind]. rewrite R. cbn [rbind].
  exists (match ds with [] => [Text "no demands on interface"] | _ => Clear :: map (fun x => Obj (dmd_key s x)) ds end), ds. split; [destruct ds; reflexivity|].
  split; [|split; [auto|]].
  - unfold said. destruct ds as [|d ds]; [reflexivity|]. cbn [map]. rewrite map_map. reflexivity.
  - intros d. rewrite I. unfold demand_over, path_over. split.
    + intros (Hd & ps & p & A1 & A2 & A3). split; auto. exists ps, p. auto.
    + intros (Hd & ps & p & A1 & A2 & A3). split; auto. exists ps, p. auto.
Qed.
Lemma on_lsp_demands l : In l (m_lsps s) -> NoDup (m_dms s) ->
  exists os ds, on_lsp s (lsp_key s l) = Ok os /\ said "no demands on lsp" os (map (dmd_key s) ds) /\ NoDup ds /\
    forall d, In d ds <-> In d (m_dms s) /\ demand_rides s d l.
Proof.
  intros Hl N. unfold on_lsp. rewrite find_lsp by auto. cbn [rbind].
  exists (match demands_on_lsp s l with [] => [Text "no demands on lsp"] | _ => Clear :: map (fun x => Obj (dmd_key s x)) (demands_on_lsp s l) end), (demands_on_lsp s l). split; [destruct (demands_on_lsp s l); reflexivity|].
  split; [|split].
  - unfold said. destruct (demands_on_lsp s l) as [|d ds]; [reflexivity|]. cbn [map]. rewrite map_map. reflexivity.
  - unfold demands_on_lsp. now apply NoDup_filter.
  - intros d. apply demands_on_lsp_exact.
Qed.
Lemma demand_options d : In d (m_dms s) -> sound_paths s d ->
  exists ios los ifs ls, demand_interfaces s (dmd_key s d) = Ok (ios, los) /\
    (ios = match ifs with [] => [] | _ => Clear :: map (fun i => Obj (format_interface s i)) ifs end) /\ NoDup ifs /\ (forall i, In i ifs <-> demand_over s d i) /\
    said "Demand does not take LSPs" los (map (lsp_key s) ls) /\ NoDup ls /\ (forall l, In l ls <-> demand_rides s d l).
Proof.
  intros Hd SP. destruct (find_exact [d] (proj1 KU)) as (ifs & ls & R & N1 & N2 & I1 & I2); [intros d' [<-|[]]; auto|].
  unfold demand_interfaces. rewrite find_dmd by auto. cbn [rbind]. rewrite R. cbn [rbind fst snd]. rewrite rmap_hop. cbn [rbind].
  eexists _, _, ifs, ls. split; [reflexivity|]. split; [reflexivity|]. split; [auto|]. split.
  { intros i. rewrite I1. split; [intros (d' & [<-|[]] & Q); auto|]. intros Q. exists d. simpl. auto. }
  split; [|split; [auto|]].
  - unfold said. destruct ls as [|l ls]; [reflexivity|]. cbn [map]. rewrite map_map. reflexivity.
  - intros l. rewrite I2. split; [intros (d' & [<-|[]] & Q); auto|]. intros Q. exists d. simpl. auto.
Qed.
Lemma lsp_options l ifs c b : In l (m_lsps s) -> l_path (h_ls s l) = PRouted ifs c b ->
  lsp_interface_options s (lsp_key s l) = Ok (match ifs with [] => [] | _ => Clear :: map (fun i => Obj (format_interface s i)) ifs end).
Proof.
  intros Hl P. unfold lsp_interface_options. rewrite find_lsp by auto. cbn [rbind]. unfold lsp_interfaces. rewrite P. reflexivity.
Qed.

(** ** Stylesheet *)
Lemma demand_entries_spec i en : In en (demand_entries s i) <-> demand_mark s i en.
Proof.
  unfold demand_entries, demand_mark. cbn [In]. split.
  - intros [<-|[<-|[<-|[<-|[]]]]]; [left|left|auto|auto]; exists (cid_text (i_cid (h_if s i))); (split; [apply shown_text|]); auto.
  - intros [(x & X & Q)|Q]; [|intuition].
    assert (x = cid_text (i_cid (h_if s i))) by (eapply shown_fun; [exact X|apply shown_text]). subst x. intuition.
Qed.
Lemma style_spec E cols dm ifc lp : env_ok E -> plain_names s TDemand ->
  (forall k, dm = Some (mkSel k true) -> (exists d, In d (m_dms s) /\ same_ends s k d) /\ forall d, In d (m_dms s) -> same_ends s k d -> sound_paths s d) ->
  (forall k, lp = Some (mkSel k true) -> exists l ifs c b, In l (m_lsps s) /\ lsp_key s l = k /\ l_path (h_ls s l) = PRouted ifs c b) ->
  exists es, update_stylesheet E s cols dm ifc lp = Ok es /\ forall en, In en es <-> wanted s cols dm ifc lp en.
Proof.
  intros HE PN HD HL.
  set (rest := rbind (match lp with
           | Some (mkSel k true) =>
               rbind (get_lsp_interface_data s k) (fun ins =>
                 Ok (flat_map (lsp_entries s) (fst ins) ++ map (fun n => OnNode n LspNode) (snd ins)))
           | _ => Ok []
           end) (fun ls =>
      Ok (ls ++ match ifc with Some v => [OnEdge (cid_text (si_cid v)) (si_source v) Chosen] | None => [] end))).
  assert (RR : exists r, rest = Ok r /\ forall en, In en r <->
     (exists k l ifs c b i, lp = Some (mkSel k true) /\ In l (m_lsps s) /\ lsp_key s l = k /\ l_path (h_ls s l) = PRouted ifs c b /\ In i ifs /\ lsp_mark s i en) \/
     (exists v x, ifc = Some v /\ shown_cid (si_cid v) x /\ en = OnEdge x (si_source v) Chosen)).
  { assert (IC : forall en, In en (match ifc with Some v => [OnEdge (cid_text (si_cid v)) (si_source v) Chosen] | None => [] end) <->
                   exists v x, ifc = Some v /\ shown_cid (si_cid v) x /\ en = OnEdge x (si_source v) Chosen).
    { intros en. destruct ifc as [v|]; cbn [In].
      - split.
        + intros [<-|[]]. exists v, (cid_text (si_cid v)). split; auto. split; [apply shown_text|reflexivity].
        + intros (v' & x & Q & X & ->). injection Q as <-. left. f_equal. eapply shown_fun; [apply shown_text|exact X].
      - split; [intros []|]. intros (v & x & Q & _). discriminate. }
    assert (No : (forall k, lp <> Some (mkSel k true)) -> rest = Ok ([] ++ match ifc with Some v => [OnEdge (cid_text (si_cid v)) (si_source v) Chosen] | None => [] end) ->
       exists r, rest = Ok r /\ forall en, In en r <->
     (exists k l ifs c b i, lp = Some (mkSel k true) /\ In l (m_lsps s) /\ lsp_key s l = k /\ l_path (h_ls s l) = PRouted ifs c b /\ In i ifs /\ lsp_mark s i en) \/
     (exists v x, ifc = Some v /\ shown_cid (si_cid v) x /\ en = OnEdge x (si_source v) Chosen)).
    { intros NL Q. eexists. split; [exact Q|]. intros en. cbn [app]. rewrite IC. split; [auto|]. intros [(k & l & ifs & c & b & i & Q2 & _)|Q2]; [exfalso; eapply NL; eauto|auto]. }
    destruct lp as [[k [|]]|]; try (apply No; [congruence|reflexivity]). clear No.
    destruct (HL k eq_refl) as (l & ifs & c & b & Hl & <- & P). unfold rest, get_lsp_interface_data. rewrite find_lsp by auto. cbn [rbind]. unfold lsp_interfaces. rewrite P. cbn [rbind fst snd].
    eexists. split; [reflexivity|]. intros en. rewrite !in_app_iff, IC. rewrite in_flat_map, in_map_iff.
    assert (Lm : forall en, ((exists x, In x ifs /\ In en (lsp_entries s x)) \/ (exists x, OnNode x LspNode = en /\ In x (dedup_by String.eqb (flat_map (fun i => [ilocal s i; iremote s i]) ifs)))) <->
       exists i, In i ifs /\ lsp_mark s i en).
    { clear en. intros en. unfold lsp_mark. split.
      - intros [(x & Hx & Q)|(x & <- & Hx)].
        + exists x. split; auto. left. exists (cid_text (i_cid (h_if s x))). split; [apply shown_text|]. unfold lsp_entries in Q. cbn [In] in Q. intuition.
        + apply in_dedup_by in Hx; [|apply String.eqb_eq]. apply in_flat_map in Hx as (i & Hi & Q). exists i. split; auto. right. cbn [In] in Q. destruct Q as [<-|[<-|[]]]; auto.
      - intros (i & Hi & [(x & X & Q)|Q]).
        + left. exists i. split; auto. assert (x = cid_text (i_cid (h_if s i))) by (eapply shown_fun; [exact X|apply shown_text]). subst x. unfold lsp_entries. cbn [In]. intuition.
        + right. destruct Q as [-> | ->]; eexists; (split; [reflexivity|]); apply in_dedup_by; try apply String.eqb_eq; apply in_flat_map; exists i; (split; [auto|]); cbn [In]; auto. }
    rewrite Lm. split.
    - intros [(i & Hi & Q)|Q]; [left|auto]. exists (lsp_key s l), l, ifs, c, b, i. auto 10.
    - intros [(k & l' & ifs' & c' & b' & i & Q1 & Q2 & Q3 & Q4 & Q5 & Q6)|Q]; [left|auto]. injection Q1 as Q1. 
      assert (l' = l) by (eapply (NoDup_map_inj (lsp_key s) (m_lsps s)); auto; [apply KU|congruence]). subst l'. exists i. split; auto. congruence. }
  destruct RR as (r & Er & Ir).
  assert (CS : forall en, In en (map (fun c => OnColour c Opaque) cols) <-> exists c, In c cols /\ en = OnColour c Opaque).
  { intros en. rewrite in_map_iff. split; intros (c & A & B); exists c; auto. }
  assert (No : (forall k, dm <> Some (mkSel k true)) -> update_stylesheet E s cols dm ifc lp = Ok (map (fun c => OnColour c Opaque) cols ++ r) ->
     exists es, update_stylesheet E s cols dm ifc lp = Ok es /\ forall en, In en es <-> wanted s cols dm ifc lp en).
  { intros ND Q. eexists. split; [exact Q|]. intros en. unfold wanted. rewrite in_app_iff, CS, Ir. split; [tauto|].
    intros [A|[(k & d & i & A & _)|A]]; [auto|exfalso; eapply ND; eauto|auto]. }
  assert (U : update_stylesheet E s cols dm ifc lp = match dm with
     | Some (mkSel k true) => match dict_get (pair_key (fst (fst k)) (snd (fst k))) (parallel_demand_groups E s) with
        | None => Ok (map (fun c => OnColour c Opaque) cols)
        | Some ds => rbind (find_demand_interfaces_and_lsps s ds) (fun hl => rbind (rmap hop_interface (fst hl)) (fun ifs =>
              rbind rest (fun r => Ok (map (fun c => OnColour c Opaque) cols ++ flat_map (demand_entries s) ifs ++ r))))
        end
     | _ => rbind rest (fun r => Ok (map (fun c => OnColour c Opaque) cols ++ r)) end) by reflexivity.
  rewrite Er in U. cbn [rbind] in U.
  destruct dm as [[k [|]]|]; try (apply No; [congruence|exact U]). clear No.
  destruct (HD k eq_refl) as ((d0 & Hd0 & S0) & SP). rewrite U.
  pose proof (build_grouped E s TDemand HE PN) as G.
  assert (DG : dict_get (pair_key (fst (fst k)) (snd (fst k))) (parallel_demand_groups E s) =
     Some (filter (fun x => String.eqb (dmd_from s x) (fst (fst k)) && String.eqb (dmd_to s x) (snd (fst k))) (m_dms s))).
  { apply dict_get_in; [apply G|]. apply G. exists (fst (fst k)), (snd (fst k)). split; [reflexivity|]. split; [|reflexivity].
    destruct S0 as [S1 S2]. intros C. assert (I : In d0 []) by (rewrite <- C; apply filter_In; cbn [ofrom oto]; rewrite S1, S2, !String.eqb_refl; auto). destruct I. }
  rewrite DG. set (ds := filter _ _).
  assert (Ds : forall d, In d ds <-> In d (m_dms s) /\ same_ends s k d).
  { intros d. unfold ds, same_ends. rewrite filter_In, andb_true_iff, !String.eqb_eq. tauto. }
  destruct (find_exact ds (proj1 KU)) as (ifs & ls & R & _ & _ & I1 & _); [intros d Hd; apply Ds in Hd as [A B]; auto|].
  rewrite R. cbn [rbind fst]. rewrite rmap_hop. cbn [rbind]. eexists. split; [reflexivity|].
  intros en. unfold wanted. rewrite !in_app_iff, CS, Ir, in_flat_map. split.
  - intros [A|[(i & Hi & A)|A]]; [auto| |tauto]. right. left. apply I1 in Hi as (d & Hd & Ov). apply Ds in Hd as [Hd Se]. apply demand_entries_spec in A. exists k, d, i. auto 10.
  - intros [A|[(k' & d & i & Q & Hd & Se & Ov & A)|A]]; [auto| |tauto]. injection Q as <-. right. left. exists i. split; [|now apply demand_entries_spec].
    apply I1. exists d. split; auto. apply Ds. auto.
Qed.
End Keys.
End Select.
