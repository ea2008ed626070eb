(** LspTotal.v - update_simulation on models with LSPs: routing the demands and
    adding up the traffic cannot fail once the LSPs are signalled. *)
From Verif Require Import Base Graph Objects Sim Spec SpecCkt SpecSim SpecMetric SpecOrder SpecShort GraphProofs MonadProofs RoundProofs ResProofs ObjProofs CircuitProofs
  ValidateProofs GroupProofs PathProofs QuietProofs RouteProofs LeastProofs IgpProofs Ecmp TrafficProofs ShareProofs SpecSig SigUpdate MetricProofs SpecFlow FlowProofs UtilProofs DemandProofs ShortPaths ShortProofs PathQuery.
From Coq Require Import Lqa.

Lemma rmap_total {A B} (f : A -> res B) l : (forall x, In x l -> exists y, f x = Ok y) -> exists ys, rmap f l = Ok ys.
Proof.
  induction l as [|x l IH]; intros H; [exists []; reflexivity|]. destruct (H x (or_introl eq_refl)) as (y & Hy). destruct IH as (ys & I); [intros z Hz; apply H; right; auto|].
  exists (y :: ys). simpl. rewrite Hy, I. reflexivity.
Qed.
Lemma py_min_total ms : ms <> [] -> (forall m, In m ms -> exists z, m = MInt z) -> exists z, py_min ms = Ok (MInt z).
Proof.
  intros Ne H. destruct ms as [|a ms]; [congruence|]. destruct ms as [|b ms].
  { destruct (H a (or_introl eq_refl)) as (z & ->). exists z. reflexivity. }
  unfold py_min. set (l := a :: b :: ms) in *. assert (F : forallb is_mint l = true) by (apply forallb_forall; intros x Hx; destruct (H x Hx) as (z & ->); reflexivity).
  rewrite F. destruct (H a (or_introl eq_refl)) as (z & Ez). unfold l. rewrite Ez. cbn [flat_map app Zmin_list]. eauto.
Qed.
Lemma splice_ne p a b l : splice p a b l <> [].
Proof. unfold splice. intros H. apply app_eq_nil in H as [_ H]. discriminate. Qed.
Lemma splice_in p a b l x : In x (splice p a b l) -> In x p \/ x = ILsp l.
Proof.
  unfold splice. rewrite !in_app_iff. intros [H|[[<-|[]]|H]]; auto; left.
  - rewrite <- (firstn_skipn a p). apply in_or_app; auto.
  - rewrite <- (firstn_skipn (Nat.max a b) p). apply in_or_app; auto.
Qed.

Section Go.
Variable E : env.
Variable k : kind.
Hypothesis HE : env_ok E.
Variable s2 : st.
Hypothesis N2 : NoDup (m_ifs s2).
Hypothesis Cost2 : forall i, In i (m_ifs s2) -> 1 <= i_cost (h_if s2 i).
Hypothesis NoPar2 : k = Perf -> forall i j, In i (m_ifs s2) -> In j (m_ifs s2) -> loc s2 i = loc s2 j -> rem s2 i = rem s2 j -> i = j.
Hypothesis EK : ends_known s2.
Hypothesis GR : egroups E s2 = build_groups E (lsrc s2) (ldst s2) (m_lsps s2).
Hypothesis Mm : forall l, In l (m_lsps s2) -> exists o, omm (h_ls s2 l) = Ok o.
Hypothesis Rt : forall l, In l (m_lsps s2) -> lsp_routed s2 l = true ->
  exists p c b, l_path (h_ls s2 l) = PRouted p c b /\ route s2 (usable s2) (lsp_from s2 l) p (lsp_to s2 l).
Hypothesis NT : k = Flex -> (exists n, In n (m_nds s2) /\ n_shortcuts (h_nd s2 n) = true) -> node_texts s2.
Hypothesis Ends : forall l, In l (m_lsps s2) -> lsp_from s2 l <> lsp_to s2 l.
Let SR : sig_ready k s2 := conj N2 (conj Cost2 NoPar2).
Let G := make_graph k s2 false 0 false.
Let okp := fun i => considered s2 false 0 false i = true.
Let asp u v := asp_paths E k s2 (considered s2 false 0 false) (node_names s2) HE N2 Cost2 NoPar2 u v.

(** ** Metrics *)
Lemma emet_total l : In l (m_lsps s2) -> exists v, emet E k s2 l = Ok v.
Proof.
  intros Hl. unfold emet. destruct (Mm l Hl) as ([z|] & ->); [eauto|]. destruct (says_unrouted _); [eauto|]. destruct (fst _); eauto.
Qed.
Lemma emet_int l : In l (m_lsps s2) -> lsp_routed s2 l = true -> exists z, emet E k s2 l = Ok (MInt z).
Proof.
  intros Hl R. assert (Ne := Ends l Hl). unfold emet. destruct (Mm l Hl) as ([z|] & ->); [eauto|]. destruct (Rt l Hl R) as (p & c & b & P & Ro). rewrite P. cbn [says_unrouted].
  assert (S := shortest_run E k HE s2 SR (lsp_from s2 l) (lsp_to s2 l) 0 (or_introl Ne)).
  change (lsrc s2 l) with (lsp_from s2 l). change (ldst s2 l) with (lsp_to s2 l).
  destruct (get_shortest_path E k s2 (lsp_from s2 l) (lsp_to s2 l) 0) as [[z|] ps]; cbn [fst]; [eauto|]. destruct S as [_ S]. destruct (S p). exact Ro.
Qed.

(** The LSPs a lookup can return: routed LSPs of the model *)
Definition lives (l : nat) : Prop := In l (m_lsps s2) /\ lsp_routed s2 l = true.
Lemma cands_in key cands l : dict_get key (egroups E s2) = Some cands -> In l cands -> In l (m_lsps s2) /\ pair_key (lsrc s2 l) (ldst s2 l) = key.
Proof. rewrite GR. apply build_groups_sound. Qed.

Lemma metrics_total cands : (forall l, In l cands -> lives l) -> cands <> [] -> exists ms z, rmap (emet E k s2) cands = Ok ms /\ py_min ms = Ok (MInt z).
Proof.
  intros H Ne. destruct (rmap_total (emet E k s2) cands) as (ms & M); [intros l Hl; destruct (emet_int l) as (z & ->); [apply (H l Hl)|apply (H l Hl)|eauto]|].
  exists ms. destruct (py_min_total ms) as (z & Z).
  - intros X. subst ms. destruct cands as [|a cands]; [congruence|]. simpl in M. apply rbind_ok in M as (y & _ & M). apply rbind_ok in M as (ys & _ & M). discriminate.
  - intros m Hm. apply rmap_all in M. clear - M Hm H Mm Rt Ends HE SR. induction M as [|x y l ys X M IH]; [destruct Hm|]. destruct Hm as [<-|Hm].
    + destruct (emet_int x) as (z & Z); [apply (H x); left; auto|apply (H x); left; auto|]. exists z. congruence.
    + apply IH; auto. intros z Hz. apply H. right; auto.
  - eauto.
Qed.
Lemma routed_live key cands l : dict_get key (egroups E s2) = Some cands -> In l (filter (lsp_routed s2) cands) -> lives l /\ pair_key (lsrc s2 l) (ldst s2 l) = key.
Proof. intros D H. apply filter_In in H as [H R]. destruct (cands_in key cands l D H) as [A B]. split; [split; auto|auto]. Qed.

Lemma min_total key : exists ls, snd (min_metric_lsps E k key s2) = Ok ls /\ forall l, In l ls -> lives l /\ pair_key (lsrc s2 l) (ldst s2 l) = key.
Proof.
  rewrite min_value. destruct (dict_get key (egroups E s2)) as [cands|] eqn:D; [|exists []; split; [reflexivity|intros l []]].
  destruct (filter (lsp_routed s2) cands) as [|a r] eqn:F.
  - exists []. split; [reflexivity|intros l []].
  - rewrite <- F. destruct (metrics_total (filter (lsp_routed s2) cands)) as (ms & z & M & P); [intros l Hl; apply (routed_live key cands l D Hl)|rewrite F; discriminate|].
    rewrite M. cbn [rbind]. rewrite P.
    rewrite (rfilter_total _ (fun l => has_metric E k s2 (MInt z) l && lsp_routed s2 l)).
    + eexists. split; [reflexivity|]. intros l Hl. apply filter_In in Hl as [Hl B]. apply andb_true_iff in B as [_ B]. apply (routed_live key cands); auto. now apply filter_In.
    + intros l Hl. unfold has_metric. destruct (emet_total l) as (v & ->); [apply (cands_in key cands l D Hl)|]. reflexivity.
Qed.
Lemma e2e_total d : exists ls, snd (e2e_lsps E k d s2) = Ok ls /\ forall l, In l ls -> lives l.
Proof.
  rewrite e2e_none. destruct (dict_get _ (egroups E s2)) as [cands|] eqn:D; [|exists []; split; [reflexivity|intros l []]].
  destruct (filter (lsp_routed s2) cands) as [|a r] eqn:F; [exists []; split; [reflexivity|intros l []]|]. rewrite <- F.
  assert (L : forall l, In l (filter (lsp_routed s2) cands) -> lives l) by (intros l Hl; apply (routed_live _ cands l D Hl)).
  destruct (metrics_total (filter (lsp_routed s2) cands)) as (ms & z & M & P); [exact L|rewrite F; discriminate|].
  cbv zeta. rewrite M. cbn [rbind]. rewrite P. cbn [rbind].
  rewrite (rfilter_total _ (has_metric E k s2 (MInt z))).
  - eexists. split; [reflexivity|]. intros l Hl. apply filter_In in Hl as [Hl _]. auto.
  - intros l Hl. unfold has_metric. destruct (emet_total l) as (v & ->); [apply (L l Hl)|]. reflexivity.
Qed.

(** ** IGP shortcuts *)
Lemma first_total n ds : exists ls, snd (first_lsps E k n ds s2) = Ok ls /\
  forall l, In l ls -> lives l /\ exists m, In m ds /\ pair_key (lsrc s2 l) (ldst s2 l) = pair_key n m.
Proof.
  induction ds as [|d ds IH]; [exists []; split; [reflexivity|intros l []]|]. cbn [first_lsps].
  rewrite (Qv_bind E); [|apply Qm_min_metric|intros [|]; [apply Qm_first|apply Qm_ret]].
  destruct (min_total (pair_key n d)) as (ls & -> & L). cbn [rbind]. destruct ls as [|a ls].
  - destruct IH as (ls & -> & L'). exists ls. split; [reflexivity|]. intros l Hl. destruct (L' l Hl) as (A & m & B & C). split; auto. exists m. split; auto. right; auto.
  - exists (a :: ls). split; [reflexivity|]. intros l Hl. destruct (L l Hl) as [A B]. split; auto. exists d. split; auto. left; auto.
Qed.
Lemma index_total n full : In n full -> exists i, index_of n full = Some i.
Proof.
  induction full as [|m full IH]; intros H; [destruct H|]. simpl. destruct (String.eqb_spec m n) as [->|Ne]; [eauto|]. destruct H as [->|H]; [congruence|]. destruct (IH H) as (i & ->). eauto.
Qed.

Definition groups_live (gs : list (list nat)) : Prop := forall g l, In g gs -> In l g -> lives l.
Lemma path_total full rest : (forall n, In n full -> In n (node_names s2)) -> (forall n, In n rest -> In n full) -> 
  (k = Flex -> forall n, In n (m_nds s2) -> n_shortcuts (h_nd s2 n) = true -> node_texts s2) -> k = Flex ->
  forall sk acc, (forall t, sk = Some t -> In t full) -> groups_live acc ->
  exists gs, snd (path_lsps E k full rest sk acc s2) = Ok gs /\ groups_live gs.
Proof.
  intros KF Sub Nt Hk. induction rest as [|n tl IH]; intros sk acc Sk Ac; [exists acc; split; [reflexivity|exact Ac]|].
  assert (Sub' : forall n, In n tl -> In n full) by (intros; apply Sub; right; auto). specialize (IH Sub'). cbn [path_lsps].
  destruct (index_total n full (Sub n (or_introl eq_refl))) as (a & Ia).
  assert (SK : exists b, (match sk with None => ret false | Some t => match index_of n full, index_of t full with Some a, Some b => ret (Nat.ltb a b) | _, _ => raise ValueError end end : M bool) = ret b).
  { destruct sk as [t|]; [|eauto]. rewrite Ia. destruct (index_total t full (Sk t eq_refl)) as (b & ->). eauto. }
  destruct SK as (b & ->). rewrite bind_ret. destruct b; [now apply IH|].
  unfold bind at 1. unfold reads at 1. assert (GN := get_node_spec s2 n). 
  assert (Kn : In n (node_names s2)) by (apply KF, Sub; left; auto).
  destruct (get_node s2 n) as [nd|e].
  2:{ exfalso. apply in_map_iff in Kn as (m & A & B). exact (proj2 GN m B A). }
  destruct GN as [G1 G2]. rewrite bind_gets. destruct (n_shortcuts (h_nd s2 nd)) eqn:SC; [|now apply IH].
  rewrite bind_gets. cbv zeta. rewrite Ia. change (n_name (h_nd s2 nd)) with (nd_name s2 nd). rewrite G2.
  rewrite (Qv_bind E); [|apply Qm_first|].
  2:{ intros [|l ls]; [apply Qm_path_lsps|]. apply Qm_bind; [apply Qm_gets; intros; now apply (rs_ldst E)|intros; apply Qm_path_lsps]. }
  destruct (first_total n (rev (skipn (S a) full))) as (ls & -> & L). cbn [rbind]. destruct ls as [|l ls]; [now apply IH|].
  rewrite bind_gets. apply IH.
  - intros t Ht. injection Ht as <-. destruct (L l (or_introl eq_refl)) as ((L1 & _) & m & Hm & Ek).
    assert (Fm : In m full). { apply in_rev in Hm. rewrite <- (firstn_skipn (S a) full). apply in_or_app; auto. }
    assert (X := Nt Hk nd G1 SC n m (lsp_from s2 l) (lsp_to s2 l)). destruct X as [_ X].
    + exact Kn.
    + exact (KF m Fm).
    + exact (in_map (lsp_from s2) _ _ L1).
    + exact (in_map (lsp_to s2) _ _ L1).
    + symmetry. exact Ek.
    + change (ldst s2 l) with (lsp_to s2 l). now rewrite <- X.
  - intros g x Hg Hx. apply in_app_or in Hg as [Hg|[<-|[]]]; [eapply Ac; eauto|]. apply (L x Hx).
Qed.
Lemma last_total nps : (forall np n, In np nps -> In n np -> In n (node_names s2)) -> 
  (forall n, In n (m_nds s2) -> n_shortcuts (h_nd s2 n) = true -> node_texts s2) -> k = Flex ->
  forall acc, groups_live acc -> exists gs, snd (last_path_lsps E k nps acc s2) = Ok gs /\ groups_live gs.
Proof.
  intros KN Nt Hk. induction nps as [|np nps IH]; intros acc Ac; [exists acc; split; [reflexivity|exact Ac]|]. cbn [last_path_lsps].
  rewrite (Qv_bind E); [|apply Qm_path_lsps|intros; apply Qm_last].
  destruct (path_total np np (fun n => KN np n (or_introl eq_refl))) with (sk := @None string) (acc := @nil (list nat)) as (gs & -> & Gs); auto; [intros t Ht; discriminate Ht|intros g l []|].
  cbn [rbind]. apply IH; auto. intros q n Hq. apply KN. right; auto.
Qed.

(** items of a path that can carry traffic *)
Definition fine_item (x : item) : Prop := match x with IIf i => In i (m_ifs s2) /\ i_failed (h_if s2 i) = false | ILsp l => lives l end.
Definition fine (ps : list (list item)) : Prop := forall p, In p ps -> p <> [] /\ forall x, In x p -> fine_item x.

Lemma splices_fine combo : (forall sl, In sl combo -> lives (snd sl)) -> forall p : list item, p <> [] -> (forall x, In x p -> fine_item x) ->
  let q := fold_left (fun acc (sl : nat * nat * nat) => splice acc (fst (fst sl)) (snd (fst sl)) (snd sl)) combo p in q <> [] /\ forall x, In x q -> fine_item x.
Proof.
  induction combo as [|sl combo IH]; intros H p Np Fp; [split; auto|]. cbn [fold_left]. apply IH.
  - intros x Hx. apply H. right; auto.
  - apply splice_ne.
  - intros x Hx. apply splice_in in Hx as [Hx| ->]; auto. simpl. apply (H sl). left; auto.
Qed.
Lemma opt_all_in {A} (l : list (option A)) r x : opt_all l = Some r -> In x r -> In (Some x) l.
Proof.
  revert r. induction l as [|[y|] l IH]; simpl; intros r H Hx; [injection H as <-; destruct Hx| |discriminate].
  destruct (opt_all l) as [xs|]; [|discriminate]. injection H as <-. destruct Hx as [<-|Hx]; [auto|]. right. eauto.
Qed.
Lemma combo_in {A} (cs : list A) ls x : Forall2 (fun x l => In x l) cs ls -> In x cs -> exists l, In l ls /\ In x l.
Proof.
  induction 1 as [|y l cs ls H F IH]; intros Hx; [destruct Hx|]. destruct Hx as [<-|Hx]; [exists l; split; [left; auto|auto]|].
  destruct (IH Hx) as (z & B & C). exists z. split; auto. right; auto.
Qed.
Lemma insert_fine gs p fps : groups_live gs -> p <> [] -> (forall x, In x p -> fine_item x) -> insert_lsps s2 gs p = Some fps -> fine fps.
Proof.
  intros Gs Np Fp H. unfold insert_lsps in H. destruct (opt_all _) as [slices|] eqn:O; [|discriminate]. injection H as <-.
  intros q Hq. apply in_map_iff in Hq as (combo & <- & Hc). apply splices_fine; auto.
  intros sl Hsl. assert (Y : exists sls, In sls slices /\ In sl sls).
  { apply PathProofs.in_product in Hc. destruct (combo_in _ _ _ Hc Hsl) as (z & A & B). exists z. split; auto. now apply in_rev. }
  destruct Y as (sls & Y1 & Y2). apply (opt_all_in _ _ _ O) in Y1. apply in_map_iff in Y1 as (g & Y1 & Hg).
  unfold group_slice in Y1. destruct g as [|l0 g]; [discriminate|]. destruct (pos_where _ p) as [a|]; [|discriminate]. destruct (pos_where _ p) as [b|]; [|discriminate]. assert (Y : sls = map (fun l => (a, S b, l)) (l0 :: g)) by congruence. subst sls.
  apply in_map_iff in Y2 as (l & <- & Hl). simpl. eapply Gs; eauto.
Qed.
Lemma substitute_fine gs ps : groups_live gs -> fine ps -> fine (substitute_lsps s2 gs ps).
Proof.
  intros Gs Fp. unfold substitute_lsps. destruct gs as [|g gs0]; [exact Fp|]. set (gs := g :: gs0) in *. clearbody gs.
  assert (A : forall fps acc, fine acc -> fine fps -> fine (fold_left (fun acc q => if existsb (items_eqb s2 q) acc then acc else acc ++ [q]) fps acc)).
  { induction fps as [|q fps IH]; intros acc Fa Ff; [exact Fa|]. cbn [fold_left]. apply IH; [|intros x Hx; apply Ff; right; auto].
    destruct (existsb _ acc); auto. intros x Hx. apply in_app_or in Hx as [Hx|[<-|[]]]; auto. apply Ff. left; auto. }
  assert (B : forall ps acc, fine acc -> fine ps -> fine (fold_left (fun acc p => match insert_lsps s2 gs p with
        | Some fps => fold_left (fun acc q => if existsb (items_eqb s2 q) acc then acc else acc ++ [q]) fps acc
        | None => acc ++ [p] end) ps acc)).
  { clear Fp ps. induction ps as [|p ps IH]; intros acc Fa Fp; [exact Fa|]. cbn [fold_left]. destruct (Fp p (or_introl eq_refl)) as [Np Ip]. apply IH; [|intros x Hx; apply Fp; right; auto].
    destruct (insert_lsps s2 gs p) as [fps|] eqn:I; [apply A; auto; eapply insert_fine; eauto|].
    intros x Hx. apply in_app_or in Hx as [Hx|[<-|[]]]; auto. }
  apply B; auto. intros x [].
Qed.
Lemma metric_total p : (forall x, In x p -> fine_item x) -> exists c, snd (path_metric E k p s2) = Ok c.
Proof.
  induction p as [|[i|l] p IH]; intros H; [eexists; reflexivity| |]; destruct IH as (c & IH); try (intros; apply H; right; auto); cbn [path_metric].
  - rewrite bind_gets. rewrite (Qv_bind E); [|apply Qm_path_metric|intros; apply Qm_ret]. rewrite IH. eexists. reflexivity.
  - destruct (H (ILsp l) (or_introl eq_refl)) as [A B]. destruct (emet_int l A B) as (z & Z). 
    rewrite (Qv_bind E); [|apply Qm_effective|intros [x| |]; [apply Qm_bind; [apply Qm_path_metric|intros; apply Qm_ret]|apply Qm_raise|apply Qm_raise]].
    rewrite Qv_effective, Z. cbn [rbind]. rewrite (Qv_bind E); [|apply Qm_path_metric|intros; apply Qm_ret]. rewrite IH. eexists. reflexivity.
Qed.
Lemma inspect_total ps : fine ps -> exists r, snd (inspect_metrics E k ps s2) = Ok r /\ fine r.
Proof.
  intros F. assert (X : exists r, snd (inspect_metrics E k ps s2) = Ok r).
  { unfold inspect_metrics. 
    assert (QP : forall q, Qm E (m <- path_metric E k q ;; ret (q, m))) by (intros; apply Qm_bind; [apply Qm_path_metric|intros; apply Qm_ret]).
    rewrite (Qv_bind E); [|apply Qm_mmap; intros; apply QP|intros pms; destruct (Zmin_list _); apply Qm_ret].
    rewrite (Qv_mmap E); [|intros; apply QP]. destruct (rmap_total (fun q => snd ((m <- path_metric E k q ;; ret (q, m)) s2)) ps) as (pms & ->).
    { intros q Hq. rewrite (Qv_bind E); [|apply Qm_path_metric|intros; apply Qm_ret]. destruct (metric_total q) as (c & ->); [apply (F q Hq)|]. eexists. reflexivity. }
    cbn [rbind]. destruct (Zmin_list _); eexists; reflexivity. }
  destruct X as (r & R). exists r. split; auto. destruct (inspect_spec E k s2 ps r R) as (_ & I & _). intros q Hq. apply F. apply I, Hq.
Qed.
Lemma shortcuts_total ps nps : fine ps -> k = Flex -> (forall np n, In np nps -> In n np -> In n (node_names s2)) ->
  exists r, snd (find_igp_shortcuts E k ps nps s2) = Ok r /\ fine r.
Proof.
  intros F Hk KN. unfold find_igp_shortcuts. destruct (flags_ok s2 (List.concat nps)) as (fs & FO).
  { intros n Hn. apply in_concat in Hn as (np & A & B). specialize (KN np n A B). apply in_map_iff in KN as (m & X & Y). exists m. auto. }
  unfold bind at 1. rewrite FO. destruct (existsb id fs); [|exists ps; split; [reflexivity|exact F]].
  rewrite (Qv_bind E); [|apply Qm_last|].
  2:{ intros g. apply Qm_bind; [apply Qm_gets; intros; now apply (rs_substitute E)|]. intros [|q [|]]; try apply Qm_inspect. apply Qm_ret. }
  destruct (last_total nps KN (fun n A B => NT Hk (ex_intro _ n (conj A B))) Hk [] ltac:(intros g l [])) as (gs & -> & Gs). cbn [rbind]. rewrite bind_gets.
  assert (FS := substitute_fine gs ps Gs F). destruct (inspect_total _ FS) as (r & R & Fr).
  destruct (substitute_lsps s2 gs ps) as [|q [|q' l]]; [|eexists; split; [reflexivity|exact FS]|]; exists r; auto.
Qed.

(** ** Paths of the demands *)
Lemma names_on u p v n : In u (node_names s2) -> route s2 okp u p v -> In n (route_nodes s2 u p) -> In n (node_names s2).
Proof.
  intros Hu R Hn. unfold route_nodes in Hn. destruct Hn as [<-|Hn]; auto. apply in_map_iff in Hn as (i & <- & Hi).
  destruct (PathProofs.route_in _ _ _ _ _ R i Hi) as [I _]. exact (proj2 (EK i I)).
Qed.
Lemma rpath_total d : In (dmd_from s2 d) (node_names s2) -> dmd_from s2 d <> dmd_to s2 d ->
  exists p, rpath E k G d s2 = Ok p /\ match p with DUnrouted => True | DPaths ps => fine ps /\ (k = Perf -> own_lsps E k s2 d = Ok [] -> forall q l, In q ps -> ~ In (ILsp l) q) end.
Proof.
  intros Hu Ne. unfold rpath. destruct (e2e_total d) as (ls & Ee & L). rewrite Ee. cbn [rbind]. destruct ls as [|l ls].
  2:{ eexists. split; [reflexivity|]. split.
      - intros p Hp. apply in_map_iff in Hp as (x & <- & Hx). split; [discriminate|]. intros y [<-|[]]. apply L, Hx.
      - intros _ O. assert (X := own_e2e E k s2 d _ _ O Ee). discriminate X. }
  change (dsrc s2 d) with (dmd_from s2 d). change (ddst s2 d) with (dmd_to s2 d).
  assert (A := asp (dmd_from s2 d) (dmd_to s2 d)). change (mkG _ _) with G in A.
  destruct (nx_asp E G (dmd_from s2 d) (dmd_to s2 d)) as [nps| |]; [|eexists; split; [reflexivity|exact I]|destruct (A Hu)].
  destruct A as (_ & A0 & A1 & A2).
  assert (F : fine (map (map IIf) (iface_paths k s2 G nps))).
  { intros q Hq. apply in_map_iff in Hq as (p & <- & Hp). apply A1 in Hp as [R Mn]. split.
    - assert (Np : p <> []) by (apply (least_nonempty s2 okp (dmd_from s2 d) p (dmd_to s2 d)); [exact R|exact Ne]). destruct p; [congruence|discriminate].
    - intros x Hx. apply in_map_iff in Hx as (i & <- & Hi). destruct (PathProofs.route_in _ _ _ _ _ R i Hi) as [I C]. split; auto. apply considered_usable in C. apply C. }
  assert (X : k = Flex -> exists r, snd (find_igp_shortcuts E k (map (map IIf) (iface_paths k s2 G nps)) nps s2) = Ok r /\ fine r).
  { intros Hk. apply shortcuts_total; auto. intros np n Hnp Hn. destruct (A2 np Hnp) as (p & [R _] & ->). eapply names_on; eauto. }
  revert X. generalize (find_igp_shortcuts E k). clear A0 A1 A2. revert F. generalize (iface_paths k s2 G nps). destruct k; intros L0 F f X.
  - destruct (X eq_refl) as (r & -> & Fr). cbn [rbind]. eexists. split; [reflexivity|]. split; [exact Fr|discriminate].
  - cbn [rbind]. eexists. split; [reflexivity|]. split; [exact F|]. intros _ _ q l Hq Hl. apply in_map_iff in Hq as (p & <- & _). apply in_map_iff in Hl as (i & Hi & _). discriminate.
Qed.

Lemma loop_total ds : (forall d, In d ds -> In (dmd_from s2 d) (node_names s2) /\ dmd_from s2 d <> dmd_to s2 d) ->
  forall t, rsame E s2 t -> exists t', mfor ds (route_demand E k G) t = (t', Ok tt).
Proof.
  induction ds as [|d ds IH]; intros H t R; [eexists; reflexivity|]. cbn [mfor].
  destruct (route_demand_run E k G d t) as (t1 & R1 & F & _). rewrite (rpath_rsame E k G d s2 t R) in R1.
  destruct (H d (or_introl eq_refl)) as [H1 H2].
  assert (O : route_demand E k G d t = (t1, Ok tt)) by (destruct (rpath_total d H1 H2) as (p & X & _); rewrite X in R1; exact R1).
  destruct (IH (fun x Hx => H x (or_intror Hx)) t1) as (t2 & T2); [eapply rsame_trans; [exact R|apply F]|].
  exists t2. rewrite (bind_run _ _ _ _ _ O). exact T2.
Qed.

(** ** The additions *)
Section Util.
Variable s3 : st.
Hypothesis R23 : rsame E s2 s3.
Definition able (t : st) : Prop :=
  tframe E s3 t /\ forall i, In i (m_ifs s2) -> i_failed (h_if s2 i) = false -> i_traffic (h_if t i) <> TDown.
Definition runs (m : M unit) : Prop := forall t, able t -> exists t', m t = (t', Ok tt) /\ able t'.

Lemma runs_mfor {X} (b : X -> M unit) l : (forall x, In x l -> runs (b x)) -> runs (mfor l b).
Proof.
  induction l as [|x l IH]; intros H t Gt; [exists t; split; [reflexivity|exact Gt]|]. cbn [mfor].
  destruct (H x (or_introl eq_refl) t Gt) as (t1 & R1 & G1). destruct (IH (fun y Hy => H y (or_intror Hy)) t1 G1) as (t2 & R2 & G2).
  exists t2. rewrite (bind_run _ _ _ _ _ R1). auto.
Qed.
Lemma runs_add i x : In i (m_ifs s2) -> i_failed (h_if s2 i) = false -> runs (add_traffic i x).
Proof.
  intros Hi Fi t [Ft Gt]. unfold add_traffic. rewrite bind_gets. assert (Ti := Gt i Hi Fi). destruct (i_traffic (h_if t i)) as [|q] eqn:T; [congruence|].
  eexists. split; [reflexivity|]. split.
  - eapply (po_trans _ (tframe_preorder E)); [exact Ft|]. apply tframe_traffic. eauto.
  - intros j Hj Fj. simpl. apply (fupd_cases _ _ _ _ (fun r => i_traffic r <> TDown)); [intros ->; simpl; discriminate|auto].
Qed.
Lemma able_same t : able t -> rsame E s2 t.
Proof. intros [F _]. eapply rsame_trans; [exact R23|apply F]. Qed.
Lemma runs_lsp l (f : nat -> M unit) : lives l -> (forall i, In i (m_ifs s2) -> i_failed (h_if s2 i) = false -> runs (f i)) ->
  runs (ifs <- reads (fun s => lsp_interfaces s l) ;; mfor ifs f).
Proof.
  intros [Hl Rl] Hf t Gt. unfold bind at 1. unfold reads at 1. rewrite (rs_interfaces _ _ _ (able_same t Gt)).
  destruct (Rt l Hl Rl) as (p & c & b & P & Ro). unfold lsp_interfaces. rewrite P. apply (runs_mfor f p); auto.
  intros i Hi. destruct (PathProofs.route_in _ _ _ _ _ Ro i Hi) as [A [B _]]. auto.
Qed.
Lemma runs_item infos x : fine_item x -> (k = Perf -> forall l, x <> ILsp l) -> runs (add_item_traffic k infos x).
Proof.
  intros Fx Nl. unfold add_item_traffic. destruct (kind_dec k) as [Hk|Hk]; rewrite Hk.
  - destruct x as [i|l].
    + destruct Fx as [A B]. apply runs_mfor. intros inf _ t Gt. rewrite bind_gets. destruct (mem_item _ _ _); [now apply runs_add|]. exists t. split; [reflexivity|auto].
    + intros t Gt. rewrite bind_gets. refine (runs_lsp l _ Fx _ t Gt). intros i. apply runs_add.
  - destruct x as [i|l]; [|destruct (Nl Hk l eq_refl)]. destruct Fx as [A B]. intros t Gt. rewrite bind_gets. now apply runs_add.
Qed.
Lemma able_detail t d p : able t -> able (upd_dm d (dm_detail p) t).
Proof. intros [F1 G1]. split; [eapply (po_trans _ (tframe_preorder E)); [exact F1|apply tframe_detail]|exact G1]. Qed.
Lemma runs_demand d : (forall t, able t -> match d_path (h_dm t d) with DUnrouted => True | DPaths ps =>
    fine ps /\ (k = Perf -> own_lsps E k s2 d = Ok [] -> forall q l, In q ps -> ~ In (ILsp l) q) end) ->
  runs (demand_traffic E k d).
Proof.
  intros P t Gt. unfold demand_traffic. rewrite bind_gets. specialize (P t Gt). destruct (d_path (h_dm t d)) as [|ps]; [exists t; split; [reflexivity|auto]|].
  destruct P as [Fp Pf]. rewrite bind_gets. assert (R := able_same t Gt).
  destruct (min_total (pair_key (dsrc s2 d) (ddst s2 d))) as (ls & O & Ll). fold (own_lsps E k s2 d) in O.
  assert (O' : snd (min_metric_lsps E k (pair_key (dsrc t d) (ddst t d)) t) = Ok ls) by (rewrite <- O; apply (rs_own_lsps E k s2 t d R)).
  assert (Q := proj1 (Qm_min_metric E k (pair_key (dsrc t d) (ddst t d))) t).
  destruct (min_metric_lsps E k (pair_key (dsrc t d) (ddst t d)) t) as [t1 r1] eqn:M. cbn [fst snd] in Q, O'. subst r1. rewrite (bind_run _ _ _ _ _ M). cbv iota.
  assert (G1 : able t1).
  { destruct Gt as [Ft Gt]. split; [eapply (po_trans _ (tframe_preorder E)); [exact Ft|apply quiet_tframe; exact Q]|].
    intros i Hi Fi. destruct Q as (_ & Q1 & _). rewrite Q1. auto. }
  clear M Q R Gt. destruct ls as [|l0 ls0].
  - unfold igp_demand_traffic. rewrite !bind_gets.
    destruct (rmap_total (path_entry k t1 (item_set t1 ps) (d_traffic (h_dm t1 d))) ps) as (infos & X).
    { intros p Hp. destruct (Fp p Hp) as [Np _]. unfold path_entry. destruct p as [|x p]; [congruence|]. cbn [splits_along map snd Zmax_list]. eauto. }
    unfold reads at 1. unfold bind at 1. rewrite X. rewrite bind_modify. apply runs_mfor; [|now apply able_detail].
    intros x Hx. apply dedup_In in Hx. apply in_concat in Hx as (q & Hq & Hx). apply runs_item; [apply (Fp q Hq), Hx|].
    intros Hk l ->. exact (Pf Hk O q l Hq Hx).
  - set (ls := l0 :: ls0) in *. unfold lsp_demand_traffic. rewrite bind_gets. cbv zeta.
    assert (A : forall x, runs (mfor ls (fun l => ifs <- reads (fun s => lsp_interfaces s l) ;; mfor ifs (fun i => add_traffic i x)))).
    { intros x. apply runs_mfor. intros l Hl. apply runs_lsp; [apply (Ll l Hl)|]. intros i. apply runs_add. }
    destruct (kind_dec k) as [Hk|Hk]; rewrite Hk.
    + rewrite bind_modify. apply A. now apply able_detail.
    + destruct (A (d_traffic (h_dm t1 d) / inject_Z (Z.of_nat (List.length ls)))%Q t1 G1) as (t2 & R2 & G2). rewrite (bind_run _ _ _ _ _ R2).
      eexists. split; [reflexivity|]. now apply able_detail.
Qed.
End Util.

Lemma demands_total : demands_fine s2 -> exists s4, route_demands E k s2 = (s4, Ok tt) /\ rsame E s2 s4 /\ same_sig s2 s4.
Proof.
  intros D. unfold route_demands. rewrite !bind_gets. fold G. 
  destruct (loop_total (m_dms s2)) with (t := s2) as (s3 & R3); [exact D|apply rsame_refl|].
  destruct (route_demand_loop E k G _ _ _ R3) as (F & P & _). assert (R := df_same _ _ _ F).
  assert (U : exists s4, update_interface_utilization E k s3 = (s4, Ok tt)).
  { unfold update_interface_utilization. rewrite bind_gets.
    destruct (mfor_upd_if (fun r => if_traffic (if i_failed r then TDown else TNum 0) r) (m_ifs s3) (fun r => eq_refl) s3) as (h & R1 & X1).
    rewrite (bind_run _ _ _ _ _ R1). rewrite bind_gets. 
    assert (Fh : tframe E s3 (with_if s3 h)).
    { refine (pres_run _ _ _ _ _ _ R1). apply (pres_mfor _ (tframe_preorder E)). intros i _. apply pres_modify. intros x. apply tframe_traffic. eauto. }
    destruct (runs_mfor s3 (demand_traffic E k) (m_dms s2)) with (t := with_if s3 h) as (s4 & G4 & _).
    - intros d Hd. apply (runs_demand s3 R). intros t [Ft _]. rewrite (tf_path _ _ _ Ft). destruct (D d Hd) as [D1 D2].
      destruct (rpath_total d D1 D2) as (p & X & Y). rewrite (P d Hd) in X. injection X as ->. exact Y.
    - split; [exact Fh|]. intros i Hi Fi. simpl. rewrite X1. rewrite (rs_ifs _ _ _ R).
      assert (Mi : mem_nat i (m_ifs s2) = true) by now apply mem_nat_In. rewrite Mi. simpl.
      destruct (rs_idata _ _ _ R i) as (_ & _ & _ & _ & _ & _ & -> & _). rewrite Fi. discriminate.
    - exists s4. rewrite <- G4. simpl. rewrite (rs_dms _ _ _ R). reflexivity. }
  destruct U as (s4 & R4). exists s4. assert (T := pres_run _ _ _ _ _ (tframe_util E k) R4). split; [now rewrite (bind_run _ _ _ _ _ R3)|]. split.
  - eapply rsame_trans; [apply F|apply T].
  - eapply same_sig_trans; [apply (df_sig _ _ _ F)|apply (tf_sig _ _ _ T)].
Qed.
End Go.
