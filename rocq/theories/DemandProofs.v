(** DemandProofs.v - freshness of path_detail, self-demands, traffic_on_lsp. *)
From Verif Require Import Base Graph Objects Sim Spec SpecCkt SpecSim SpecMetric GraphProofs MonadProofs RoundProofs ResProofs ObjProofs CircuitProofs
  ValidateProofs GroupProofs PathProofs QuietProofs RouteProofs LeastProofs IgpProofs Ecmp TrafficProofs ShareProofs SpecSig SigUpdate MetricProofs FlowProofs UtilProofs SpecFlow.
From Coq Require Import Lqa.

(** ** path_detail belongs to path *)
Section Fresh.
Variable E : env.
Variable k : kind.
Hypothesis HE : env_ok E.
Lemma path_entry_path s items t p e : path_entry k s items t p = Ok e -> entry_path e = p.
Proof. unfold path_entry. destruct (Zmax_list _); [|discriminate]. intros H. injection H as <-. destruct k; reflexivity. Qed.

Lemma detail_fresh s s' d : NoDup (m_ifs s) -> update_simulation E k s = (s', Ok tt) -> In d (m_dms s) ->
  match d_path (h_dm s' d) with
  | DUnrouted => d_detail (h_dm s' d) = d_detail (h_dm s d)
  | DPaths ps => exists es, d_detail (h_dm s' d) = PDInfo es /\ map entry_path es = ps
  end.
Proof.
  intros N U Hd. destruct (simulated_ex _ _ _ _ U) as (s1 & s2 & s3 & s4 & Sm). assert (D := sm_detail E k HE _ _ _ _ _ _ Sm N d Hd).
  destruct (d_path (h_dm s' d)) as [|ps] eqn:Pd; auto. destruct D as (A & D). unfold plan in D.
  destruct (own_lsps E k s3 d) as [ls|e] eqn:O; [|discriminate D]. cbn [rbind] in D.
  assert (R := sm_demand _ _ _ _ _ _ _ _ Sm d HE N Hd). unfold rpath in R. destruct (snd (e2e_lsps E k d s2)) as [ls'|e] eqn:Ee; [|discriminate R]. cbn [rbind] in R.
  rewrite (rs_own_lsps E k s2 s3 d (df_same _ _ _ (sm_23 _ _ _ _ _ _ _ _ Sm))) in O. rewrite (own_e2e E k s2 d _ _ O Ee) in *. clear ls O.
  destruct ls' as [|l ls].
  - apply rbind_ok in D as (es & D1 & D). exists es. split; [congruence|]. apply rmap_ok in D1. clear - D1. induction D1; auto. simpl. f_equal; auto. eapply path_entry_path; eauto.
  - assert (P : map (fun l => [ILsp l]) (l :: ls) = ps) by congruence. subst ps. injection D as _ D. rewrite <- D. unfold lsp_detail. 
    destruct (kind_dec k) as [-> | ->]; eexists; (split; [reflexivity|]); rewrite map_map; reflexivity.
Qed.

(** ** Self-demands *)
Lemma self_shortcuts u s r : snd (find_igp_shortcuts E k [[]] [[u]] s) = Ok r -> r = [[]].
Proof.
  unfold find_igp_shortcuts. set (f := fun n => nd <- reads (fun s => get_node s n) ;; gets (fun s => n_shortcuts (h_nd s nd))).
  unfold bind at 1. change (List.concat [[u]]) with [u]. cbn [mmap]. unfold f at 1. unfold bind at 1 2, reads at 1. destruct (get_node s u) as [n|e] eqn:Gn; [|intros H; discriminate H].
  unfold gets at 1. unfold bind at 1. cbn [mmap]. unfold ret at 1. cbn [existsb]. unfold id at 1. destruct (n_shortcuts (h_nd s n)) eqn:Sc; cbn [orb].
  - cbn [last_path_lsps path_lsps]. unfold ret, bind, reads, gets. cbn [existsb orb]. cbv beta iota. rewrite Gn. cbv beta iota. rewrite Sc. cbv beta iota. unfold index_of. rewrite String.eqb_refl.
    cbn [skipn rev first_lsps]. unfold ret. simpl. congruence.
  - cbn. congruence.
Qed.

Lemma self_demand s s' d : well_posed s -> update_simulation E k s = (s', Ok tt) -> In d (m_dms s) -> dmd_from s d <> dmd_to s d.
Proof.
  intros WP U Hd Self. destruct WP as (N & Cost & TD). destruct (simulated_ex _ _ _ _ U) as (s1 & s2 & s3 & s4 & Sm).
  assert (WP : well_posed s) by (split; auto).
  assert (Ends : forall l, In l (m_lsps s) -> lsp_from s l <> lsp_to s l) by (intros l Hl; apply (update_settled E k HE s s' WP U l Hl)).
  destruct (sm_12 _ _ _ _ _ _ _ _ Sm) as (A1 & A2 & A3 & A4 & A5 & A6 & A7 & A8 & _).
  assert (L1 : forall l, lsrc s2 l = lsp_from s l) by (intros l; unfold lsrc, lsp_from; rewrite A1; destruct (A7 l) as (p & a & b & ->); reflexivity).
  assert (L2 : forall l, ldst s2 l = lsp_to s l) by (intros l; unfold ldst, lsp_to; rewrite A1; destruct (A7 l) as (p & a & b & ->); reflexivity).
  assert (D1 : dsrc s2 d = dmd_from s d) by (unfold dsrc, dmd_from; rewrite A1; destruct (A8 d) as (p & ->); reflexivity).
  assert (D2 : ddst s2 d = dmd_to s d) by (unfold ddst, dmd_to; rewrite A1; destruct (A8 d) as (p & ->); reflexivity).
  assert (NL : no_lsp_for s' d).
  { intros l (Hl & F1 & F2). exfalso. destruct (sm_lsps' _ _ _ _ _ _ _ _ Sm HE N) as (B & _). rewrite B, A5 in Hl. apply (Ends l Hl).
    rewrite (sm_from _ _ _ _ _ _ _ _ Sm), (sm_lfrom _ _ _ _ _ _ _ _ Sm) in F1 by auto. rewrite (sm_to _ _ _ _ _ _ _ _ Sm), (sm_lto _ _ _ _ _ _ _ _ Sm) in F2 by auto. congruence. }
  assert (R := sm_demand _ _ _ _ _ _ _ _ Sm d HE N Hd). unfold rpath in R. rewrite (sm_no_e2e E k HE _ _ _ _ _ _ Sm N d TD Hd NL) in R. cbn [rbind] in R.
  set (G := make_graph k s2 false 0 false) in R. set (u := dsrc s2 d) in *. assert (Eu : ddst s2 d = u) by congruence. rewrite Eu in R.
  assert (GP := sm_Gpos E k HE _ _ _ _ _ _ Sm N Cost).
  assert (Y := ok_asp E HE G u u GP). destruct (nx_asp E G u u) as [nps| |]; [|destruct Y as (_ & Y & _); now apply Y|discriminate R].
  destruct Y as (_ & Y1 & Y2 & Y3).
  assert (NP : forall np, In np nps -> np = [u]).
  { intros np H. apply Y3 in H as (es & [W M] & ->). destruct es as [|e es]; [reflexivity|]. exfalso.
    assert (M0 := M [] (walk_nil _ _)). inversion W as [|e' es' d' He W' Q1 Q2 Q3]; subst. rewrite wcost_cons in M0. change (wcost []) with 0 in M0.
    assert (P1 := GP e He). assert (P2 : 0 <= wcost es). { clear - GP W'. induction W' as [|e0 es0 v0 H0 W0 IH0]; [unfold wcost; simpl; lia|]. rewrite wcost_cons. specialize (GP e0 H0). lia. } lia. }
  assert (nps = [[u]]).
  { destruct nps as [|a nps]; [congruence|]. assert (a = [u]) by (apply NP; left; auto). subst a. destruct nps as [|b nps]; auto. exfalso.
    assert (b = [u]) by (apply NP; right; left; auto). subst b. inversion Y1; subst. apply H1. left; auto. }
  subst nps. assert (IP : iface_paths k s2 G [[u]] = [[]]) by (unfold iface_paths; destruct k; reflexivity). rewrite IP in R. cbn [map] in R.
  assert (Pd : d_path (h_dm s' d) = DPaths [[]]).
  { destruct (kind_dec k) as [Hk|Hk].
    - assert (X := self_shortcuts u s2). revert X R. generalize (find_igp_shortcuts E k). rewrite Hk. intros f X R.
      destruct (snd (f [[]] [[u]] s2)) as [r|e]; cbn [rbind] in R; [|discriminate R]. rewrite (X r eq_refl) in R. congruence.
    - revert R. generalize (find_igp_shortcuts E k). rewrite Hk. intros f R. cbn [rbind] in R. congruence. }
  assert (D := sm_detail E k HE _ _ _ _ _ _ Sm N d Hd). rewrite Pd in D. destruct D as (A & D). unfold plan in D.
  rewrite (sm_ride_not E k HE _ _ _ _ _ _ Sm WP d Hd NL _ Pd) in D. cbn [rbind rmap] in D. discriminate D.
Qed.
End Fresh.
