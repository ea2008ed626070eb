(** RouteProofs.v - the stages of update_simulation and the paths that demands
    get. *)
From Verif Require Import Base Graph Objects Sim Spec SpecCkt GraphProofs MonadProofs ResProofs Frames ObjProofs ApiProofs CircuitProofs
  ValidateProofs GroupProofs PathProofs QuietProofs.

(** ** Networks that look the same to routing *)
Record same_net (s t : st) : Prop := {
  sn_ifs : m_ifs t = m_ifs s;
  sn_loc : forall i, loc t i = loc s i; sn_rem : forall i, rem t i = rem s i;
  sn_cost : forall i, i_cost (h_if t i) = i_cost (h_if s i);
  sn_failed : forall i, i_failed (h_if t i) = i_failed (h_if s i);
  sn_rsvp : forall i, i_rsvp (h_if t i) = i_rsvp (h_if s i);
  sn_cap : forall i, i_cap (h_if t i) = i_cap (h_if s i);
  sn_pct : forall i, i_pct (h_if t i) = i_pct (h_if s i);
  sn_res : forall i, i_res (h_if t i) = i_res (h_if s i) }.

Lemma same_net_sym s t : same_net s t -> same_net t s.
Proof. intros []. constructor; auto. Qed.
Lemma same_net_trans a b c : same_net a b -> same_net b c -> same_net a c.
Proof. intros [] []. constructor; intros; etransitivity; eauto. Qed.

Section SN.
Variables s t : st.
Hypothesis H : same_net s t.
Lemma sn_reservable i r : reservable t i r <-> reservable s i r.
Proof. unfold reservable, reserved. now rewrite (sn_rsvp _ _ H), (sn_cap _ _ H), (sn_pct _ _ H), (sn_res _ _ H). Qed.
Lemma sn_usable i : usable t i <-> usable s i.
Proof. unfold usable. rewrite (sn_failed _ _ H). split; intros (A & r & B & C); (split; [auto|exists r; split; auto]); now apply sn_reservable. Qed.
Lemma sn_route_1 ok u p v : route s ok u p v -> route t ok u p v.
Proof.
  induction 1; [constructor|]. rewrite <- (sn_loc _ _ H). constructor; auto; [now rewrite (sn_ifs _ _ H)|]. now rewrite (sn_rem _ _ H).
Qed.
End SN.
Lemma sn_route s t ok u p v : same_net s t -> (route t ok u p v <-> route s ok u p v).
Proof. intros H. split; apply sn_route_1; auto. now apply same_net_sym. Qed.
Lemma sn_route_cost s t p : same_net s t -> route_cost t p = route_cost s p.
Proof. intros H. induction p; simpl; auto. now rewrite IHp, (sn_cost _ _ H). Qed.
Lemma sn_route_nodes s t u p : same_net s t -> route_nodes t u p = route_nodes s u p.
Proof. intros H. unfold route_nodes. f_equal. apply map_ext. intros. apply (sn_rem _ _ H). Qed.
Lemma sn_least s t ok u p v : same_net s t -> (least_cost t ok u p v <-> least_cost s ok u p v).
Proof.
  intros H. unfold least_cost. rewrite (sn_route _ _ ok u p v H). split; intros [A B]; (split; [auto|]); intros q Q.
  - rewrite <- !(sn_route_cost _ _ _ H). apply B. now apply (sn_route _ _ ok u q v H).
  - rewrite !(sn_route_cost _ _ _ H). apply B. now apply (sn_route _ _ ok u q v H).
Qed.
Lemma sn_least_usable s t u p v : same_net s t -> (least_cost t (usable t) u p v <-> least_cost s (usable s) u p v).
Proof.
  intros H. rewrite (sn_least s t (usable t) u p v H). apply least_cost_ext. intros i _. now apply sn_usable.
Qed.
Lemma sn_route_usable s t u p v : same_net s t -> (route t (usable t) u p v <-> route s (usable s) u p v).
Proof.
  intros H. rewrite (sn_route s t (usable t) u p v H). split; apply route_ext; intros i _; [|symmetry]; now apply sn_usable.
Qed.

Lemma rsame_net E s t : rsame E s t -> same_net s t.
Proof.
  intros H. constructor; intros; try apply (rs_idata E s t H).
  - apply H.
  - apply (rs_local E s t H).
  - apply (rs_remote E s t H).
Qed.
Lemma cframe_net k s t : cframe k s t -> same_net s t.
Proof.
  intros H. constructor; intros; try apply (cf_data k s t H).
  - apply H.
  - apply (cf_loc k s t H).
  - apply (cf_rem k s t H).
Qed.

(** ** Loops of independent updates *)
Lemma mfor_upd_if (f : iface -> iface) (l : list nat) : (forall r, f (f r) = f r) -> forall s,
  exists h, mfor l (fun i => modify (upd_if i f)) s = (with_if s h, Ok tt) /\
    forall x, h x = if mem_nat x l then f (h_if s x) else h_if s x.
Proof.
  intros F. induction l as [|i l IH]; intros s.
  - exists (h_if s). split; [simpl; unfold ret; now rewrite <- st_eta|]. reflexivity.
  - cbn [mfor]. rewrite bind_modify. destruct (IH (upd_if i f s)) as (h & -> & X). exists h. split; [reflexivity|].
    intros x. rewrite X. simpl. unfold fupd. rewrite (Nat.eqb_sym x i). destruct (Nat.eqb_spec i x) as [->|N]; simpl.
    + destruct (mem_nat x l); auto.
    + reflexivity.
Qed.
Definition with_ls (s : st) (h : nat -> lsp) : st :=
  mkSt (h_if s) (h_nd s) (h_sr s) (h_dm s) h (m_ifs s) (m_nds s) (m_dms s) (m_lsps s) (m_srs s) (m_ckts s) (m_groups s) (s_next s) (s_rng s).
Definition with_dm (s : st) (h : nat -> demand) : st :=
  mkSt (h_if s) (h_nd s) (h_sr s) h (h_ls s) (m_ifs s) (m_nds s) (m_dms s) (m_lsps s) (m_srs s) (m_ckts s) (m_groups s) (s_next s) (s_rng s).
Lemma mfor_upd_ls (f : lsp -> lsp) (l : list nat) : (forall r, f (f r) = f r) -> forall s,
  exists h, mfor l (fun i => modify (upd_ls i f)) s = (with_ls s h, Ok tt) /\
    forall x, h x = if mem_nat x l then f (h_ls s x) else h_ls s x.
Proof.
  intros F. induction l as [|i l IH]; intros s.
  - exists (h_ls s). split; [destruct s; reflexivity|]. reflexivity.
  - cbn [mfor]. rewrite bind_modify. destruct (IH (upd_ls i f s)) as (h & -> & X). exists h. split; [reflexivity|].
    intros x. rewrite X. simpl. unfold fupd. rewrite (Nat.eqb_sym x i). destruct (Nat.eqb_spec i x) as [->|N]; simpl.
    + destruct (mem_nat x l); auto.
    + reflexivity.
Qed.
Lemma mfor_upd_dm (f : demand -> demand) (l : list nat) : (forall r, f (f r) = f r) -> forall s,
  exists h, mfor l (fun i => modify (upd_dm i f)) s = (with_dm s h, Ok tt) /\
    forall x, h x = if mem_nat x l then f (h_dm s x) else h_dm s x.
Proof.
  intros F. induction l as [|i l IH]; intros s.
  - exists (h_dm s). split; [destruct s; reflexivity|]. reflexivity.
  - cbn [mfor]. rewrite bind_modify. destruct (IH (upd_dm i f s)) as (h & -> & X). exists h. split; [reflexivity|].
    intros x. rewrite X. simpl. unfold fupd. rewrite (Nat.eqb_sym x i). destruct (Nat.eqb_spec i x) as [->|N]; simpl.
    + destruct (mem_nat x l); auto.
    + reflexivity.
Qed.

(** ** The first stage *)
Record prepared (s t : st) : Prop := {
  pr_nd : h_nd t = h_nd s; pr_sr : h_sr t = h_sr s; pr_ifs : m_ifs t = m_ifs s; pr_nds : m_nds t = m_nds s; pr_dms : m_dms t = m_dms s;
  pr_lsps : m_lsps t = m_lsps s; pr_srs : m_srs t = m_srs s; pr_ckts : m_ckts t = m_ckts s; pr_groups : m_groups t = []; pr_next : s_next t = s_next s;
  pr_rng : s_rng t = s_rng s;
  pr_if : forall i, h_if t i = if mem_nat i (m_ifs s) then if_traffic (TNum 0) (if_res 0%Q (h_if s i)) else h_if s i;
  pr_ls : forall l, h_ls t l = if mem_nat l (m_lsps s) then ls_path PUnrouted (h_ls s l) else h_ls s l;
  pr_dm : forall d, h_dm t d = if mem_nat d (m_dms s) then dm_path DUnrouted (h_dm s d) else h_dm s d }.

Section Stages.
Variable E : env.
Variable k : kind.

Lemma update_start s : exists s1, prepared s s1 /\
  update_simulation E k s = bind (route_lsps E k) (fun _ => bind (route_demands E k) (fun _ => validate_model E k)) s1.
Proof.
  unfold update_simulation. rewrite bind_modify, bind_gets.
  destruct (mfor_upd_if (fun r => if_traffic (TNum 0) (if_res 0%Q r)) (m_ifs (set_groups [] s)) (fun r => eq_refl) (set_groups [] s)) as (h1 & R1 & X1).
  rewrite (bind_run _ _ _ _ _ R1). rewrite bind_gets.
  match goal with |- context [bind (mfor ?l _) _ ?s0] => destruct (mfor_upd_ls (ls_path PUnrouted) l (fun r => eq_refl) s0) as (h2 & R2 & X2) end.
  rewrite (bind_run _ _ _ _ _ R2). rewrite bind_gets.
  match goal with |- context [bind (mfor ?l _) _ ?s0] => destruct (mfor_upd_dm (dm_path DUnrouted) l (fun r => eq_refl) s0) as (h3 & R3 & X3) end.
  rewrite (bind_run _ _ _ _ _ R3). eexists. split; [|reflexivity]. constructor; auto.
Qed.

Lemma update_stages s s' : update_simulation E k s = (s', Ok tt) ->
  exists s1 s2 s3 s4, prepared s s1 /\ route_lsps E k s1 = (s2, Ok tt) /\
    mfor (m_dms s2) (route_demand E k (make_graph k s2 false 0 false)) s2 = (s3, Ok tt) /\
    update_interface_utilization E k s3 = (s4, Ok tt) /\ validate_model E k s4 = (s', Ok tt).
Proof.
  intros H. destruct (update_start s) as (s1 & P & R). rewrite R in H. apply bind_ok in H as (s2 & [] & H1 & H).
  apply bind_ok in H as (s4 & [] & H2 & H). unfold route_demands in H2. rewrite bind_gets, bind_gets in H2.
  apply bind_ok in H2 as (s3 & [] & H2 & H3). exists s1, s2, s3, s4. auto.
Qed.

(** ** Signalling *)
Record sframe (s t : st) : Prop := {
  sf_nd : h_nd t = h_nd s; sf_sr : h_sr t = h_sr s; sf_dm : h_dm t = h_dm s;
  sf_ifs : m_ifs t = m_ifs s; sf_nds : m_nds t = m_nds s; sf_dms : m_dms t = m_dms s; sf_lsps : m_lsps t = m_lsps s; sf_srs : m_srs t = m_srs s;
  sf_ckts : m_ckts t = m_ckts s; sf_groups : m_groups t = m_groups s; sf_next : s_next t = s_next s;
  sf_if : forall i, if_ex_res (h_if s i) (h_if t i);
  sf_ls : forall l, ls_ex_sig (h_ls s l) (h_ls t l) }.

Lemma sframe_preorder : preorder sframe.
Proof.
  split.
  - intros s. constructor; auto; intros; [unfold if_ex_res; destruct (h_if s i)|unfold ls_ex_sig; destruct (h_ls s l)]; reflexivity.
  - intros a b c [] []. constructor; try congruence; intros.
    + red. rewrite (sf_if1 i), (sf_if0 i). reflexivity.
    + red. rewrite (sf_ls1 l), (sf_ls0 l). reflexivity.
Qed.
Lemma sframe_if i : c_if if_ex_res i sframe.
Proof.
  intros f s F. constructor; auto; intros.
  - simpl. apply fupd_cases; [intros ->; apply F|]. intros _. unfold if_ex_res. destruct (h_if s i0); reflexivity.
  - simpl. unfold ls_ex_sig. destruct (h_ls s l); reflexivity.
Qed.
Lemma sframe_ls l : c_ls ls_ex_sig l sframe.
Proof.
  intros f s F. constructor; auto; intros.
  - simpl. unfold if_ex_res. destruct (h_if s i); reflexivity.
  - simpl. apply fupd_cases; [intros ->; apply F|]. intros _. unfold ls_ex_sig. destruct (h_ls s l0); reflexivity.
Qed.
Lemma sframe_rng : c_rng sframe.
Proof.
  intros s. constructor; auto; intros; simpl; [unfold if_ex_res; destruct (h_if s i)|unfold ls_ex_sig; destruct (h_ls s l)]; reflexivity.
Qed.
Lemma sframe_egroups s t : sframe s t -> egroups E t = egroups E s.
Proof.
  intros F. apply egroups_ext; [apply F|]. apply build_ext; [now rewrite (sf_nd _ _ F)|apply F|]. intros l. rewrite (sf_ls _ _ F l). auto.
Qed.

Lemma sframe_group dg g : pres sframe (route_lsp_group E k dg g).
Proof. apply pres_route_lsp_group; auto using sframe_preorder, sframe_if, sframe_rng, sframe_ls. Qed.

(** The state in which the first group is signalled *)
Lemma route_lsps_start s : exists s1, 
  route_lsps E k s = mfor (egroups E s) (route_lsp_group E k (parallel_demand_groups E s)) s1 /\ 
  (forall x, i_res (h_if s1 x) = if mem_nat x (m_ifs s) then 0%Q else i_res (h_if s x)) /\
  h_nd s1 = h_nd s /\ h_sr s1 = h_sr s /\ h_dm s1 = h_dm s /\ h_ls s1 = h_ls s /\
  m_ifs s1 = m_ifs s /\ m_nds s1 = m_nds s /\ m_dms s1 = m_dms s /\ m_lsps s1 = m_lsps s /\ m_srs s1 = m_srs s /\ 
  m_ckts s1 = m_ckts s /\ s_next s1 = s_next s /\ s_rng s1 = s_rng s /\
  (forall i, if_ex_res (h_if s i) (h_if s1 i)) /\ egroups E s1 = egroups E s.
Proof.
  unfold route_lsps. rewrite bind_gets.
  destruct (mfor_upd_if (if_res 0%Q) (m_ifs s) (fun r => eq_refl) s) as (h1 & R1 & X1). rewrite (bind_run _ _ _ _ _ R1).
  unfold parallel_lsp_groups. 
  assert (EG : egroups E (with_if s h1) = egroups E s) by reflexivity.
  assert (XR : forall i, if_ex_res (h_if s i) (h1 i)).
  { intros i. unfold if_ex_res. rewrite X1. destruct (mem_nat i (m_ifs s)); destruct (h_if s i); reflexivity. }
  assert (X0 : forall x, i_res (h1 x) = if mem_nat x (m_ifs s) then 0%Q else i_res (h_if s x)) by (intros x; rewrite X1; destruct (mem_nat x _); auto).
  unfold bind at 1. rewrite bind_gets. destruct (m_groups (with_if s h1)) as [|g gs] eqn:G.
  - rewrite bind_gets, bind_modify. unfold ret. rewrite bind_gets. eexists. split.
    + unfold egroups. simpl in G. rewrite G. reflexivity.
    + split; [exact X0|]. repeat split; auto. unfold egroups. simpl. simpl in G. rewrite G.
      destruct (build_groups E _ _ _) eqn:B; auto.
  - unfold ret. rewrite bind_gets. exists (with_if s h1). split.
    + unfold egroups. simpl in G. rewrite G. reflexivity.
    + split; [exact X0|]. repeat split; auto.
Qed.

Lemma route_lsps_frame s s2 r : route_lsps E k s = (s2, r) ->
  h_nd s2 = h_nd s /\ h_sr s2 = h_sr s /\ h_dm s2 = h_dm s /\
  m_ifs s2 = m_ifs s /\ m_nds s2 = m_nds s /\ m_dms s2 = m_dms s /\ m_lsps s2 = m_lsps s /\ m_srs s2 = m_srs s /\
  m_ckts s2 = m_ckts s /\ s_next s2 = s_next s /\
  (forall i, if_ex_res (h_if s i) (h_if s2 i)) /\ (forall l, ls_ex_sig (h_ls s l) (h_ls s2 l)) /\ egroups E s2 = egroups E s.
Proof.
  intros H. destruct (route_lsps_start s) as (s1 & R & _ & A1 & A2 & A3 & A4 & A5 & A6 & A7 & A8 & A9 & A10 & A11 & _ & A12 & A13).
  rewrite R in H. assert (F : sframe s1 s2).
  { eapply pres_run; [|exact H]. apply (pres_mfor _ sframe_preorder). intros. apply sframe_group. }
  assert (F0 := F). destruct F. do 10 (split; [congruence|]). split; [|split].
  - intros i. red. rewrite (sf_if0 i), (A12 i). reflexivity.
  - intros l. red. rewrite (sf_ls0 l), A4. reflexivity.
  - rewrite <- A13. now apply sframe_egroups.
Qed.

(** ** Routing the demands *)
Definition rpath (G : graph) (d : nat) (s : st) : res dpath :=
  rbind (snd (e2e_lsps E k d s)) (fun ls =>
    match ls with
    | _ :: _ => Ok (DPaths (map (fun l => [ILsp l]) ls))
    | [] =>
        match nx_asp E G (dsrc s d) (ddst s d) with
        | NxNoPath => Ok DUnrouted
        | NxNodeNotFound => Err NodeNotFound
        | NxPaths nps =>
            rbind (match k with
                   | Flex => snd (find_igp_shortcuts E k (map (map IIf) (iface_paths k s G nps)) nps s)
                   | Perf => Ok (map (map IIf) (iface_paths k s G nps))
                   end) (fun ps => Ok (DPaths ps))
        end
    end).

Lemma rpath_rsame G d s t : rsame E s t -> rpath G d t = rpath G d s.
Proof.
  intros H. unfold rpath. rewrite (proj2 (Qm_e2e E k d) s t H). destruct (snd (e2e_lsps E k d s)) as [[|l ls]|e]; cbn [rbind]; auto.
  rewrite (rs_dsrc _ _ _ H), (rs_ddst _ _ _ H). destruct (nx_asp _ _ _ _) as [nps| |]; auto. f_equal.
  rewrite (rs_iface_paths E k s t H). pose proof (fun ps => proj2 (Qm_shortcuts E k ps nps) s t H) as X. destruct k; auto.
Qed.

(** everything but the paths of demands stays, up to [rsame] *)
Record dframe (s t : st) : Prop := {
  df_same : rsame E s t; df_if : h_if t = h_if s; df_sr : h_sr t = h_sr s; df_srs : m_srs t = m_srs s; df_ckts : m_ckts t = m_ckts s;
  df_next : s_next t = s_next s; df_rng : s_rng t = s_rng s; df_detail : forall d, d_detail (h_dm t d) = d_detail (h_dm s d); df_sig : same_sig s t }.
Lemma dframe_preorder : preorder dframe.
Proof.
  split.
  - intros s. constructor; auto; [apply rsame_refl|split; auto].
  - intros a b c [] []. constructor; try congruence; [eapply rsame_trans; eauto|eapply same_sig_trans; eauto].
Qed.
Lemma quiet_dframe s t : quiet E s t -> dframe s t.
Proof. intros (H1 & X1 & X2 & X3 & X4 & X5 & X6 & X7 & X8). constructor; auto. intros d. now rewrite X3. Qed.
Lemma dframe_path d p s : dframe s (upd_dm d (dm_path p) s).
Proof.
  constructor; auto.
  - constructor; auto; intros; simpl.
    + destruct (h_if s i); reflexivity.
    + apply (fupd_cases _ _ _ _ (fun r => r = dm_path (d_path r) (dm_detail (d_detail r) (h_dm s d0)))).
      * intros ->. simpl. destruct (h_dm s d); reflexivity.
      * intros _. destruct (h_dm s d0); reflexivity.
    + destruct (h_ls s l); reflexivity.
  - intros x. simpl. apply (fupd_cases _ _ _ _ (fun r => d_detail r = d_detail (h_dm s x))); auto. intros ->. reflexivity.
  - split; reflexivity.
Qed.

Lemma quiet_dm s t : quiet E s t -> h_dm t = h_dm s.
Proof. intros (_ & _ & _ & H & _). exact H. Qed.

Lemma route_demand_run G d s : exists s', route_demand E k G d s = (s', match rpath G d s with Ok _ => Ok tt | Err e => Err e end) /\
  dframe s s' /\ (forall x, x <> d -> h_dm s' x = h_dm s x) /\
  (forall p, rpath G d s = Ok p -> d_path (h_dm s' d) = p).
Proof.
  unfold route_demand. rewrite bind_modify. set (s0 := upd_dm d (dm_path (DPaths [])) s).
  assert (F0 : dframe s s0) by apply dframe_path.
  assert (O0 : forall x, x <> d -> h_dm s0 x = h_dm s x) by (intros; simpl; apply fupd_other; auto).
  rewrite <- (rpath_rsame G d s s0) by apply F0. clearbody s0.
  assert (Fin : forall t, quiet E s0 t -> forall p, exists s', modify (upd_dm d (dm_path p)) t = (s', Ok tt) /\ dframe s s' /\
     (forall x, x <> d -> h_dm s' x = h_dm s x) /\ d_path (h_dm s' d) = p).
  { intros t Q p. exists (upd_dm d (dm_path p) t). split; [reflexivity|]. split; [|split].
    - eapply (po_trans _ dframe_preorder); [exact F0|]. eapply (po_trans _ dframe_preorder); [apply quiet_dframe; exact Q|apply dframe_path].
    - intros x Nx. simpl. rewrite fupd_other by auto. rewrite (quiet_dm _ _ Q). auto.
    - simpl. rewrite fupd_same. reflexivity. }
  assert (Bad : forall t e p, quiet E s0 t -> exists s', (t, @Err unit e) = (s', match @Err dpath e with Ok _ => Ok tt | Err e => Err e end) /\ dframe s s' /\
     (forall x, x <> d -> h_dm s' x = h_dm s x) /\ (@Err dpath e = Ok p -> d_path (h_dm s' d) = p)).
  { intros t e p Q. exists t. split; auto. split; [|split; [|discriminate]].
    - eapply (po_trans _ dframe_preorder); [exact F0|apply quiet_dframe; exact Q].
    - intros x Nx. rewrite (quiet_dm _ _ Q). auto. }
  destruct (Qm_e2e E k d) as [Q1 Q2]. unfold bind at 1. unfold rpath. specialize (Q1 s0). destruct (e2e_lsps E k d s0) as [t1 [ls|e]]; simpl in Q1 |- *.
  2:{ destruct (Bad t1 e DUnrouted Q1) as (s' & A & B & C & D). exists s'. split; [exact A|]. split; [exact B|]. split; [exact C|]. intros p X. discriminate X. }
  destruct ls as [|l ls].
  2:{ destruct (Fin t1 Q1 (DPaths (map (fun l => [ILsp l]) (l :: ls)))) as (s' & A & B & C & D). exists s'. split; [exact A|]. split; [exact B|]. split; [exact C|].
      intros p X. injection X as <-. exact D. }
  rewrite bind_gets. cbn [fst snd]. rewrite (rs_dsrc _ _ _ (proj1 Q1)), (rs_ddst _ _ _ (proj1 Q1)).
  destruct (nx_asp E G (dsrc s0 d) (ddst s0 d)) as [nps| |].
  3:{ destruct (Bad t1 NodeNotFound DUnrouted Q1) as (s' & A & B & C & D). exists s'. split; [exact A|]. split; [exact B|]. split; [exact C|]. intros p X. discriminate X. }
  2:{ destruct (Fin t1 Q1 DUnrouted) as (s' & A & B & C & D). exists s'. split; [exact A|]. split; [exact B|]. split; [exact C|]. intros p X. injection X as <-. exact D. }
  rewrite bind_gets. rewrite (rs_iface_paths E k s0 t1 (proj1 Q1)). set (ps := map (map IIf) (iface_paths k s0 G nps)).
  destruct (kind_dec k) as [Hk|Hk].
  - assert (HQ : Qm E (find_igp_shortcuts E k ps nps)) by apply Qm_shortcuts. generalize HQ. clear HQ. rewrite Hk. intros [Z1 Z2].
    unfold bind. specialize (Z1 t1). rewrite <- (Z2 s0 t1 (proj1 Q1)). destruct (find_igp_shortcuts E Flex ps nps t1) as [t2 [ps'|e]]; cbn [fst snd rbind] in *.
    + destruct (Fin t2) with (p := DPaths ps') as (s' & A & B & C & D); [eapply (po_trans _ (quiet_preorder E)); eauto|]. exists s'. split; [exact A|]. split; [exact B|]. split; [exact C|]. intros p X. injection X as <-. exact D.
    + destruct (Bad t2 e DUnrouted) as (s' & A & B & C & D); [eapply (po_trans _ (quiet_preorder E)); eauto|]. exists s'. split; [exact A|]. split; [exact B|]. split; [exact C|]. intros p X. discriminate X.
  - rewrite Hk. rewrite bind_ret. cbn [rbind]. destruct (Fin t1 Q1 (DPaths ps)) as (s' & A & B & C & D). exists s'. split; [exact A|]. split; [exact B|]. split; [exact C|].
    intros p X. injection X as <-. exact D.
Qed.

Lemma route_demand_loop G ds : forall s s', mfor ds (route_demand E k G) s = (s', Ok tt) ->
  dframe s s' /\ (forall d, In d ds -> rpath G d s = Ok (d_path (h_dm s' d))) /\ (forall d, ~ In d ds -> h_dm s' d = h_dm s d).
Proof.
  induction ds as [|d ds IH]; intros s s' H.
  - apply ret_ok in H as [-> _]. split; [apply dframe_preorder|]. split; [intros d []|auto].
  - apply mfor_cons_ok in H as (s1 & H1 & H2). destruct (route_demand_run G d s) as (s1' & R & F & O & P). rewrite H1 in R. injection R as <- R.
    destruct (rpath G d s) as [p|e] eqn:RP; [|discriminate]. specialize (P p eq_refl). destruct (IH _ _ H2) as (F2 & P2 & O2).
    split; [eapply (po_trans _ dframe_preorder); eauto|]. split.
    + intros x [<-|Hx].
      * destruct (in_dec Nat.eq_dec d ds) as [Hd|Hd].
        -- rewrite <- (P2 d Hd). rewrite (rpath_rsame G d s s1); auto. apply F.
        -- rewrite (O2 d Hd), P. exact RP.
      * rewrite <- (P2 x Hx). symmetry. apply rpath_rsame. apply F.
    + intros x Hx. simpl in Hx. rewrite O2, O; auto. 
Qed.

(** ** Traffic *)
Record tframe (s t : st) : Prop := {
  tf_same : rsame E s t; tf_path : forall d, d_path (h_dm t d) = d_path (h_dm s d);
  tf_inckt : forall i, i_inckt (h_if t i) = i_inckt (h_if s i);
  tf_sr : h_sr t = h_sr s; tf_srs : m_srs t = m_srs s; tf_ckts : m_ckts t = m_ckts s; tf_next : s_next t = s_next s; tf_rng : s_rng t = s_rng s;
  tf_sig : same_sig s t }.
Lemma tframe_preorder : preorder tframe.
Proof.
  split.
  - intros s. constructor; auto; [apply rsame_refl|split; auto].
  - intros a b c [] []. constructor; try congruence; [eapply rsame_trans; eauto|eapply same_sig_trans; eauto].
Qed.
Lemma quiet_tframe s t : quiet E s t -> tframe s t.
Proof. intros (H1 & X1 & X2 & X3 & X4 & X5 & X6 & X7 & X8). constructor; auto. { intros d. now rewrite X3. } intros i. now rewrite X1. Qed.
Lemma tframe_detail d p s : tframe s (upd_dm d (dm_detail p) s).
Proof.
  constructor; auto.
  - constructor; auto; intros; simpl.
    + destruct (h_if s i); reflexivity.
    + apply (fupd_cases _ _ _ _ (fun r => r = dm_path (d_path r) (dm_detail (d_detail r) (h_dm s d0)))).
      * intros ->. simpl. destruct (h_dm s d); reflexivity.
      * intros _. destruct (h_dm s d0); reflexivity.
    + destruct (h_ls s l); reflexivity.
  - intros x. simpl. apply (fupd_cases _ _ _ _ (fun r => d_path r = d_path (h_dm s x))); auto. intros ->. reflexivity.
  - split; reflexivity.
Qed.
Lemma tframe_traffic i f s : (forall r, exists t, f r = if_traffic t r) -> tframe s (upd_if i f s).
Proof.
  intros F. constructor; auto.
  - constructor; auto; intros; simpl.
    + apply (fupd_cases _ _ _ _ (fun r => r = if_traffic (i_traffic r) (if_inckt (i_inckt r) (h_if s i0)))).
      * intros ->. destruct (F (h_if s i)) as [t ->]. destruct (h_if s i); reflexivity.
      * intros _. destruct (h_if s i0); reflexivity.
    + destruct (h_dm s d); reflexivity.
    + destruct (h_ls s l); reflexivity.
  - intros x. simpl. apply (fupd_cases _ _ _ _ (fun r => i_inckt r = i_inckt (h_if s x))); auto. intros ->. destruct (F (h_if s i)) as [t ->]. reflexivity.
  - split; reflexivity.
Qed.
Lemma tframe_add i x : pres tframe (add_traffic i x).
Proof.
  unfold add_traffic. apply (pres_bind _ tframe_preorder); [apply (pres_gets _ tframe_preorder)|]. intros [|q].
  - apply (pres_raise _ tframe_preorder).
  - apply pres_modify. intros s. apply tframe_traffic. eauto.
Qed.
Ltac tf_go := repeat first [pres_step tframe_preorder | apply tframe_add | (apply pres_modify; intros; first [apply tframe_detail | apply tframe_traffic; eauto])].
Lemma tframe_item infos it : pres tframe (add_item_traffic k infos it).
Proof. unfold add_item_traffic. tf_go. Qed.
Lemma tframe_igp d ps : pres tframe (igp_demand_traffic k d ps).
Proof. unfold igp_demand_traffic. tf_go. apply tframe_item. Qed.
Lemma tframe_lsp d ls : pres tframe (lsp_demand_traffic k d ls).
Proof. unfold lsp_demand_traffic. tf_go. Qed.
Lemma tframe_Qm {A} (m : M A) : Qm E m -> pres tframe m.
Proof. intros [Q _] s. apply quiet_tframe. apply Q. Qed.
Lemma tframe_demand d : pres tframe (demand_traffic E k d).
Proof. unfold demand_traffic. tf_go; first [apply tframe_igp | apply tframe_lsp | apply tframe_Qm; apply Qm_min_metric]. Qed.
Lemma tframe_util : pres tframe (update_interface_utilization E k).
Proof. unfold update_interface_utilization. tf_go. apply tframe_demand. Qed.

(** ** The last stage *)
Definition stable (s s' : st) : Prop := forall i, In i (m_ifs s) -> i_failed (h_if s' i) = i_failed (h_if s i).

Lemma validate_stable s s' : env_ok E -> NoDup (m_ifs s) -> validate_model E k s = (s', Ok tt) -> stable s s' -> cframe k s s'.
Proof.
  intros HE N V St. destruct (validate_ok _ _ _ _ HE N V) as (_ & s1 & C & T). assert (F := cc_frame _ _ _ C).
  assert (VE := validate_effect E k s s' HE N V).
  assert (M : forall x, mis s (m_ckts s') x = false).
  { intros x. apply not_true_is_false. intros M. apply mis_iff in M as ([a b] & H1 & _ & H3). apply H3. simpl in *.
    assert (H1' := H1). rewrite (taken_down_ckts _ _ _ T) in H1'. destruct (cc_ends _ _ _ C a b H1') as (Ha & Hb & _).
    assert (A := proj1 (VE a) (ex_intro _ a (ex_intro _ b (conj H1 (conj (or_introl eq_refl) H3))))).
    assert (B := proj1 (VE b) (ex_intro _ a (ex_intro _ b (conj H1 (conj (or_intror eq_refl) H3))))).
    rewrite <- (St a Ha), <- (St b Hb). destruct A as [-> _], B as [-> _]. reflexivity. }
  destruct (td_rest _ _ _ _ F T) as (?&?&?&?&?&?&?&?&?&?&?&?). constructor; auto.
  intros x. destruct (td_if _ _ _ _ F T x) as (b & c & Hx & Hc). rewrite M in Hx. exists b, c. auto.
Qed.

(** ** All together *)
Record simulated (s s1 s2 s3 s4 s' : st) : Prop := {
  sm_prep : prepared s s1; sm_lsps : route_lsps E k s1 = (s2, Ok tt);
  sm_loop : mfor (m_dms s2) (route_demand E k (make_graph k s2 false 0 false)) s2 = (s3, Ok tt);
  sm_util : update_interface_utilization E k s3 = (s4, Ok tt);
  sm_val : validate_model E k s4 = (s', Ok tt) }.
Lemma simulated_ex s s' : update_simulation E k s = (s', Ok tt) -> exists s1 s2 s3 s4, simulated s s1 s2 s3 s4 s'.
Proof. intros H. destruct (update_stages s s' H) as (s1 & s2 & s3 & s4 & A & B & C & D & F). exists s1, s2, s3, s4. constructor; auto. Qed.

Section Done.
Variables s s1 s2 s3 s4 s' : st.
Hypothesis Sm : simulated s s1 s2 s3 s4 s'.

Lemma sm_12 : h_nd s2 = h_nd s /\ m_ifs s2 = m_ifs s /\ m_nds s2 = m_nds s /\ m_dms s2 = m_dms s /\ m_lsps s2 = m_lsps s /\
  (forall i, exists t q, h_if s2 i = if_traffic t (if_res q (h_if s i))) /\
  (forall l, exists p a b, h_ls s2 l = ls_setup a (ls_res b (ls_path p (h_ls s l)))) /\
  (forall d, exists p, h_dm s2 d = dm_path p (h_dm s d)) /\
  egroups E s2 = build_groups E (lsrc s2) (ldst s2) (m_lsps s2).
Proof.
  destruct (sm_prep _ _ _ _ _ _ Sm). destruct (route_lsps_frame _ _ _ (sm_lsps _ _ _ _ _ _ Sm)) as (A1 & A2 & A3 & A4 & A5 & A6 & A7 & A8 & A9 & A10 & A11 & A12 & A13).
  repeat split; try congruence.
  - intros i. specialize (A11 i). red in A11. rewrite pr_if0 in A11. destruct (mem_nat i (m_ifs s)).
    + exists (TNum 0), (i_res (h_if s2 i)). rewrite A11. reflexivity.
    + exists (i_traffic (h_if s i)), (i_res (h_if s2 i)). rewrite A11. destruct (h_if s i); reflexivity.
  - intros l. specialize (A12 l). red in A12. rewrite pr_ls0 in A12. exists (l_path (h_ls s2 l)), (l_setup (h_ls s2 l)), (l_res (h_ls s2 l)).
    rewrite A12. destruct (mem_nat l (m_lsps s)); reflexivity.
  - intros d. rewrite A3, pr_dm0. destruct (mem_nat d (m_dms s)); [eauto|]. exists (d_path (h_dm s d)). destruct (h_dm s d); reflexivity.
  - rewrite A13. unfold egroups. rewrite pr_groups0. symmetry. apply build_ext; [intros; congruence|auto|]. intros l. rewrite (A12 l). auto.
Qed.

Lemma sm_23 : dframe s2 s3.
Proof. apply (route_demand_loop _ _ _ _ (sm_loop _ _ _ _ _ _ Sm)). Qed.
Lemma sm_34 : tframe s3 s4.
Proof. eapply pres_run; [apply tframe_util|apply (sm_util _ _ _ _ _ _ Sm)]. Qed.
Lemma sm_24 : rsame E s2 s4.
Proof. eapply rsame_trans; [apply sm_23|apply sm_34]. Qed.
Lemma sm_sig24 : same_sig s2 s4.
Proof. eapply same_sig_trans; [apply (df_sig _ _ sm_23)|apply (tf_sig _ _ sm_34)]. Qed.
Lemma sm_nodup : NoDup (m_ifs s) -> NoDup (m_ifs s4).
Proof. intros N. rewrite (rs_ifs _ _ _ sm_24). destruct sm_12 as (_ & -> & _). exact N. Qed.
Lemma sm_failed4 i : i_failed (h_if s4 i) = i_failed (h_if s i).
Proof. destruct (rs_idata _ _ _ sm_24 i) as (_ & _ & _ & _ & _ & _ & -> & _). destruct sm_12 as (_ & _ & _ & _ & _ & X & _). destruct (X i) as (t & q & ->). reflexivity. Qed.
Lemma sm_stable4 : stable s s' -> stable s4 s'.
Proof. intros St i Hi. rewrite sm_failed4. apply St. rewrite (rs_ifs _ _ _ sm_24) in Hi. destruct sm_12 as (_ & X & _). now rewrite X in Hi. Qed.
Lemma sm_cframe : env_ok E -> NoDup (m_ifs s) -> stable s s' -> cframe k s4 s'.
Proof. intros HE N St. apply validate_stable; auto; [now apply sm_nodup|apply (sm_val _ _ _ _ _ _ Sm)|now apply sm_stable4]. Qed.
Lemma sm_net : env_ok E -> NoDup (m_ifs s) -> stable s s' -> same_net s2 s'.
Proof. intros HE N St. eapply same_net_trans; [eapply rsame_net; apply sm_24|eapply cframe_net; now apply sm_cframe]. Qed.

(** validation leaves nodes, demands and LSPs alone *)
Lemma sm_rest : env_ok E -> NoDup (m_ifs s) ->
  h_nd s' = h_nd s4 /\ h_sr s' = h_sr s4 /\ h_dm s' = h_dm s4 /\ h_ls s' = h_ls s4 /\ m_ifs s' = m_ifs s4 /\ m_nds s' = m_nds s4 /\
  m_dms s' = m_dms s4 /\ m_lsps s' = m_lsps s4 /\ m_srs s' = m_srs s4 /\ m_groups s' = m_groups s4.
Proof.
  intros HE N. destruct (validate_ok _ _ _ _ HE (sm_nodup N) (sm_val _ _ _ _ _ _ Sm)) as (_ & s0 & C & T).
  destruct (td_rest _ _ _ _ (cc_frame _ _ _ C) T) as (?&?&?&?&?&?&?&?&?&?&?&?). repeat split; auto.
Qed.

Lemma sm_demand d : env_ok E -> NoDup (m_ifs s) -> In d (m_dms s) -> 
  rpath (make_graph k s2 false 0 false) d s2 = Ok (d_path (h_dm s' d)).
Proof.
  intros HE N Hd. destruct (route_demand_loop _ _ _ _ (sm_loop _ _ _ _ _ _ Sm)) as (_ & X & _). rewrite X.
  - destruct (sm_rest HE N) as (_ & _ & -> & _). f_equal. symmetry. apply (tf_path _ _ sm_34).
  - destruct sm_12 as (_ & _ & _ & -> & _). exact Hd.
Qed.

(** names at the end and when the demands are routed *)
Lemma sm_from d : env_ok E -> NoDup (m_ifs s) -> dmd_from s' d = dsrc s2 d.
Proof.
  intros HE N. destruct (sm_rest HE N) as (A & _ & B & _). unfold dmd_from. rewrite A, B. apply (rs_dsrc _ _ _ sm_24).
Qed.
Lemma sm_to d : env_ok E -> NoDup (m_ifs s) -> dmd_to s' d = ddst s2 d.
Proof.
  intros HE N. destruct (sm_rest HE N) as (A & _ & B & _). unfold dmd_to. rewrite A, B. apply (rs_ddst _ _ _ sm_24).
Qed.
Lemma sm_lfrom d : env_ok E -> NoDup (m_ifs s) -> lsp_from s' d = lsrc s2 d.
Proof.
  intros HE N. destruct (sm_rest HE N) as (A & _ & _ & B & _). unfold lsp_from. rewrite A, B. apply (rs_lsrc _ _ _ sm_24).
Qed.
Lemma sm_lto d : env_ok E -> NoDup (m_ifs s) -> lsp_to s' d = ldst s2 d.
Proof.
  intros HE N. destruct (sm_rest HE N) as (A & _ & _ & B & _). unfold lsp_to. rewrite A, B. apply (rs_ldst _ _ _ sm_24).
Qed.
Lemma sm_lpath l : env_ok E -> NoDup (m_ifs s) -> l_path (h_ls s' l) = l_path (h_ls s2 l).
Proof. intros HE N. destruct (sm_rest HE N) as (_ & _ & _ & B & _). rewrite B. apply (rs_path _ _ _ sm_24). Qed.
Lemma sm_lsps' : env_ok E -> NoDup (m_ifs s) -> m_lsps s' = m_lsps s2 /\ m_dms s' = m_dms s2 /\ m_nds s' = m_nds s2 /\ h_nd s' = h_nd s2.
Proof.
  intros HE N. destruct (sm_rest HE N) as (-> & _ & _ & _ & _ & -> & -> & -> & _). pose proof sm_24 as R.
  split; [apply R|]. split; [apply R|]. split; [apply R|].
  set (K := fun a b : st => h_nd b = h_nd a). assert (HK : preorder K) by (split; unfold K; [auto|intros; congruence]).
  assert (X2 : K s2 s3).
  { refine (pres_run _ _ _ _ _ _ (sm_loop _ _ _ _ _ _ Sm)). apply (pres_mfor _ HK). intros d _. apply pres_route_demand; auto; unfold c_ls, c_dm, c_if, c_groups; intros; reflexivity. }
  assert (X3 : K s3 s4).
  { refine (pres_run _ _ _ _ _ _ (sm_util _ _ _ _ _ _ Sm)). apply pres_update_interface_utilization; auto; unfold c_ls, c_dm, c_if, c_groups; intros; reflexivity. }
  exact (po_trans _ HK _ _ _ X2 X3).
Qed.
End Done.

(** When nothing half-failed is around, update_simulation changes no failure state. *)
Lemma update_stable s s' : env_ok E -> NoDup (m_ifs s) -> cids_set k s -> ends_agree k s -> update_simulation E k s = (s', Ok tt) -> stable s s'.
Proof.
  intros HE N CS A H. destruct (simulated_ex _ _ H) as (s1 & s2 & s3 & s4 & Sm).
  assert (N4 := sm_nodup _ _ _ _ _ _ Sm N). pose proof (sm_24 _ _ _ _ _ _ Sm) as R. destruct (sm_12 _ _ _ _ _ _ Sm) as (B1 & B2 & _ & _ & _ & B3 & _).
  assert (X : forall i, i_cid (h_if s4 i) = i_cid (h_if s i) /\ i_failed (h_if s4 i) = i_failed (h_if s i) /\ loc s4 i = loc s i /\ rem s4 i = rem s i).
  { intros i. unfold loc, rem. rewrite !(rs_nd _ _ _ R), B1. destruct (rs_idata _ _ _ R i) as (_ & _ & _ & -> & -> & -> & -> & _). destruct (B3 i) as (t & q & ->). auto. }
  assert (I : m_ifs s4 = m_ifs s) by (rewrite (rs_ifs _ _ _ R); auto).
  assert (CF : cframe k s4 s').
  { pose proof (sm_val _ _ _ _ _ _ Sm) as V. assert (C0 := validate_agree E k s4 HE N4). rewrite V in C0. apply C0.
    - intros Hk i Hi. rewrite I in Hi. destruct (X i) as [-> _]. now apply CS.
    - intros i j Hi Hj (L1 & L2 & L3). rewrite I in Hi, Hj. destruct (X i) as (C1 & F1 & U1 & V1), (X j) as (C2 & F2 & U2 & V2).
      rewrite F1, F2. apply A; auto. red. rewrite <- U1, <- V1, <- U2, <- V2, <- C1, <- C2. auto. }
  intros i Hi. destruct (cf_data _ _ _ CF i) as (_ & _ & _ & _ & _ & _ & -> & _). apply X.
Qed.

(** ** Paths of IGP-routed demands *)
Lemma considered_usable s i : considered s false 0 false i = true <-> usable s i.
Proof.
  unfold considered, usable. simpl. rewrite andb_true_r, andb_true_iff, negb_true_iff, reservable_ge. reflexivity.
Qed.

(** The LSPs considered for a demand *)
Lemma sm_group s s1 s2 s3 s4 s' d : simulated s s1 s2 s3 s4 s' -> env_ok E -> NoDup (m_ifs s) -> texts_distinct s -> In d (m_dms s) ->
  dict_get (pair_key (dsrc s2 d) (ddst s2 d)) (egroups E s2) =
  match filter (fun l => String.eqb (lsrc s2 l) (dsrc s2 d) && String.eqb (ldst s2 l) (ddst s2 d)) (m_lsps s2) with [] => None | l => Some l end.
Proof.
  intros Sm HE N TD Hd. destruct (sm_12 _ _ _ _ _ _ Sm) as (A1 & A2 & A3 & A4 & A5 & A6 & A7 & A8 & ->).
  assert (L1 : forall l, lsrc s2 l = lsp_from s l) by (intros l; unfold lsrc, lsp_from; rewrite A1; destruct (A7 l) as (p & a & b & ->); reflexivity).
  assert (L2 : forall l, ldst s2 l = lsp_to s l) by (intros l; unfold ldst, lsp_to; rewrite A1; destruct (A7 l) as (p & a & b & ->); reflexivity).
  assert (D1 : dsrc s2 d = dmd_from s d) by (unfold dsrc, dmd_from; rewrite A1; destruct (A8 d) as (p & ->); reflexivity).
  assert (D2 : ddst s2 d = dmd_to s d) by (unfold ddst, dmd_to; rewrite A1; destruct (A8 d) as (p & ->); reflexivity).
  assert (I1 : forall a, In a (map (lsrc s2) (m_lsps s2)) -> In a (from_names s)).
  { intros a Ha. rewrite A5 in Ha. unfold from_names. apply in_or_app. left. apply in_map_iff in Ha as (l & <- & Hl). rewrite L1. now apply in_map. }
  assert (I2 : forall a, In a (map (ldst s2) (m_lsps s2)) -> In a (to_names s)).
  { intros a Ha. rewrite A5 in Ha. unfold to_names. apply in_or_app. left. apply in_map_iff in Ha as (l & <- & Hl). rewrite L2. now apply in_map. }
  rewrite group_get; auto.
  - intros a a' b b' Ha Ha' Hb Hb'. apply TD; auto.
  - intros a' b' Ha' Hb'. apply TD; auto; rewrite ?D1, ?D2; [unfold from_names|unfold to_names]; apply in_or_app; right; now apply in_map.
Qed.

Lemma e2e_none d s : snd (e2e_lsps E k d s) = 
  match dict_get (pair_key (dsrc s d) (ddst s d)) (egroups E s) with
  | None => Ok []
  | Some cands =>
      match filter (lsp_routed s) cands with
      | [] => Ok []
      | routed => rbind (rmap (emet E k s) routed) (fun ms => rbind (py_min ms) (fun m =>
                    rfilter (fun l => rbind (emet E k s l) (fun m' => Ok (mval_eqb m' m))) routed))
      end
  end.
Proof.
  unfold e2e_lsps.
  assert (QF : forall m l, Qm E (m' <- effective_metric E k l ;; ret (mval_eqb m' m))) by (intros; apply Qm_bind; [apply Qm_effective|intros; apply Qm_ret]).
  assert (QD : forall g, Qm E (key <- gets (fun s => pair_key (dsrc s d) (ddst s d)) ;;
    match dict_get key g with None => ret [] | Some cands => routed <- gets (fun s => filter (lsp_routed s) cands) ;;
     match routed with [] => ret [] | _ => ms <- mmap (effective_metric E k) routed ;; match py_min ms with Err e => raise e | Ok m => mfilter (fun l => m' <- effective_metric E k l ;; ret (mval_eqb m' m)) routed end end end)).
  { intros g. apply Qm_bind; [apply Qm_gets; intros a b H; now rewrite (rs_dsrc _ _ _ H), (rs_ddst _ _ _ H)|]. intros key.
    destruct (dict_get key g); [|apply Qm_ret]. apply Qm_bind; [apply Q_routed|]. intros [|x l0]; [apply Qm_ret|].
    apply Qm_bind; [apply Qm_mmap; intros; apply Qm_effective|]. intros ms. destruct (py_min ms); [|apply Qm_raise]. apply Qm_mfilter. intros; apply QF. }
  rewrite (Qv_bind E (parallel_lsp_groups E)); [|apply Qm_groups|exact QD]. rewrite Qv_groups. cbn [rbind]. rewrite bind_gets.
  destruct (dict_get _ _) as [cands|]; [|reflexivity]. rewrite bind_gets. destruct (filter (lsp_routed s) cands) as [|x l0]; [reflexivity|].
  rewrite (Qv_bind E (mmap (effective_metric E k) (x :: l0))).
  - rewrite (Qv_mmap E); [|intros; apply Qm_effective]. rewrite (rmap_ext _ (emet E k s)); [|intros; apply Qv_effective].
    destruct (rmap (emet E k s) (x :: l0)) as [ms|e]; cbn [rbind]; auto. destruct (py_min ms) as [m|e]; cbn [rbind]; auto.
    rewrite (Qv_mfilter E); [|intros; apply QF]. apply rfilter_ext. intros y _. rewrite (Qv_bind E); [|apply Qm_effective|intros; apply Qm_ret].
    rewrite Qv_effective. reflexivity.
  - apply Qm_mmap; intros; apply Qm_effective.
  - intros ms. destruct (py_min ms); [|apply Qm_raise]. apply Qm_mfilter. intros; apply QF.
Qed.
End Stages.
