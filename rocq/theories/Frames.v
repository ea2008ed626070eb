(** Frames.v - which parts of the state each simulation function can change.
    Every lemma says: a preorder that is closed under the listed kinds of update
    relates the state before to the state after, whether the call returns or
    raises. *)
From Verif Require Import Base Graph Objects Sim Spec MonadProofs.

Definition if_ex_tr (r r' : iface) : Prop := r' = if_traffic (i_traffic r') (if_res (i_res r') r).

Section Frames.
Variable E : env.
Variable k : kind.
Variable R : st -> st -> Prop.
Hypothesis HR : preorder R.

Ltac upd_tac :=
  apply (pres_modify); intros;
  match goal with
  | H : c_ls _ ?l R |- R _ (upd_ls ?l _ _) => apply H; intros []; reflexivity
  | H : forall l, c_ls _ l R |- R _ (upd_ls ?l _ _) => apply H; intros []; reflexivity
  | H : c_dm _ ?l R |- R _ (upd_dm ?l _ _) => apply H; intros []; reflexivity
  | H : forall l, c_dm _ l R |- R _ (upd_dm ?l _ _) => apply H; intros []; reflexivity
  | H : c_if _ ?l R |- R _ (upd_if ?l _ _) => apply H; intros []; reflexivity
  | H : forall l, c_if _ l R |- R _ (upd_if ?l _ _) => apply H; intros []; reflexivity
  | H : c_groups R |- _ => apply H
  | H : c_ckts R |- _ => apply H
  | H : c_rng R |- _ => apply H
  end.
Ltac go := repeat (first [pres_step HR | upd_tac | assumption]).

(** *** metrics and groups *)
Section Metric.
Hypothesis Hmm : forall l, c_ls ls_ex_mm l R.

Lemma pres_get_manual_metric l : pres R (get_manual_metric l).
Proof. unfold get_manual_metric. go. Qed.

Lemma pres_set_manual_metric l v : pres R (set_manual_metric l v).
Proof. unfold set_manual_metric. go. Qed.

Lemma pres_effective_metric l : pres R (effective_metric E k l).
Proof. unfold effective_metric. go; apply pres_get_manual_metric. Qed.

Hypothesis Hg : c_groups R.

Lemma pres_parallel_lsp_groups : pres R (parallel_lsp_groups E).
Proof. unfold parallel_lsp_groups. go. Qed.

Lemma pres_min_metric_lsps key : pres R (min_metric_lsps E k key).
Proof. unfold min_metric_lsps. go; first [apply pres_parallel_lsp_groups | apply pres_effective_metric]. Qed.

Lemma pres_first_lsps src ds : pres R (first_lsps E k src ds).
Proof. induction ds; simpl; go. apply pres_min_metric_lsps. Qed.

Lemma pres_path_lsps full rest : forall sk acc, pres R (path_lsps E k full rest sk acc).
Proof.
  induction rest; simpl; intros; go; auto. apply pres_first_lsps.
Qed.

Lemma pres_last_path_lsps nps : forall acc, pres R (last_path_lsps E k nps acc).
Proof. induction nps; simpl; intros; go; auto. apply pres_path_lsps. Qed.

Lemma pres_path_metric p : pres R (path_metric E k p).
Proof. induction p as [|[i|l] p IH]; simpl; go. apply pres_effective_metric. Qed.

Lemma pres_inspect_metrics ps : pres R (inspect_metrics E k ps).
Proof. unfold inspect_metrics. go. apply pres_path_metric. Qed.

Lemma pres_find_igp_shortcuts ps nps : pres R (find_igp_shortcuts E k ps nps).
Proof. unfold find_igp_shortcuts. go; first [apply pres_last_path_lsps|apply pres_inspect_metrics]. Qed.

Lemma pres_e2e_lsps d : pres R (e2e_lsps E k d).
Proof. unfold e2e_lsps. go; first [apply pres_parallel_lsp_groups | apply pres_effective_metric]. Qed.

Lemma pres_route_demand G d : c_dm dm_ex_path d R -> pres R (route_demand E k G d).
Proof. intros H. pose proof pres_find_igp_shortcuts as HF. unfold route_demand. go; first [apply pres_e2e_lsps|apply HF]. Qed.

Lemma pres_traffic_on_lsp l : pres R (traffic_on_lsp E k l).
Proof. unfold traffic_on_lsp. go; first [apply pres_parallel_lsp_groups | apply pres_effective_metric]. Qed.

Lemma pres_add_traffic i x : c_if if_ex_traffic i R -> pres R (add_traffic i x).
Proof. intros H. unfold add_traffic. go. Qed.

Hypothesis Ht : forall i, c_if if_ex_traffic i R.

Lemma pres_add_item_traffic infos it : pres R (add_item_traffic k infos it).
Proof. unfold add_item_traffic. go; apply pres_add_traffic; auto. Qed.

Lemma pres_igp_demand_traffic d ps : c_dm dm_ex_detail d R -> pres R (igp_demand_traffic k d ps).
Proof. intros H. unfold igp_demand_traffic. go. apply pres_add_item_traffic. Qed.

Lemma pres_lsp_demand_traffic d ls : c_dm dm_ex_detail d R -> pres R (lsp_demand_traffic k d ls).
Proof. intros H. unfold lsp_demand_traffic. go; apply pres_add_traffic; auto. Qed.

Lemma pres_demand_traffic d : c_dm dm_ex_detail d R -> pres R (demand_traffic E k d).
Proof.
  intros H. unfold demand_traffic.
  go; first [apply pres_min_metric_lsps|apply pres_igp_demand_traffic|apply pres_lsp_demand_traffic]; auto.
Qed.

Lemma pres_update_interface_utilization : (forall d, c_dm dm_ex_detail d R) -> pres R (update_interface_utilization E k).
Proof. intros H. unfold update_interface_utilization. go. apply pres_demand_traffic; auto. Qed.

Lemma pres_route_demands : (forall d, c_dm dm_ex_path d R) -> (forall d, c_dm dm_ex_detail d R) -> pres R (route_demands E k).
Proof.
  intros H1 H2. unfold route_demands. go.
  - apply pres_route_demand; auto.
  - apply pres_update_interface_utilization; auto.
Qed.
End Metric.

(** *** signalling *)
Section Sig.
Hypothesis Hres : forall i, c_if if_ex_res i R.
Hypothesis Hrng : c_rng R.

Lemma pres_random_choice {A} (d : A) l : pres R (random_choice E d l).
Proof. unfold random_choice. go. Qed.
Lemma pres_choose_path c : pres R (choose_path E c).
Proof. unfold choose_path. go; apply pres_random_choice. Qed.
Lemma pres_add_reserved i x : pres R (add_reserved i x).
Proof. unfold add_reserved. go. Qed.

Lemma pres_set_setup_bw l x : c_ls ls_ex_sig l R -> pres R (set_setup_bw l x).
Proof. intros H. unfold set_setup_bw. go. Qed.
Lemma pres_add_lsp_path_data l p : c_ls ls_ex_sig l R -> pres R (add_lsp_path_data l p).
Proof. intros H. unfold add_lsp_path_data. go. Qed.

Lemma pres_determine_lsp l t : c_ls ls_ex_sig l R -> pres R (determine_lsp E k l t).
Proof.
  intros H. unfold determine_lsp.
  go; first [apply pres_set_setup_bw; assumption|apply pres_choose_path|apply pres_add_lsp_path_data; assumption|apply pres_add_reserved].
Qed.

Lemma pres_find_rsvp_path l bw : c_ls ls_ex_sig l R -> pres R (find_rsvp_path_w_bw E k l bw).
Proof.
  intros H. unfold find_rsvp_path_w_bw.
  go; first [apply pres_set_setup_bw; assumption|apply pres_random_choice].
Qed.

Lemma pres_optimize_lsp bw l : c_ls ls_ex_sig l R -> pres R (optimize_lsp E k bw l).
Proof.
  intros H. unfold optimize_lsp. go; first [apply pres_find_rsvp_path; assumption|apply pres_add_reserved].
Qed.

Hypothesis Hsig : forall l, c_ls ls_ex_sig l R.
Lemma pres_route_lsp_group dg g : pres R (route_lsp_group E k dg g).
Proof.
  unfold route_lsp_group. go; first [apply pres_determine_lsp; auto|apply pres_optimize_lsp; auto].
Qed.

Lemma pres_route_lsps : c_groups R -> pres R (route_lsps E k).
Proof.
  intros Hg. unfold route_lsps. go; first [apply pres_parallel_lsp_groups; assumption|apply pres_route_lsp_group].
Qed.
End Sig.

(** *** validation *)
Section Val.
Hypothesis Hin : forall i, c_if if_ex_inckt i R.
Hypothesis Hcid : k = Perf -> forall i, c_if if_ex_cid i R.
Hypothesis Hck : c_ckts R.

Lemma pres_pair_edges es : forall n acc, pres R (pair_edges k es n acc).
Proof.
  assert (Hc : forall a b n, pres R (match k with Flex => ret tt
    | Perf => modify (upd_if a (if_cid (CInt n))) ;;; modify (upd_if b (if_cid (CInt n))) end)).
  { intros. destruct k; [go|]. specialize (Hcid eq_refl).
    apply (pres_bind _ HR); [|intro]; apply pres_modify; intros; apply Hcid; intros []; reflexivity. }
  induction es as [|e es IH]; simpl; intros; [go|].
  apply (pres_bind _ HR); [go|]. intros [a b].
  apply (pres_bind _ HR); [go|]. intros [|]; [|apply IH].
  repeat (apply (pres_bind _ HR); [|intro]); try apply Hc; try apply IH; upd_tac.
Qed.

Lemma pres_make_circuits : pres R (make_circuits E k).
Proof. unfold make_circuits. go. apply pres_pair_edges. Qed.

Hypothesis Hdown : forall i, c_if if_ex_down i R.
Lemma pres_set_failed_true i : pres R (iface_set_failed i true).
Proof. unfold iface_set_failed. go. Qed.

Lemma pres_check_circuit c : pres R (check_circuit c).
Proof. unfold check_circuit. go; apply pres_set_failed_true. Qed.

Lemma pres_validate_model : pres R (validate_model E k).
Proof. unfold validate_model. go; first [apply pres_make_circuits|apply pres_check_circuit]. Qed.
End Val.

(** *** the whole simulation *)
Lemma pres_update_simulation_val :
  (forall l, c_ls ls_ex_mm l R) -> (forall l, c_ls ls_ex_sig l R) -> c_groups R -> c_rng R ->
  (forall i, c_if if_ex_tr i R) -> pres R (validate_model E k) ->
  (forall d, c_dm dm_ex_path d R) -> (forall d, c_dm dm_ex_detail d R) ->
  pres R (update_simulation E k).
Proof.
  intros Hmm Hsig Hg Hr Htr Hval Hp Hdt.
  assert (Hres : forall i, c_if if_ex_res i R).
  { intros i f s Hf. apply Htr. intros r. specialize (Hf r). unfold if_ex_res, if_ex_tr in *. rewrite Hf.
    destruct r; reflexivity. }
  assert (Ht : forall i, c_if if_ex_traffic i R).
  { intros i f s Hf. apply Htr. intros r. specialize (Hf r). unfold if_ex_traffic, if_ex_tr in *. rewrite Hf.
    destruct r; reflexivity. }
  unfold update_simulation.
  go.
  all: first
    [ apply pres_route_lsps; assumption
    | apply pres_route_demands; assumption
    | idtac ].
Qed.

Lemma pres_update_simulation :
  (forall l, c_ls ls_ex_mm l R) -> (forall l, c_ls ls_ex_sig l R) -> c_groups R -> c_ckts R -> c_rng R ->
  (forall i, c_if if_ex_tr i R) -> (forall i, c_if if_ex_inckt i R) -> (k = Perf -> forall i, c_if if_ex_cid i R) ->
  (forall i, c_if if_ex_down i R) ->
  (forall d, c_dm dm_ex_path d R) -> (forall d, c_dm dm_ex_detail d R) ->
  pres R (update_simulation E k).
Proof.
  intros Hmm Hsig Hg Hc Hr Htr Hin Hcid Hd Hp Hdt. apply pres_update_simulation_val; auto.
  apply pres_validate_model; assumption.
Qed.

End Frames.
