(** PropertiesPrint.v - the tables and lists that a model prints. *)
From Verif Require Import Base Graph Objects Sim Api Build Spec Print SpecPrint Nets MonadProofs PrintProofs.

(** ** C112 The printed tables say what is the case *)
Theorem C112_node_table s : node_words one_word s ->
  map words (display_node_status s) = ["Node"; "Failed"] :: map (fun n => [nd_name s n; failed_word (n_failed (h_nd s n))]) (m_nds s).
Proof.
  intros H. unfold display_node_status. cbn [map]. f_equal. rewrite map_map. apply map_ext_in. intros n Hn. rewrite row_words; [reflexivity|].
  intros c [<-|[<-|[]]]; [exact (H n Hn)|apply failed_one].
Qed.
Print Assumptions C112_node_table.
Theorem C112_interface_table s : iface_words one_word s ->
  map words (display_interface_status s) = ["Node"; "Interface"; "Remote"; "Node"; "Failed"] ::
    map (fun i => [loc s i; i_name (h_if s i); rem s i; failed_word (i_failed (h_if s i))]) (m_ifs s).
Proof.
  intros H. unfold display_interface_status. cbn [map]. f_equal. rewrite map_map. apply map_ext_in. intros i Hi. rewrite row_words; [reflexivity|].
  destruct (H i Hi) as (A & B & C). intros c [<-|[<-|[<-|[<-|[]]]]]; auto. apply failed_one.
Qed.
Print Assumptions C112_interface_table.
Theorem C112_traffic_table repr s : (forall q, one_word (repr q)) -> iface_words one_word s ->
  map words (display_interfaces_traffic repr s) = ["Node"; "Interface"; "Remote"; "Node"; "Traffic"] ::
    map (fun i => [loc s i; i_name (h_if s i); rem s i; match i_traffic (h_if s i) with TNum q => repr q | TDown => "'Down'" end]) (m_ifs s).
Proof.
  intros R H. unfold display_interfaces_traffic. cbn [map]. f_equal. rewrite map_map. apply map_ext_in. intros i Hi. rewrite row_words.
  - unfold ilocal, iremote, loc, rem, repr_traffic. destruct (i_traffic (h_if s i)); reflexivity.
  - destruct (H i Hi) as (A & B & C). intros c [<-|[<-|[<-|[<-|[]]]]]; auto. unfold repr_traffic. destruct (i_traffic (h_if s i)); auto.
    split; [discriminate|]. simpl. repeat split; discriminate.
Qed.
Print Assumptions C112_traffic_table.

(** Names of at most 12 letters: the columns of both tables are in line with the headings *)
Theorem C112_columns s : node_words (fun x => String.length x <= 12)%nat s -> iface_words (fun x => String.length x <= 12)%nat s ->
  (forall n, In n (m_nds s) -> exists line, In line (display_node_status s) /\ at_column line 0 (nd_name s n) /\ at_column line 13 (failed_word (n_failed (h_nd s n)))) /\
  (forall i, In i (m_ifs s) -> exists line, In line (display_interface_status s) /\
     at_column line 0 (loc s i) /\ at_column line 13 (i_name (h_if s i)) /\ at_column line 26 (rem s i) /\ at_column line 39 (failed_word (i_failed (h_if s i)))) /\
  (exists line, hd_error (display_node_status s) = Some line /\ at_column line 0 "Node" /\ at_column line 13 "Failed") /\
  (exists line, hd_error (display_interface_status s) = Some line /\
     at_column line 0 "Node" /\ at_column line 13 "Interface" /\ at_column line 26 "Remote Node" /\ at_column line 39 "Failed").
Proof.
  intros H1 H2. split; [|split; [|split]].
  - intros n Hn. eexists. split; [right; apply in_map; exact Hn|].
    assert (X : forall c, In c [n_name (h_nd s n); str_bool (n_failed (h_nd s n))] -> (String.length c <= 12)%nat) by (intros c [<-|[<-|[]]]; [exact (H1 n Hn)|apply failed_short]).
    split; [exact (row_column _ X 0 _ eq_refl)|exact (row_column _ X 1 _ eq_refl)].
  - intros i Hi. eexists. split; [right; apply in_map; exact Hi|]. destruct (H2 i Hi) as (A & B & C).
    assert (X : forall c, In c [ilocal s i; i_name (h_if s i); iremote s i; str_bool (i_failed (h_if s i))] -> (String.length c <= 12)%nat)
      by (intros c [<-|[<-|[<-|[<-|[]]]]]; auto; apply failed_short).
    split; [exact (row_column _ X 0 _ eq_refl)|]. split; [exact (row_column _ X 1 _ eq_refl)|]. split; [exact (row_column _ X 2 _ eq_refl)|exact (row_column _ X 3 _ eq_refl)].
  - eexists. split; [reflexivity|]. split; [exists ""|exists "Node         "]; eexists; split; reflexivity.
  - eexists. split; [reflexivity|]. split; [exists ""|split; [exists "Node         "|split; [exists "Node         Interface    "|exists "Node         Interface    Remote Node  "]]]; eexists; split; reflexivity.
Qed.
Print Assumptions C112_columns.

(** The list of demands: routed demands with all their paths *)
Theorem C112_demands s : (forall d, In d (m_dms s) -> exists ps, d_path (h_dm s d) = DPaths ps) ->
  exists es, read_demands (display_demand_paths s) = (None, [], es) /\
    Forall2 (fun d e => en_key e = (dsrc s d, ddst s d, d_name (h_dm s d)) /\ d_path (h_dm s d) = DPaths (en_paths e) /\ en_said e = Some (List.length (en_paths e))) (m_dms s) es.
Proof.
  intros H. eexists. split; [exact (read_all s (m_dms s) H)|]. revert H. induction (m_dms s) as [|d ds IH]; intros H; constructor.
  - simpl. destruct (H d (or_introl eq_refl)) as (ps & E). rewrite E. auto.
  - apply IH. intros x Hx. apply H. now right.
Qed.
Print Assumptions C112_demands.

Definition routed1 : st := fst (update_simulation E0 Flex (net [nd "A"; nd "B"; nd "C"; nd "D"] [itf "ab" 1 100 0 1 1; itf "ba" 1 100 1 0 1; itf "bc" 1 100 1 2 3; itf "cb" 1 100 2 1 3; itf "ac" 2 100 0 2 4; itf "ca" 2 100 2 0 4]
  [dmd 0 2 12 "d0"; dmd 1 0 6 "d1"] [lsp_ 1 0 "l0"] [])).
Example C112_example : node_words one_word routed1 /\ iface_words one_word routed1 /\ node_words (fun x => String.length x <= 12)%nat routed1 /\ iface_words (fun x => String.length x <= 12)%nat routed1 /\
  (forall q, one_word ((fun _ : Q => "1.0") q)) /\ (forall d, In d (m_dms routed1) -> exists ps, d_path (h_dm routed1 d) = DPaths ps) /\
  nth 2 (display_node_status (fst (fail_node "B" routed1))) "" = "B            True        " /\
  nth 4 (display_interface_status (fst (fail_node "B" routed1))) "" = "C            cb           B            True        " /\
  snd (read_demands (display_demand_paths routed1)) =
    [mkEntry ("A", "C", "d0") (Some 2%nat) [[IIf 0; IIf 2]; [IIf 4]]%nat; mkEntry ("B", "A", "d1") (Some 1%nat) [[ILsp 0]]%nat].
Proof.
  split; [intros n H; vm_compute in H; in_tac; vm_compute; (split; [discriminate|]); split; (discriminate || exact I)|].
  split; [intros n H; vm_compute in H; in_tac; vm_compute; (split; [|split]); (split; [discriminate|]); repeat (split; [discriminate|]); exact I|].
  split; [intros n H; vm_compute in H; in_tac; vm_compute; lia|].
  split; [intros n H; vm_compute in H; in_tac; vm_compute; repeat split; lia|].
  split; [intros q; split; [discriminate|]; simpl; repeat (split; [discriminate|]); exact I|].
  split; [intros d H; vm_compute in H; in_tac; eexists; vm_compute; reflexivity|].
  split; [vm_compute; reflexivity|]. split; [vm_compute; reflexivity|]. vm_compute. reflexivity.
Qed.

(** A demand without a path is listed with eight paths: the letters of "Unrouted" *)
Theorem C112_unrouted_refuted :
  ~ (forall E k s s' n ps es e, env_ok E -> update_simulation E k s = (s', Ok tt) -> read_demands (display_demand_paths s') = (n, ps, es) ->
       In e es -> en_said e = Some (List.length (en_paths e))).
Proof.
  intros H. assert (R : exists es, read_demands (display_demand_paths flex2) = (None, [], es) /\ In (mkEntry ("A", "D", "d2") (Some 8%nat) []) es) by (clear; eexists; split; [vm_compute; reflexivity|]; simpl; auto).
  destruct R as (es & R & I). specialize (H E0 Flex flex1 flex2 _ _ _ _ E0_ok (run_split _ _ flex1_runs) R I). discriminate H.
Qed.
Print Assumptions C112_unrouted_refuted.
(** Longer names push the columns aside *)
Theorem C112_long_names_refuted : ~ (forall s n, In n (m_nds s) -> exists line, In line (display_node_status s) /\ at_column line 0 (nd_name s n) /\ at_column line 13 (failed_word (n_failed (h_nd s n)))).
Proof.
  intros H. destruct (H (net [nd "Amsterdam-East"] [] [] [] []) 0%nat (or_introl eq_refl)) as (line & I & _ & (p & r & X & L)). destruct I as [<-|[<-|[]]]; vm_compute in X.
  - do 13 (destruct p as [|? p]; [discriminate L|]; injection X as _ X). destruct p; [|discriminate L]. discriminate X.
  - do 13 (destruct p as [|? p]; [discriminate L|]; injection X as _ X). destruct p; [|discriminate L]. discriminate X.
Qed.
Print Assumptions C112_long_names_refuted.
(** and names that end in a blank look like others *)
Theorem C112_blank_names_refuted : ~ (forall s t, keys_unique s -> keys_unique t -> display_node_status s = display_node_status t -> map (nd_name s) (m_nds s) = map (nd_name t) (m_nds t)).
Proof.
  intros H. specialize (H (net [nd "A"] [] [] [] []) (net [nd "A "] [] [] [] [])). assert (X : forall a, keys_unique (net [nd a] [] [] [] [])) by (clear; intros a; unfold keys_unique; repeat split; vm_compute; nodup_tac).
  specialize (H (X _) (X _) eq_refl). vm_compute in H. discriminate H.
Qed.
Print Assumptions C112_blank_names_refuted.
