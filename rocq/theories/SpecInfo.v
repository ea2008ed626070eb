(** SpecInfo.v - definitions used to state what the simple queries return (C60,
    C61, C66) and what calls that add or edit objects do (C65). *)
From Verif Require Import Base Graph Objects Sim Api Spec.

(** interface [i] is the new interface that entry [x] asks for *)
Definition made_from (s : st) (i : nat) (x : if_info) : Prop :=
  let r := h_if s i in
  i_name r = in_name x /\ i_cost r = in_cost x /\ i_cap r = in_cap x /\ loc s i = in_node x /\ rem s i = in_remote x /\
  i_cid r = in_cid x /\ i_traffic r = TNum 0 /\ i_failed r = false /\ i_res r = 0%Q /\ i_srlgs r = [] /\
  i_rsvp r = true /\ i_pct r = 100%Q /\ i_inckt r = false.
(** ... or one that compares equal to it *)
Definition stands_for (s : st) (i : nat) (x : if_info) : Prop :=
  i_name (h_if s i) = in_name x /\ loc s i = in_node x /\ rem s i = in_remote x /\ (i_cap (h_if s i) == in_cap x)%Q /\ i_cid (h_if s i) = in_cid x.

Definition blank_node (r : node) : Prop :=
  n_failed r = false /\ n_lat r = 0%Q /\ n_lon r = 0%Q /\ n_srlgs r = [] /\ n_shortcuts r = false.

(** [s1] is [s] with the interfaces and nodes that the entries [l] ask for. *)
Record ifs_added (l : list if_info) (s s1 : st) : Prop := {
  ia_old : forall y, (y < s_next s)%nat -> h_if s1 y = h_if s y /\ h_nd s1 y = h_nd s y;
  ia_rest : m_dms s1 = m_dms s /\ m_lsps s1 = m_lsps s /\ m_srs s1 = m_srs s /\ m_ckts s1 = m_ckts s /\ m_groups s1 = m_groups s /\
    h_dm s1 = h_dm s /\ h_ls s1 = h_ls s /\ h_sr s1 = h_sr s;
  ia_ifs : exists new, m_ifs s1 = (m_ifs s ++ new)%list /\ NoDup new /\ forall i, In i new -> ~ In i (m_ifs s) /\
    (exists x, In x l /\ made_from s1 i x) /\ ~ In (i_node (h_if s1 i)) (m_nds s1) /\ ~ In (i_rem (h_if s1 i)) (m_nds s1);
  ia_all : forall x, In x l -> exists i, In i (m_ifs s1) /\ stands_for s1 i x;
  ia_nds : exists new, m_nds s1 = (m_nds s ++ new)%list /\ NoDup (map (nd_name s1) new) /\
    (forall n, In n new -> ~ In n (m_nds s) /\ blank_node (h_nd s1 n)) /\
    forall nm, In nm (map (nd_name s1) new) <->
      (exists x, In x l /\ (nm = in_node x \/ nm = in_remote x)) /\ ~ exists n, In n (m_nds s) /\ nd_name s n = nm }.

(** all of the interface but its name / cost / capacity *)
Definition but_name (r r' : iface) : Prop :=
  i_cost r' = i_cost r /\ i_cap r' = i_cap r /\ i_node r' = i_node r /\ i_rem r' = i_rem r /\ i_cid r' = i_cid r /\ i_traffic r' = i_traffic r /\
  i_failed r' = i_failed r /\ i_res r' = i_res r /\ i_srlgs r' = i_srlgs r /\ i_rsvp r' = i_rsvp r /\ i_pct r' = i_pct r /\ i_inckt r' = i_inckt r.
Definition but_cost (r r' : iface) : Prop :=
  i_name r' = i_name r /\ i_cap r' = i_cap r /\ i_node r' = i_node r /\ i_rem r' = i_rem r /\ i_cid r' = i_cid r /\ i_traffic r' = i_traffic r /\
  i_failed r' = i_failed r /\ i_res r' = i_res r /\ i_srlgs r' = i_srlgs r /\ i_rsvp r' = i_rsvp r /\ i_pct r' = i_pct r /\ i_inckt r' = i_inckt r.
Definition but_cap (r r' : iface) : Prop :=
  i_name r' = i_name r /\ i_cost r' = i_cost r /\ i_node r' = i_node r /\ i_rem r' = i_rem r /\ i_cid r' = i_cid r /\ i_traffic r' = i_traffic r /\
  i_failed r' = i_failed r /\ i_res r' = i_res r /\ i_srlgs r' = i_srlgs r /\ i_rsvp r' = i_rsvp r /\ i_pct r' = i_pct r /\ i_inckt r' = i_inckt r.

(** Nothing but the node set has changed. *)
Definition only_node_set (s s' : st) : Prop :=
  h_if s' = h_if s /\ h_nd s' = h_nd s /\ h_sr s' = h_sr s /\ h_dm s' = h_dm s /\ h_ls s' = h_ls s /\
  m_ifs s' = m_ifs s /\ m_dms s' = m_dms s /\ m_lsps s' = m_lsps s /\ m_srs s' = m_srs s /\ m_ckts s' = m_ckts s /\ m_groups s' = m_groups s.
