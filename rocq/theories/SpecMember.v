(** SpecMember.v - definitions used to state what SRLG membership calls and the
    failed setters do (C59, C68). *)
From Verif Require Import Base Spec SpecFail.

(** Nothing but interface records / node records / SRLGs differs. *)
Definition only_nodes (s s' : st) : Prop :=
  same_sets s s' /\ h_if s' = h_if s /\ h_sr s' = h_sr s /\ h_dm s' = h_dm s /\ h_ls s' = h_ls s /\
  m_ckts s' = m_ckts s /\ m_groups s' = m_groups s.
(** ... with one new SRLG [g], named [name] and not failed *)
Definition new_srlg (s s' : st) (g : nat) (name : string) : Prop :=
  ~ In g (m_srs s) /\ m_srs s' = (m_srs s ++ [g])%list /\ srlg_name s' g = name /\ sr_failed (h_sr s' g) = false /\
  (forall x, x <> g -> h_sr s' x = h_sr s x) /\
  m_ifs s' = m_ifs s /\ m_nds s' = m_nds s /\ m_dms s' = m_dms s /\ m_lsps s' = m_lsps s /\
  h_dm s' = h_dm s /\ h_ls s' = h_ls s /\ m_ckts s' = m_ckts s /\ m_groups s' = m_groups s.

(** The SRLG of the model called [name], and there being none *)
Definition srlg_called (s : st) (name : string) (g : nat) : Prop := In g (m_srs s) /\ srlg_name s g = name.
Definition no_srlg_called (s : st) (name : string) : Prop := forall g, In g (m_srs s) -> srlg_name s g <> name.

(** All of an interface / a node except its SRLGs *)
Definition if_rest (r r' : iface) : Prop :=
  i_name r' = i_name r /\ i_cost r' = i_cost r /\ i_cap r' = i_cap r /\ i_node r' = i_node r /\ i_rem r' = i_rem r /\
  i_cid r' = i_cid r /\ i_traffic r' = i_traffic r /\ i_failed r' = i_failed r /\ i_res r' = i_res r /\
  i_rsvp r' = i_rsvp r /\ i_pct r' = i_pct r /\ i_inckt r' = i_inckt r.
Definition nd_rest (r r' : node) : Prop :=
  n_name r' = n_name r /\ n_failed r' = n_failed r /\ n_lat r' = n_lat r /\ n_lon r' = n_lon r /\ n_shortcuts r' = n_shortcuts r.

(** Exactly the interfaces (nodes) in [P] are put into SRLG [g] / taken out. *)
Definition ifs_join (s s' : st) (g : nat) (P : nat -> Prop) : Prop :=
  forall x, if_rest (h_if s x) (h_if s' x) /\ (NoDup (i_srlgs (h_if s x)) -> NoDup (i_srlgs (h_if s' x))) /\
    forall h, In h (i_srlgs (h_if s' x)) <-> In h (i_srlgs (h_if s x)) \/ (h = g /\ P x).
Definition nds_join (s s' : st) (g : nat) (P : nat -> Prop) : Prop :=
  forall x, nd_rest (h_nd s x) (h_nd s' x) /\ (NoDup (n_srlgs (h_nd s x)) -> NoDup (n_srlgs (h_nd s' x))) /\
    forall h, In h (n_srlgs (h_nd s' x)) <-> In h (n_srlgs (h_nd s x)) \/ (h = g /\ P x).
Definition ifs_leave (s s' : st) (g : nat) (P : nat -> Prop) : Prop :=
  forall x, if_rest (h_if s x) (h_if s' x) /\
    forall h, In h (i_srlgs (h_if s' x)) <-> In h (i_srlgs (h_if s x)) /\ ~ (h = g /\ P x).
Definition nds_leave (s s' : st) (g : nat) (P : nat -> Prop) : Prop :=
  forall x, nd_rest (h_nd s x) (h_nd s' x) /\
    forall h, In h (n_srlgs (h_nd s' x)) <-> In h (n_srlgs (h_nd s x)) /\ ~ (h = g /\ P x).

(** interface.failed = b: what becomes of the interface, and of the call *)
Definition if_up (r r' : iface) : Prop :=
  same_if_data r r' /\ i_cid r' = i_cid r /\ i_traffic r' = i_traffic r /\ i_inckt r' = i_inckt r /\ i_res r' = i_res r /\ i_failed r' = false.
Definition if_assigned (s s' : st) (i : nat) (b : bool) (r : res unit) : Prop :=
  only_ifs s s' /\ (forall x, x <> i -> h_if s' x = h_if s x) /\
  (b = true -> r = Ok tt /\ downed (h_if s i) (h_if s' i)) /\
  (b = false -> in_failed_srlg s (i_srlgs (h_if s i)) -> (exists m, r = Err (ModelException m)) /\ downed (h_if s i) (h_if s' i)) /\
  (b = false -> ~ in_failed_srlg s (i_srlgs (h_if s i)) -> r = Ok tt /\
     (ends_up s i -> if_up (h_if s i) (h_if s' i)) /\ (~ ends_up s i -> downed (h_if s i) (h_if s' i))).
(** node.failed = b *)
Definition nd_assigned (s s' : st) (n : nat) (b : bool) (r : res unit) : Prop :=
  only_nodes s s' /\ (forall x, x <> n -> h_nd s' x = h_nd s x) /\
  n_name (h_nd s' n) = n_name (h_nd s n) /\ n_lat (h_nd s' n) = n_lat (h_nd s n) /\ n_lon (h_nd s' n) = n_lon (h_nd s n) /\
  n_srlgs (h_nd s' n) = n_srlgs (h_nd s n) /\ n_shortcuts (h_nd s' n) = n_shortcuts (h_nd s n) /\
  (b = true -> r = Ok tt /\ n_failed (h_nd s' n) = true) /\
  (b = false -> in_failed_srlg s (n_srlgs (h_nd s n)) -> (exists m, r = Err (ModelException m)) /\ n_failed (h_nd s' n) = true) /\
  (b = false -> ~ in_failed_srlg s (n_srlgs (h_nd s n)) -> r = Ok tt /\ n_failed (h_nd s' n) = false).
