(** SpecTotal.v - when update_simulation succeeds on a model with LSPs (C88). *)
From Verif Require Import Base Spec SpecCkt SpecMetric SpecSig SpecOrder SpecShort.

(** Every LSP starts at a node of the model and ends at another one. *)
Definition lsps_fine (s : st) : Prop :=
  forall l, In l (m_lsps s) -> In (lsp_from s l) (map (nd_name s) (m_nds s)) /\ lsp_from s l <> lsp_to s l.

(** What is assumed of the LSPs and interfaces in any case: nothing is listed
    twice, traffic, configured bandwidths and capacities are not negative, the
    bandwidths asked for and the capacities are multiples of 0.1, the share of the capacity open to
    reservations is a percentage, no configured metric is negative, and the texts
    that the IGP shortcuts look for are those of the LSPs. *)
Record lsps_usual (k : kind) (s : st) : Prop := {
  lu_once : NoDup (m_lsps s);
  lu_ifs : NoDup (map (if_key s) (m_ifs s));
  lu_traffic : forall d, In d (m_dms s) -> (0 <= d_traffic (h_dm s d))%Q;
  lu_cfg : forall l c, In l (m_lsps s) -> l_cfg (h_ls s l) = Some c -> (0 <= c)%Q;
  lu_tenths : forall l, In l (m_lsps s) -> tenths (wanted s l (equal_share s l));
  lu_caps : forall i, In i (m_ifs s) -> tenths (i_cap (h_if s i)) /\ (0 <= i_cap (h_if s i))%Q /\ (0 <= i_pct (h_if s i) <= 100)%Q;
  lu_metric : forall l c, In l (m_lsps s) -> mstate_of (h_ls s l) = Pending c -> 0 < c;
  lu_texts : k = Flex -> (exists n, In n (m_nds s) /\ n_shortcuts (h_nd s n) = true) -> node_texts s }.

(** A list of LSPs that has every LSP of the model with the ends of one of it *)
Definition whole (s : st) (ls : list nat) : Prop :=
  forall l m, In l ls -> In m (m_lsps s) -> lsp_from s m = lsp_from s l -> lsp_to s m = lsp_to s l -> In m ls.

(** Signalling LSPs one after the other on the bare network never routes one of
    two LSPs with the same ends only. *)
Definition never_split (s : st) : Prop :=
  forall s0 order s1, cleared s s0 -> signalling s0 order s1 ->
    NoDup (map fst order) -> incl (map fst order) (m_lsps s) -> whole s (map fst order) ->
    (forall l bw, In (l, bw) order -> (bw == wanted s l (equal_share s l))%Q) ->
    forall l m, In l (map fst order) -> In m (map fst order) -> lsp_from s l = lsp_from s m -> lsp_to s l = lsp_to s m ->
      l_path (h_ls s1 l) = PUnrouted -> l_path (h_ls s1 m) = PUnrouted.

(** At most one LSP from a node to another *)
Definition lone (s : st) : Prop :=
  forall l m, In l (m_lsps s) -> In m (m_lsps s) -> lsp_from s l = lsp_from s m -> lsp_to s l = lsp_to s m -> l = m.

(** What LSPs may reserve on each RSVP interface that is up is enough for all LSPs
    together. *)
Definition ample (s : st) : Prop :=
  forall i, In i (m_ifs s) -> i_failed (h_if s i) = false -> i_rsvp (h_if s i) = true ->
    (Qsum (map (fun l => wanted s l (equal_share s l)) (m_lsps s)) <= i_cap (h_if s i) * i_pct (h_if s i) / 100)%Q.

(** A way from the LSP's source to its destination over RSVP interfaces that are up *)
Definition rsvp_up (s : st) (i : nat) : Prop := i_failed (h_if s i) = false /\ i_rsvp (h_if s i) = true.
Definition road (s : st) (l : nat) (p : list nat) : Prop := route s (rsvp_up s) (lsp_from s l) p (lsp_to s l).
(** One of least cost, and of fewest hops among these *)
Definition best_road (s : st) (l : nat) (p : list nat) : Prop :=
  least_cost s (rsvp_up s) (lsp_from s l) p (lsp_to s l) /\
  forall q, least_cost s (rsvp_up s) (lsp_from s l) q (lsp_to s l) -> (List.length p <= List.length q)%nat.
