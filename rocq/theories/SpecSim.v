(** SpecSim.v - definitions used to state what update_simulation computes. *)
From Verif Require Import Base Spec.

(** No interface of the model changed its failure state. *)
Definition same_failures (s s' : st) : Prop :=
  forall i, In i (m_ifs s) -> i_failed (h_if s' i) = i_failed (h_if s i).

(** The LSPs with the same end nodes as demand [d] *)
Definition lsp_of (s : st) (d l : nat) : Prop :=
  In l (m_lsps s) /\ lsp_from s l = dmd_from s d /\ lsp_to s l = dmd_to s d.

(** Demand [d] has no LSP it could ride end to end. *)
Definition no_lsp_for (s : st) (d : nat) : Prop :=
  forall l, lsp_of s d l -> l_path (h_ls s l) = PUnrouted.

(** No IGP shortcut applies to [d] (FlexModel; a PerformanceModel does not look
    at the flag): whatever node [n] with IGP shortcuts enabled lies on a
    least-cost route of [d], every LSP from [n] to a node further along that
    route is unrouted.  In particular it holds when no such node has the flag, and
    when the model has no routed LSP. *)
Definition no_shortcuts_for (k : kind) (s : st) (d : nat) : Prop :=
  k = Flex -> forall p a n b m l, least_cost s (usable s) (dmd_from s d) p (dmd_to s d) ->
    In n (m_nds s) -> n_shortcuts (h_nd s n) = true -> route_nodes s (dmd_from s d) p = (a ++ nd_name s n :: b)%list ->
    In m b -> In l (m_lsps s) -> l_path (h_ls s l) <> PUnrouted -> ends_text (lsp_from s l) (lsp_to s l) <> ends_text (nd_name s n) m.

(** Everything an interface path of a demand is made of *)
Definition if_path (p : list nat) : list item := map IIf p.

(** What the theorems about a returning update_simulation assume of the model it
    is called on: no interface object listed twice, costs of at least 1 (C38,
    C40), and no clash of "source-dest" texts (C26). *)
Definition well_posed (s : st) : Prop :=
  NoDup (m_ifs s) /\ (forall i, In i (m_ifs s) -> 1 <= i_cost (h_if s i)) /\ texts_distinct s.
