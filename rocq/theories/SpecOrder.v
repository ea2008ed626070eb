(** SpecOrder.v - when update_simulation succeeds on a model without LSPs, and
    models that list the same objects in another order (C21, C67). *)
From Verif Require Import Base Spec SpecCkt.
From Coq Require Import Permutation.

(** The model without any reservation, as update_simulation leaves it when there
    are no LSPs *)
Definition unreserved (s : st) : st :=
  mkSt (fun i => if_res 0%Q (h_if s i)) (h_nd s) (h_sr s) (h_dm s) (h_ls s) (m_ifs s) (m_nds s) (m_dms s) (m_lsps s)
       (m_srs s) (m_ckts s) (m_groups s) (s_next s) (s_rng s).

(** The end nodes of every interface are in the model, by name. *)
Definition ends_known (s : st) : Prop :=
  forall i, In i (m_ifs s) -> In (loc s i) (map (nd_name s) (m_nds s)) /\ In (rem s i) (map (nd_name s) (m_nds s)).

(** Every demand starts at a node of the model and ends at another one. *)
Definition demands_fine (s : st) : Prop :=
  forall d, In d (m_dms s) -> In (dmd_from s d) (map (nd_name s) (m_nds s)) /\ dmd_from s d <> dmd_to s d.

(** The interfaces that are not over-reserved pair up into circuits with equal
    capacities, no capacity is negative, no two nodes have the same name, and a
    PerformanceModel has neither parallel links nor nodes with IGP shortcuts. *)
Definition fit (k : kind) (s : st) : Prop :=
  pairs_up k s /\ (forall i, In i (m_ifs s) -> (0 <= i_cap (h_if s i))%Q) /\
  (forall i j, In i (m_ifs s) -> In j (m_ifs s) -> available s i -> is_reverse k s i j -> (i_cap (h_if s i) == i_cap (h_if s j))%Q) /\
  NoDup (map (nd_name s) (m_nds s)) /\
  (k = Perf -> NoDup (map (fun i => ends_text (loc s i) (rem s i)) (m_ifs s)) /\
     forall n, In n (m_nds s) -> n_shortcuts (h_nd s n) = false).

(** The same objects, listed in another order *)
Record reordered (s t : st) : Prop := {
  ro_if : h_if t = h_if s; ro_nd : h_nd t = h_nd s; ro_dm : h_dm t = h_dm s; ro_ls : h_ls t = h_ls s;
  ro_ifs : Permutation (m_ifs s) (m_ifs t); ro_nds : Permutation (m_nds s) (m_nds t);
  ro_dms : Permutation (m_dms s) (m_dms t); ro_lsps : Permutation (m_lsps s) (m_lsps t) }.

(** Two lists of paths with the same paths *)
Definition same_paths (p q : dpath) : Prop :=
  match p, q with
  | DUnrouted, DUnrouted => True
  | DPaths ps, DPaths qs => forall x, In x ps <-> In x qs
  | _, _ => False
  end.
(** The same traffic *)
Definition same_traffic (a b : traf) : Prop :=
  match a, b with TDown, TDown => True | TNum x, TNum y => (x == y)%Q | _, _ => False end.
