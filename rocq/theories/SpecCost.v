(** SpecCost.v - changes of interface costs, paths in the two directions, and paths from
    and to the nodes on the way (C106-C108). *)
From Verif Require Import Base Graph Objects Sim Api Spec SpecCkt SpecSim SpecFlow SpecOrder SpecWhatIf SpecTotal SpecMore.

(** [t] is [s] with other costs. *)
Record repriced (s t : st) : Prop := {
  rp_ifs : forall i, In i (m_ifs t) <-> In i (m_ifs s);
  rp_loc : forall i, In i (m_ifs s) -> loc t i = loc s i;
  rp_rem : forall i, In i (m_ifs s) -> rem t i = rem s i;
  rp_open : forall i, In i (m_ifs s) -> (available (unreserved t) i <-> available (unreserved s) i);
  rp_fail : same_failures s t;
  rp_dms : m_dms t = m_dms s;
  rp_dm : forall d, In d (m_dms s) -> same_demand s t d }.
(** No cost is lower. *)
Definition no_cheaper (s t : st) : Prop := forall i, In i (m_ifs s) -> i_cost (h_if s i) <= i_cost (h_if t i).
(** Only the cost of [i] differs. *)
Definition only_cost_of (i : nat) (s t : st) : Prop := forall j, In j (m_ifs s) -> j <> i -> i_cost (h_if t j) = i_cost (h_if s j).

(** Interface [i] is on a path, and on every path, of demand [d] of a simulated model. *)
Definition on_a_path (s' : st) (d i : nat) : Prop := exists ps p, d_path (h_dm s' d) = DPaths ps /\ In p ps /\ In (IIf i) p.
Definition on_every_path (s' : st) (d i : nat) : Prop := exists ps, d_path (h_dm s' d) = DPaths ps /\ forall p, In p ps -> In (IIf i) p.

(** Every link that routing may use in one direction it may use at the same cost in the other. *)
Definition even_links (k : kind) (s : st) : Prop :=
  forall i, In i (m_ifs s) -> usable s i ->
    one_in (m_ifs s) (is_reverse k s i) /\
    forall j, In j (m_ifs s) -> is_reverse k s i j -> usable s j /\ i_cost (h_if s j) = i_cost (h_if s i).
(** Path [q] takes the links of path [p] the other way. *)
Definition opposite (k : kind) (s : st) (p q : list nat) : Prop := Forall2 (is_reverse k s) (rev p) q.
Definition opposite_paths (k : kind) (s : st) (a b : dpath) : Prop :=
  match a, b with
  | DUnrouted, DUnrouted => True
  | DPaths ps, DPaths qs =>
      List.length ps = List.length qs /\
      forall p, In (if_path p) ps -> exists q, In (if_path q) qs /\ opposite k s p q /\ route_cost s q = route_cost s p
  | _, _ => False
  end.

(** A demand that is routed by the IGP: no LSP between its ends, no IGP shortcut on its way *)
Definition igp_demand (k : kind) (s' : st) (d : nat) : Prop := In d (m_dms s') /\ no_lsp_for s' d /\ no_shortcuts_for k s' d.
(** Path [p] is one of the paths of demand [d]. *)
Definition takes (s' : st) (d : nat) (p : list nat) : Prop := exists ps, d_path (h_dm s' d) = DPaths ps /\ In (if_path p) ps.
(** The node where route [x] from [u] ends *)
Fixpoint ends_at (s : st) (u : string) (x : list nat) : string := match x with [] => u | i :: x => ends_at s (rem s i) x end.
(** ... as far as it can be seen before a simulation, without LSPs: the two ends of a link have
    the same cost, and if one has bandwidth left when nothing is reserved, so has the other. *)
Definition even_config (k : kind) (s : st) : Prop :=
  forall i j, In i (m_ifs s) -> In j (m_ifs s) -> is_reverse k s i j ->
    i_cost (h_if s j) = i_cost (h_if s i) /\ (available (unreserved s) i -> available (unreserved s) j).

(** ** Other names of nodes (C109) *)
Definition names_used (s : st) : list string := (map (loc s) (m_ifs s) ++ map (rem s) (m_ifs s) ++ map (dmd_from s) (m_dms s) ++ map (dmd_to s) (m_dms s))%list.
(** [t] is [s] with the nodes called otherwise, different ones differently. *)
Record renamed (f : string -> string) (s t : st) : Prop := {
  rn_apart : forall a b, In a (names_used s) -> In b (names_used s) -> f a = f b -> a = b;
  rn_ifs : forall i, In i (m_ifs t) <-> In i (m_ifs s);
  rn_loc : forall i, In i (m_ifs s) -> loc t i = f (loc s i);
  rn_rem : forall i, In i (m_ifs s) -> rem t i = f (rem s i);
  rn_cost : forall i, In i (m_ifs s) -> i_cost (h_if t i) = i_cost (h_if s i);
  rn_open : forall i, In i (m_ifs s) -> (available (unreserved t) i <-> available (unreserved s) i);
  rn_fail : same_failures s t;
  rn_dms : m_dms t = m_dms s;
  rn_from : forall d, In d (m_dms s) -> dmd_from t d = f (dmd_from s d);
  rn_to : forall d, In d (m_dms s) -> dmd_to t d = f (dmd_to s d);
  rn_traffic : forall d, In d (m_dms s) -> d_traffic (h_dm t d) = d_traffic (h_dm s d) }.
(** The model with the nodes renamed by [f]. *)
Definition rename_nodes (f : string -> string) (s : st) : st :=
  mkSt (h_if s) (fun n => mkNode (f (n_name (h_nd s n))) (n_failed (h_nd s n)) (n_lat (h_nd s n)) (n_lon (h_nd s n)) (n_srlgs (h_nd s n)) (n_shortcuts (h_nd s n)))
    (h_sr s) (h_dm s) (h_ls s) (m_ifs s) (m_nds s) (m_dms s) (m_lsps s) (m_srs s) (m_ckts s) (m_groups s) (s_next s) (s_rng s).
Definition all_names (s : st) : list string := (names_used s ++ map (nd_name s) (m_nds s) ++ map (lsp_from s) (m_lsps s) ++ map (lsp_to s) (m_lsps s))%list.
(** Different names stay different, and no new one contains a '-'. *)
Definition proper_names (f : string -> string) (s : st) : Prop :=
  (forall a b, In a (all_names s) -> In b (all_names s) -> f a = f b -> a = b) /\ forall a, In a (all_names s) -> dash_free (f a).

(** ** Parts of a network that are cut off from the rest (C110) *)
(** No usable link leads from the nodes [N] elsewhere ... *)
Definition no_way_out (N : list string) (s : st) : Prop := forall i, In i (m_ifs s) -> usable (unreserved s) i -> In (loc s i) N -> In (rem s i) N.
(** ... nor from elsewhere to them. *)
Definition cut_off (N : list string) (s : st) : Prop := forall i, In i (m_ifs s) -> usable (unreserved s) i -> (In (loc s i) N <-> In (rem s i) N).
(** The interfaces and the demands at the nodes [N] are the same in both models; the rest may
    differ in every respect. *)
Record same_part (N : list string) (s t : st) : Prop := {
  pt_ifs : forall i, (In i (m_ifs s) /\ In (loc s i) N) <-> (In i (m_ifs t) /\ In (loc t i) N);
  pt_if : forall i, In i (m_ifs s) -> In (loc s i) N ->
    loc t i = loc s i /\ rem t i = rem s i /\ i_cost (h_if t i) = i_cost (h_if s i) /\ i_failed (h_if t i) = i_failed (h_if s i) /\
    (available (unreserved t) i <-> available (unreserved s) i);
  pt_dms : forall d, (In d (m_dms s) /\ In (dmd_from s d) N) <-> (In d (m_dms t) /\ In (dmd_from t d) N);
  pt_dm : forall d, In d (m_dms s) -> In (dmd_from s d) N -> same_demand s t d }.

(** ** Parts that are cut off in models with LSPs *)
(** No RSVP interface that is up leads from the nodes [N] to others, ... *)
Definition no_road_out (N : list string) (s : st) : Prop := forall i, In i (m_ifs s) -> rsvp_up s i -> In (loc s i) N -> In (rem s i) N.
(** ... nor from elsewhere to them. *)
Definition road_cut_off (N : list string) (s : st) : Prop := forall i, In i (m_ifs s) -> rsvp_up s i -> (In (loc s i) N <-> In (rem s i) N).
(** The interfaces, demands and LSPs at the nodes [N] are the same in both models. *)
Record same_part_lsps (N : list string) (s t : st) : Prop := {
  pl_ifs : forall i, (In i (m_ifs s) /\ In (loc s i) N) <-> (In i (m_ifs t) /\ In (loc t i) N);
  pl_if : forall i, In i (m_ifs s) -> In (loc s i) N ->
    loc t i = loc s i /\ rem t i = rem s i /\ i_cost (h_if t i) = i_cost (h_if s i) /\ i_failed (h_if t i) = i_failed (h_if s i) /\ i_rsvp (h_if t i) = i_rsvp (h_if s i);
  pl_dms : forall d, (In d (m_dms s) /\ In (dmd_from s d) N) <-> (In d (m_dms t) /\ In (dmd_from t d) N);
  pl_dm : forall d, In d (m_dms s) -> In (dmd_from s d) N -> same_demand s t d;
  pl_lsps : forall l, (In l (m_lsps s) /\ In (lsp_from s l) N) <-> (In l (m_lsps t) /\ In (lsp_from t l) N);
  pl_ls : forall l, In l (m_lsps s) -> In (lsp_from s l) N -> lsp_from t l = lsp_from s l /\ lsp_to t l = lsp_to s l /\ l_cfg (h_ls t l) = l_cfg (h_ls s l) /\ same_metric_read s t l }.
