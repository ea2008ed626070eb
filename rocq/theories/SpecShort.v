(** SpecShort.v - the paths of a demand when IGP shortcuts apply: LSPs used for
    stretches of a least-cost route. *)
From Verif Require Import Base Spec SpecSim SpecMetric SpecFlow.

(** The "source-dest" text of an LSP tells its ends apart from every other pair of
    node names.  (The dict of parallel LSPs is keyed by that text.) *)
Definition node_texts (s : st) : Prop :=
  forall a b a' b', In a (map (nd_name s) (m_nds s)) -> In b (map (nd_name s) (m_nds s)) ->
    In a' (map (lsp_from s) (m_lsps s)) -> In b' (map (lsp_to s) (m_lsps s)) ->
    ends_text a b = ends_text a' b' -> a = a' /\ b = b'.

(** A node of that name has IGP shortcuts enabled. *)
Definition shortcut_node (s : st) (n : string) : Prop :=
  exists x, In x (m_nds s) /\ nd_name s x = n /\ n_shortcuts (h_nd s x) = true.
(** A routed LSP leads from [n] to [m]. *)
Definition tunnel (s : st) (n m : string) : Prop :=
  exists l, In l (m_lsps s) /\ lsp_from s l = n /\ lsp_to s l = m /\ routed_lsp s l.

(** The LSP groups picked along a sequence of nodes: at a node with shortcuts
    enabled, the least-metric LSPs to the farthest later node that a routed LSP
    leads to; the search goes on at their end.  At any other node it goes on at the
    next node. *)
Inductive picks (s : st) : list string -> list (list nat) -> Prop :=
| picks_end n : picks s [n] []
| picks_jump n a m b ls gs :
    shortcut_node s n -> tunnel s n m -> (forall x, In x b -> ~ tunnel s n x) ->
    ls <> [] -> NoDup ls -> (forall l, In l ls <-> least_metric s n m l) ->
    picks s (m :: b) gs -> picks s (n :: a ++ m :: b) (ls :: gs)
| picks_step n m b gs :
    (shortcut_node s n -> forall x, In x (m :: b) -> ~ tunnel s n x) ->
    picks s (m :: b) gs -> picks s (n :: m :: b) gs.

(** [q] is the route [p] with one stretch replaced by an LSP of each group, in
    order; the stretch has the ends of the LSP. *)
Inductive rides (s : st) : list nat -> list (list nat) -> list item -> Prop :=
| rides_end : rides s [] [] []
| rides_if i p gs q : rides s p gs q -> rides s (i :: p) gs (IIf i :: q)
| rides_lsp i p j p' ls l gs q :
    loc s i = lsp_from s l -> last (i :: p) i = j -> rem s j = lsp_to s l ->
    In l ls -> rides s p' gs q -> rides s (i :: p ++ p') (ls :: gs) (ILsp l :: q).

(** Interface costs and effective metrics of a path added up *)
Inductive path_cost (s : st) : list item -> Z -> Prop :=
| pc_nil : path_cost s [] 0
| pc_if i q c : path_cost s q c -> path_cost s (IIf i :: q) (i_cost (h_if s i) + c)
| pc_lsp l m q c : metric s l (Some m) -> path_cost s q c -> path_cost s (ILsp l :: q) (m + c).

(** What the groups [gs] make of the least-cost routes from [u] to [v]; a route
    on which not every group has its stretch stays as it is. *)
Definition candidate (s : st) (u v : string) (gs : list (list nat)) (q : list item) : Prop :=
  exists p, least_cost s (usable s) u p v /\
    (rides s p gs q \/ (q = if_path p /\ forall q', ~ rides s p gs q')).

(** The items of a path follow each other from [u] to [v]. *)
Fixpoint leads (s : st) (u : string) (q : list item) (v : string) : Prop :=
  match q with
  | [] => u = v
  | IIf i :: q' => loc s i = u /\ leads s (rem s i) q' v
  | ILsp l :: q' => lsp_from s l = u /\ leads s (lsp_to s l) q' v
  end.

(** The node an item leaves, and the items on the paths [ps] that leave [n] *)
Definition leaves (s : st) (x : item) : string := match x with IIf i => loc s i | ILsp l => lsp_from s l end.
Definition next_items (s : st) (ps : list (list item)) (n : string) (O : list item) : Prop :=
  NoDup O /\ forall x, In x O <-> leaves s x = n /\ exists q, In q ps /\ In x q.
(** ... and [split_counts] and [divided] for paths over LSPs: at every node the
    traffic is divided by the number of items that leave it on the paths. *)
Fixpoint item_counts (s : st) (outs : string -> list item) (a : Z) (q : list item) : list (item * Z) :=
  match q with
  | [] => []
  | x :: t => let a' := a * Z.of_nat (List.length (outs (leaves s x))) in (x, a') :: item_counts s outs a' t
  end.
Fixpoint item_divided (s : st) (outs : string -> list item) (t : Q) (q : list item) : Q :=
  match q with
  | [] => t
  | x :: q' => item_divided s outs (t / inject_Z (Z.of_nat (List.length (outs (leaves s x)))))%Q q'
  end.

(** path_traffic of the entries whose path has item [x] *)
Definition same_item (x y : item) : bool :=
  match x, y with IIf i, IIf j => Nat.eqb i j | ILsp l, ILsp m => Nat.eqb l m | _, _ => false end.
Definition with_item (x : item) (es : list pinfo) : Q := total (filter (fun e => existsb (same_item x) (entry_path e)) es).

(** What demand [d] of a FlexModel puts on interface [i], according to its
    path_detail: on its own LSPs its shares; else what its paths put on the
    interface itself, and for every LSP on its paths the sum of what they put on
    the LSP, rounded to one decimal, once per crossing of the interface. *)
Definition demand_loads (s : st) (d i : nat) (y : Q) : Prop :=
  match d_path (h_dm s d) with
  | DUnrouted => (y == 0)%Q
  | DPaths ps => exists es, d_detail (h_dm s d) = PDInfo es /\ map entry_path es = ps /\
      (((exists l, lsp_of s d l /\ routed_lsp s l) /\ (y == carried s i es)%Q) \/
       (no_lsp_for s d /\ exists ls f, NoDup ls /\ (forall l, In l ls <-> exists q, In q ps /\ In (ILsp l) q) /\
          (forall l, In l ls -> rounds 10 (with_item (ILsp l) es) (f l)) /\
          (y == with_item (IIf i) es + Qsum (map (fun l => inject_Z (Z.of_nat (crossings s i [ILsp l])) * f l) ls))%Q))
  end.

(** What the routed demands put on an interface or LSP, according to their
    path_detail *)
Definition demand_item (s : st) (x : item) (d : nat) : Q :=
  match d_path (h_dm s d), d_detail (h_dm s d) with DPaths _, PDInfo es => with_item x es | _, _ => 0%Q end.
Definition on_item (s : st) (x : item) : Q := Qsum (map (demand_item s x) (m_dms s)).
(** The number of times the LSPs cross interface [i] *)
Definition lsp_crossings (s : st) (i : nat) : Q := Qsum (map (fun l => inject_Z (Z.of_nat (crossings s i [ILsp l]))) (m_lsps s)).
