(** Graph.v - the networkx graphs that pyNTM builds, and the contract of the
    networkx and random calls that pyNTM makes (trusted, see DESIGN.md).

    An edge keeps the interface it was made from (the "interface" entry of the
    edge data, flex_model.py 1002, performance_model.py 549). *)
From Verif Require Import Base.

Record edge := mkE { e_u : string; e_v : string; e_c : Z; e_i : nat }.

(** [g_nodes] are the nodes added by add_nodes_from; the end points of edges
    are nodes of the graph as well. *)
Record graph := mkG { g_edges : list edge; g_nodes : list string }.

Definition in_graph (G : graph) (n : string) : Prop :=
  In n (g_nodes G) \/ exists e, In e (g_edges G) /\ (e_u e = n \/ e_v e = n).

(** A walk from [u] to [v] along edges of [G]. *)
Inductive walk (G : graph) : string -> list edge -> string -> Prop :=
| walk_nil u : walk G u [] u
| walk_cons e es v : In e (g_edges G) -> walk G (e_v e) es v -> walk G (e_u e) (e :: es) v.

Definition wcost (es : list edge) : Z := Zsum (map e_c es).

(** The node path of a walk starting at [u]. *)
Definition node_path (u : string) (es : list edge) : list string := u :: map e_v es.

Definition shortest_walk (G : graph) (u : string) (es : list edge) (v : string) : Prop :=
  walk G u es v /\ forall es', walk G u es' v -> wcost es <= wcost es'.

(** Result of a networkx path query. *)
Inductive nxres := NxPaths (ps : list (list string)) | NxNoPath | NxNodeNotFound.

(** The environment: networkx queries, set iteration order for sets of names,
    and the random number generator behind random.choice. *)
Record env := mkEnv {
  nx_asp : graph -> string -> string -> nxres;
      (* list(nx.all_shortest_paths(G, s, d, weight="cost")) *)
  nx_len : graph -> string -> string -> option Z;
      (* nx.shortest_path_length(G, s, d, weight="cost"); None = it raises *)
  nx_simple : graph -> string -> string -> nat -> nxres;
      (* list(nx.all_simple_paths(G, s, d, cutoff)) *)
  set_iter : list string -> list string;
      (* iteration order of the set of the given names *)
  edge_iter : list edge -> list edge;
      (* iteration order of G.edges(data=True) *)
  rng : nat -> nat
      (* outcome of the n-th random.choice, taken modulo the list length *)
}.

(** ** Contract of the environment *)

Definition costs_positive (G : graph) : Prop := forall e, In e (g_edges G) -> 1 <= e_c e.

(** networkx 2.4 all_shortest_paths with a weight, on a graph with positive
    weights: every shortest node path exactly once; NetworkXNoPath if there is
    none; NodeNotFound if the source is not in the graph. *)
Definition asp_ok (f : graph -> string -> string -> nxres) : Prop :=
  forall G s d, costs_positive G ->
    match f G s d with
    | NxPaths ps =>
        in_graph G s /\ NoDup ps /\ ps <> [] /\
        (forall p, In p ps <-> exists es, shortest_walk G s es d /\ p = node_path s es)
    | NxNoPath => in_graph G s /\ s <> d /\ forall es, ~ walk G s es d
    | NxNodeNotFound => ~ in_graph G s
    end.

Definition len_ok (f : graph -> string -> string -> option Z) : Prop :=
  forall G s d es, costs_positive G -> in_graph G s ->
    shortest_walk G s es d -> f G s d = Some (wcost es).

(** networkx 2.4 all_simple_paths: node paths without repeated nodes and with
    at most [cutoff] hops (possibly listed more than once when the graph has
    parallel edges); none when source = target; NodeNotFound if the source is
    not in the graph.  Nothing is assumed when the target is not in the graph
    (networkx 2.4 then treats the target as an iterable of nodes). *)
Definition simple_ok (f : graph -> string -> string -> nat -> nxres) : Prop :=
  forall G s d cutoff, in_graph G d ->
    match f G s d cutoff with
    | NxPaths ps =>
        in_graph G s /\
        (forall p, In p ps <->
           exists es, walk G s es d /\ p = node_path s es /\ NoDup p /\
                      es <> [] /\ (List.length es <= cutoff)%nat)
    | NxNoPath => False
    | NxNodeNotFound => ~ in_graph G s
    end.

Definition set_iter_ok (f : list string -> list string) : Prop :=
  forall l, NoDup (f l) /\ forall x, In x (f l) <-> In x l.

Record env_ok (E : env) : Prop := {
  ok_asp : asp_ok (nx_asp E);
  ok_len : len_ok (nx_len E);
  ok_simple : simple_ok (nx_simple E);
  ok_iter : set_iter_ok (set_iter E);
  ok_edges : forall l, Permutation (edge_iter E l) l
}.

(** ** An executable environment
    Depth-first enumeration of the simple walks, then selection of the
    cheapest.  It is proved to meet the contract in GraphProofs.v and is used
    to run the model on concrete witnesses. *)

Fixpoint dfs (fuel : nat) (G : graph) (visited : list string) (u d : string)
  : list (list edge) :=
  if String.eqb u d then [[]] else
  match fuel with
  | O => []
  | S n =>
      flat_map (fun e =>
        if String.eqb (e_u e) u && negb (mem_str (e_v e) visited)
        then map (cons e) (dfs n G (e_v e :: visited) (e_v e) d)
        else []) (g_edges G)
  end.

Definition simple_walks (G : graph) (s d : string) : list (list edge) :=
  dfs (List.length (g_edges G)) G [s] s d.

Definition in_graphb (G : graph) (n : string) : bool :=
  mem_str n (g_nodes G) ||
  existsb (fun e => String.eqb (e_u e) n || String.eqb (e_v e) n) (g_edges G).

Definition path_eqb (p q : list string) : bool :=
  if list_eq_dec string_dec p q then true else false.

Definition asp_impl (G : graph) (s d : string) : nxres :=
  if in_graphb G s then
    match Zmin_list (map wcost (simple_walks G s d)) with
    | None => NxNoPath
    | Some c =>
        NxPaths (dedup_by path_eqb
                  (map (node_path s)
                       (filter (fun es => Z.eqb (wcost es) c) (simple_walks G s d))))
    end
  else NxNodeNotFound.

Definition len_impl (G : graph) (s d : string) : option Z :=
  Zmin_list (map wcost (simple_walks G s d)).

Definition simple_impl (G : graph) (s d : string) (cutoff : nat) : nxres :=
  if in_graphb G s then
    NxPaths (if String.eqb s d then []
             else map (node_path s) (dfs cutoff G [s] s d))
  else NxNodeNotFound.

Definition env_impl (r : nat -> nat) : env :=
  mkEnv asp_impl len_impl simple_impl (dedup_by String.eqb) (fun l => l) r.
