(** World.v - several models in one program.  The other model files follow one
    model and the objects in memory; here all model objects of the program share
    the memory, and a model holds references to its sets, because two models can
    hold the same set: the constructors have mutable default arguments. *)
From Verif Require Import Base Graph Objects Sim Api.

(** A FlexModel or PerformanceModel object: the attributes set in __init__
    (flex_model.py 67-84, performance_model.py 71-88, master_model.py 29-42).
    interface_objects, node_objects, demand_objects and rsvp_lsp_objects are
    references to sets; srlg_objects, circuit_objects and _parallel_lsp_groups are
    made anew for each model and held directly. *)
Record model := mkModel {
  o_kind : kind; o_ifs : nat; o_nds : nat; o_dms : nat; o_lsps : nat;
  o_srs : list nat; o_ckts : list (nat * nat); o_groups : list (string * list nat) }.

(** The memory of the program: the objects, the sets and the models (in the order
    of their creation); the next free references *)
Record world := mkWorld {
  w_if : nat -> iface; w_nd : nat -> node; w_sr : nat -> srlg; w_dm : nat -> demand; w_ls : nat -> lsp;
  w_next : nat; w_rng : nat; w_sets : nat -> list nat; w_nset : nat; w_models : list model }.

(** The default arguments interface_objects=set(), node_objects=set(),
    demand_objects=set(), rsvp_lsp_objects=set() are evaluated once, when the class
    is defined (flex_model.py 69-72, performance_model.py 73-76): sets 0-3 and 4-7. *)
Definition default_sets (k : kind) : nat := match k with Flex => 0 | Perf => 4 end.

(** At the start of the program: no objects, no models, empty default sets *)
Definition start_world : world :=
  mkWorld (fun _ => dummy_if) (fun _ => dummy_node) (fun _ => mkSrlg "" false) (fun _ => dummy_demand) (fun _ => dummy_lsp)
          0 0 (fun _ => []) 8 [].

(** FlexModel() or PerformanceModel() *)
Definition new_default (k : kind) (w : world) : world :=
  let d := default_sets k in
  mkWorld (w_if w) (w_nd w) (w_sr w) (w_dm w) (w_ls w) (w_next w) (w_rng w) (w_sets w) (w_nset w)
          (w_models w ++ [mkModel k d (S d) (S (S d)) (S (S (S d))) [] [] []]).

(** FlexModel(set(ifs), set(nds), set(dms), set(lsps)) with four new sets *)
Definition new_model (k : kind) (ifs nds dms lsps : list nat) (w : world) : world :=
  let d := w_nset w in
  mkWorld (w_if w) (w_nd w) (w_sr w) (w_dm w) (w_ls w) (w_next w) (w_rng w)
          (fupd (fupd (fupd (fupd (w_sets w) d ifs) (S d) nds) (S (S d)) dms) (S (S (S d))) lsps) (4 + d)
          (w_models w ++ [mkModel k d (S d) (S (S d)) (S (S (S d))) [] [] []]).

(** What model [o] sees *)
Definition view (w : world) (o : model) : st :=
  mkSt (w_if w) (w_nd w) (w_sr w) (w_dm w) (w_ls w) (w_sets w (o_ifs o)) (w_sets w (o_nds o)) (w_sets w (o_dms o)) (w_sets w (o_lsps o))
       (o_srs o) (o_ckts o) (o_groups o) (w_next w) (w_rng w).

Fixpoint set_nth {A} (n : nat) (x : A) (l : list A) : list A :=
  match l, n with
  | [], _ => []
  | _ :: tl, O => x :: tl
  | y :: tl, S n' => y :: set_nth n' x tl
  end.

(** The calls change the sets in place (master_model.py: set.add), so that every
    model that holds the set sees the change *)
Definition store (w : world) (m : nat) (o : model) (t : st) : world :=
  mkWorld (h_if t) (h_nd t) (h_sr t) (h_dm t) (h_ls t) (s_next t) (s_rng t)
          (fupd (fupd (fupd (fupd (w_sets w) (o_ifs o) (m_ifs t)) (o_nds o) (m_nds t)) (o_dms o) (m_dms t)) (o_lsps o) (m_lsps t))
          (w_nset w)
          (set_nth m (mkModel (o_kind o) (o_ifs o) (o_nds o) (o_dms o) (o_lsps o) (m_srs t) (m_ckts t) (m_groups t)) (w_models w)).

(** add_network_interfaces_from_list (flex_model.py 114-119, performance_model.py
    122-127): node_objects and interface_objects become new sets, unless
    _make_network_interfaces raises *)
Definition rebound (w : world) (m : nat) (o : model) (t : st) : world :=
  let d := w_nset w in
  mkWorld (h_if t) (h_nd t) (h_sr t) (h_dm t) (h_ls t) (s_next t) (s_rng t)
          (fupd (fupd (fupd (fupd (w_sets w) d (m_ifs t)) (S d) (m_nds t)) (o_dms o) (m_dms t)) (o_lsps o) (m_lsps t))
          (2 + d)
          (set_nth m (mkModel (o_kind o) d (S d) (o_dms o) (o_lsps o) (m_srs t) (m_ckts t) (m_groups t)) (w_models w)).

Definition rebinds (l : list if_info) (s : st) : bool :=
  match snd (make_network_interfaces l [] [] s) with Ok _ => true | Err _ => false end.

Inductive wop :=
| WNew (k : kind)
| WWith (k : kind) (ifs nds dms lsps : list nat)
| WCall (m : nat) (o : op).

(** One step of a client that catches every exception and goes on *)
Definition wstep (E : env) (x : wop) (w : world) : world :=
  match x with
  | WNew k => new_default k w
  | WWith k ifs nds dms lsps => new_model k ifs nds dms lsps w
  | WCall m c =>
      match nth_error (w_models w) m with
      | None => w
      | Some o =>
          let t := fst (run_op E (o_kind o) c (view w o)) in
          match c with
          | OpAddInterfaces l => if rebinds l (view w o) then rebound w m o t else store w m o t
          | _ => store w m o t
          end
      end
  end.

Fixpoint wrun (E : env) (l : list wop) (w : world) : world :=
  match l with [] => w | x :: tl => wrun E tl (wstep E x w) end.
