(** Base.v - values, exceptions, object records, the model state and the
    state-and-exception monad in which the Python code is transcribed.

    Reading guide.  pyNTM mutates Python objects that live in sets held by a
    Model object.  Here every class of object has a heap ([nat -> record]) and a
    Python object reference is a [nat]; the Model object holds lists of
    references.  A Python exception is a value ([Err]); because Python keeps the
    mutations made before a raise, the monad returns the state in both cases. *)

From Coq Require Export List ZArith QArith Qround Qabs Qminmax String Ascii Bool Arith Lia Permutation.
Export ListNotations.
Open Scope Z_scope.
Open Scope string_scope.
Open Scope list_scope.

(** ** Exceptions
    [ModelException] is pyNTM/exceptions.py; the message is a short label.  The
    list of failed checks that validate_model attaches to its exception
    (flex_model.py 209-213, performance_model.py 217-221) is kept, because a
    caller can read it from [args[0][1]]. *)
Inductive vcheck :=
| VResTooHigh      (* "int_res_bw_too_high" *)
| VResSum          (* "int_res_bw_sum_error" *)
| VShortcuts       (* "igp_shortcuts_enabled not allowed in PerformanceModel ..." *)
| VCapacity        (* "circuits_with_mismatched_interface_capacity" *)
| VParallel        (* "multiple links between nodes detected ..." *)
| VSrlg            (* srlg_errors *)
| VDupNodes.       (* "len_node_objects" / "len_node_names" *)

Inductive pyexn :=
| ModelException (msg : string)
| ValidationException (failed : list vcheck)   (* also a ModelException *)
| ValueError | KeyError | IndexError | TypeError | AttributeError
| UnboundLocalError | NodeNotFound | ZeroDivisionError.

(** Is the exception an instance of the Python class ModelException? *)
Definition is_model_exn (e : pyexn) : bool :=
  match e with ModelException _ | ValidationException _ => true | _ => false end.

Inductive res (A : Type) :=
| Ok (a : A)
| Err (e : pyexn).
Arguments Ok {A} _.
Arguments Err {A} _.

(** ** Attribute values *)

(** Interface.circuit_id (interface.py 28): None, an int or a str. *)
Inductive cid := CNone | CInt (z : Z) | CStr (s : string).

(** Interface.traffic: the string "Down" or a number (flex_model.py 528). *)
Inductive traf := TDown | TNum (q : Q).

(** RSVP_LSP.reserved_bandwidth / setup_bandwidth (rsvp.py 45-46, flex_model.py 1616). *)
Inductive lbw := RInit | RUnrouted | RNum (q : Q).

(** RSVP_LSP.path: "Unrouted - initial", "Unrouted", {} or the dict with keys
    interfaces / path_cost / baseline_path_reservable_bw (rsvp.py 44,
    flex_model.py 1601 and 1615, master_model.py 304-308). *)
Inductive lpath :=
| PInit | PUnrouted | PEmpty
| PRouted (ifs : list nat) (cost : Z) (baseline : Q).

(** One element of a demand path: an Interface or an RSVP_LSP object. *)
Inductive item := IIf (i : nat) | ILsp (l : nat).

(** Demand.path: "Unrouted" or a list of lists of items. *)
Inductive dpath := DUnrouted | DPaths (ps : list (list item)).

(** One value of the Demand.path_detail dict.  FlexModel IGP entries have keys
    items/splits/path_traffic (flex_model.py 732-734); FlexModel LSP entries
    have items/path_traffic only (flex_model.py 614-618); PerformanceModel IGP
    entries have interfaces/splits/path_traffic (performance_model.py 1491-1493). *)
Record pinfo := mkPinfo {
  pi_items : option (list item);        (* key "items" *)
  pi_interfaces : option (list item);   (* key "interfaces" *)
  pi_splits : option (list (item * Z)); (* key "splits" *)
  pi_traffic : Q                        (* key "path_traffic" *)
}.

(** Demand._path_detail (demand.py 16): "Unrouted_detail" or the dict
    path_0, path_1, ... in order. *)
Inductive pdetail := PDInitial | PDInfo (l : list pinfo).

(** ** Objects *)

(** node.py 16-28.  lat/lon are ints or floats. *)
Record node := mkNode {
  n_name : string; n_failed : bool; n_lat : Q; n_lon : Q;
  n_srlgs : list nat; n_shortcuts : bool }.

(** interface.py 12-36, plus [in_ckt], set by _make_circuits
    (performance_model.py 602-603). *)
Record iface := mkIface {
  i_name : string; i_cost : Z; i_cap : Q; i_node : nat; i_rem : nat;
  i_cid : cid; i_traffic : traf; i_failed : bool; i_res : Q;
  i_srlgs : list nat; i_rsvp : bool; i_pct : Q; i_inckt : bool }.

(** srlg.py 22-36. *)
Record srlg := mkSrlg { sr_name : string; sr_failed : bool }.

(** demand.py 10-20. *)
Record demand := mkDemand {
  d_src : nat; d_dst : nat; d_traffic : Q; d_name : string;
  d_path : dpath; d_detail : pdetail }.

(** rsvp.py 32-49.  [l_mm = None] is "not set"; a configured manual metric is
    restricted to None or an int. *)
Record lsp := mkLsp {
  l_src : nat; l_dst : nat; l_name : string; l_path : lpath;
  l_res : lbw; l_setup : lbw; l_cfg : option Q;
  l_mm : option Z; l_imm : option Z }.

(** ** The model object and its heap
    master_model.py 29-42.  Python sets are lists whose order stands for the
    set's (arbitrary) iteration order; [m_groups] is the dict cached in
    _parallel_lsp_groups.  [s_next] is the next fresh reference and [s_rng] the
    number of random.choice calls made so far. *)
Record st := mkSt {
  h_if : nat -> iface; h_nd : nat -> node; h_sr : nat -> srlg;
  h_dm : nat -> demand; h_ls : nat -> lsp;
  m_ifs : list nat; m_nds : list nat; m_dms : list nat; m_lsps : list nat;
  m_srs : list nat; m_ckts : list (nat * nat);
  m_groups : list (string * list nat);
  s_next : nat; s_rng : nat }.

(** FlexModel or PerformanceModel: which subclass the model object is. *)
Inductive kind := Flex | Perf.

Definition fupd {A} (h : nat -> A) (i : nat) (v : A) : nat -> A :=
  fun j => if Nat.eqb i j then v else h j.

Definition upd_if (i : nat) (f : iface -> iface) (s : st) : st :=
  mkSt (fupd (h_if s) i (f (h_if s i))) (h_nd s) (h_sr s) (h_dm s) (h_ls s)
       (m_ifs s) (m_nds s) (m_dms s) (m_lsps s) (m_srs s) (m_ckts s) (m_groups s)
       (s_next s) (s_rng s).
Definition upd_nd (i : nat) (f : node -> node) (s : st) : st :=
  mkSt (h_if s) (fupd (h_nd s) i (f (h_nd s i))) (h_sr s) (h_dm s) (h_ls s)
       (m_ifs s) (m_nds s) (m_dms s) (m_lsps s) (m_srs s) (m_ckts s) (m_groups s)
       (s_next s) (s_rng s).
Definition upd_sr (i : nat) (f : srlg -> srlg) (s : st) : st :=
  mkSt (h_if s) (h_nd s) (fupd (h_sr s) i (f (h_sr s i))) (h_dm s) (h_ls s)
       (m_ifs s) (m_nds s) (m_dms s) (m_lsps s) (m_srs s) (m_ckts s) (m_groups s)
       (s_next s) (s_rng s).
Definition upd_dm (i : nat) (f : demand -> demand) (s : st) : st :=
  mkSt (h_if s) (h_nd s) (h_sr s) (fupd (h_dm s) i (f (h_dm s i))) (h_ls s)
       (m_ifs s) (m_nds s) (m_dms s) (m_lsps s) (m_srs s) (m_ckts s) (m_groups s)
       (s_next s) (s_rng s).
Definition upd_ls (i : nat) (f : lsp -> lsp) (s : st) : st :=
  mkSt (h_if s) (h_nd s) (h_sr s) (h_dm s) (fupd (h_ls s) i (f (h_ls s i)))
       (m_ifs s) (m_nds s) (m_dms s) (m_lsps s) (m_srs s) (m_ckts s) (m_groups s)
       (s_next s) (s_rng s).
Definition set_ifs (l : list nat) (s : st) : st :=
  mkSt (h_if s) (h_nd s) (h_sr s) (h_dm s) (h_ls s)
       l (m_nds s) (m_dms s) (m_lsps s) (m_srs s) (m_ckts s) (m_groups s)
       (s_next s) (s_rng s).
Definition set_nds (l : list nat) (s : st) : st :=
  mkSt (h_if s) (h_nd s) (h_sr s) (h_dm s) (h_ls s)
       (m_ifs s) l (m_dms s) (m_lsps s) (m_srs s) (m_ckts s) (m_groups s)
       (s_next s) (s_rng s).
Definition set_dms (l : list nat) (s : st) : st :=
  mkSt (h_if s) (h_nd s) (h_sr s) (h_dm s) (h_ls s)
       (m_ifs s) (m_nds s) l (m_lsps s) (m_srs s) (m_ckts s) (m_groups s)
       (s_next s) (s_rng s).
Definition set_lsps (l : list nat) (s : st) : st :=
  mkSt (h_if s) (h_nd s) (h_sr s) (h_dm s) (h_ls s)
       (m_ifs s) (m_nds s) (m_dms s) l (m_srs s) (m_ckts s) (m_groups s)
       (s_next s) (s_rng s).
Definition set_srs (l : list nat) (s : st) : st :=
  mkSt (h_if s) (h_nd s) (h_sr s) (h_dm s) (h_ls s)
       (m_ifs s) (m_nds s) (m_dms s) (m_lsps s) l (m_ckts s) (m_groups s)
       (s_next s) (s_rng s).
Definition set_ckts (l : list (nat * nat)) (s : st) : st :=
  mkSt (h_if s) (h_nd s) (h_sr s) (h_dm s) (h_ls s)
       (m_ifs s) (m_nds s) (m_dms s) (m_lsps s) (m_srs s) l (m_groups s)
       (s_next s) (s_rng s).
Definition set_groups (g : list (string * list nat)) (s : st) : st :=
  mkSt (h_if s) (h_nd s) (h_sr s) (h_dm s) (h_ls s)
       (m_ifs s) (m_nds s) (m_dms s) (m_lsps s) (m_srs s) (m_ckts s) g
       (s_next s) (s_rng s).
Definition bump_next (s : st) : st :=
  mkSt (h_if s) (h_nd s) (h_sr s) (h_dm s) (h_ls s)
       (m_ifs s) (m_nds s) (m_dms s) (m_lsps s) (m_srs s) (m_ckts s) (m_groups s)
       (S (s_next s)) (s_rng s).
Definition bump_rng (s : st) : st :=
  mkSt (h_if s) (h_nd s) (h_sr s) (h_dm s) (h_ls s)
       (m_ifs s) (m_nds s) (m_dms s) (m_lsps s) (m_srs s) (m_ckts s) (m_groups s)
       (s_next s) (S (s_rng s)).

(** Field updates of the records. *)
Definition if_failed (b : bool) (r : iface) : iface :=
  mkIface (i_name r) (i_cost r) (i_cap r) (i_node r) (i_rem r) (i_cid r) (i_traffic r)
          b (i_res r) (i_srlgs r) (i_rsvp r) (i_pct r) (i_inckt r).
Definition if_res (q : Q) (r : iface) : iface :=
  mkIface (i_name r) (i_cost r) (i_cap r) (i_node r) (i_rem r) (i_cid r) (i_traffic r)
          (i_failed r) q (i_srlgs r) (i_rsvp r) (i_pct r) (i_inckt r).
Definition if_traffic (t : traf) (r : iface) : iface :=
  mkIface (i_name r) (i_cost r) (i_cap r) (i_node r) (i_rem r) (i_cid r) t
          (i_failed r) (i_res r) (i_srlgs r) (i_rsvp r) (i_pct r) (i_inckt r).
Definition if_cid (c : cid) (r : iface) : iface :=
  mkIface (i_name r) (i_cost r) (i_cap r) (i_node r) (i_rem r) c (i_traffic r)
          (i_failed r) (i_res r) (i_srlgs r) (i_rsvp r) (i_pct r) (i_inckt r).
Definition if_inckt (b : bool) (r : iface) : iface :=
  mkIface (i_name r) (i_cost r) (i_cap r) (i_node r) (i_rem r) (i_cid r) (i_traffic r)
          (i_failed r) (i_res r) (i_srlgs r) (i_rsvp r) (i_pct r) b.
Definition if_srlgs (l : list nat) (r : iface) : iface :=
  mkIface (i_name r) (i_cost r) (i_cap r) (i_node r) (i_rem r) (i_cid r) (i_traffic r)
          (i_failed r) (i_res r) l (i_rsvp r) (i_pct r) (i_inckt r).
Definition if_name (n : string) (r : iface) : iface :=
  mkIface n (i_cost r) (i_cap r) (i_node r) (i_rem r) (i_cid r) (i_traffic r)
          (i_failed r) (i_res r) (i_srlgs r) (i_rsvp r) (i_pct r) (i_inckt r).
Definition if_cost (c : Z) (r : iface) : iface :=
  mkIface (i_name r) c (i_cap r) (i_node r) (i_rem r) (i_cid r) (i_traffic r)
          (i_failed r) (i_res r) (i_srlgs r) (i_rsvp r) (i_pct r) (i_inckt r).
Definition if_cap (q : Q) (r : iface) : iface :=
  mkIface (i_name r) (i_cost r) q (i_node r) (i_rem r) (i_cid r) (i_traffic r)
          (i_failed r) (i_res r) (i_srlgs r) (i_rsvp r) (i_pct r) (i_inckt r).
Definition nd_failed (b : bool) (r : node) : node :=
  mkNode (n_name r) b (n_lat r) (n_lon r) (n_srlgs r) (n_shortcuts r).
Definition nd_srlgs (l : list nat) (r : node) : node :=
  mkNode (n_name r) (n_failed r) (n_lat r) (n_lon r) l (n_shortcuts r).
Definition nd_shortcuts (b : bool) (r : node) : node :=
  mkNode (n_name r) (n_failed r) (n_lat r) (n_lon r) (n_srlgs r) b.
Definition nd_pos (lat lon : Q) (r : node) : node :=
  mkNode (n_name r) (n_failed r) lat lon (n_srlgs r) (n_shortcuts r).
Definition sr_set (b : bool) (r : srlg) : srlg := mkSrlg (sr_name r) b.
Definition dm_path (p : dpath) (r : demand) : demand :=
  mkDemand (d_src r) (d_dst r) (d_traffic r) (d_name r) p (d_detail r).
Definition dm_detail (p : pdetail) (r : demand) : demand :=
  mkDemand (d_src r) (d_dst r) (d_traffic r) (d_name r) (d_path r) p.
Definition ls_path (p : lpath) (r : lsp) : lsp :=
  mkLsp (l_src r) (l_dst r) (l_name r) p (l_res r) (l_setup r) (l_cfg r) (l_mm r) (l_imm r).
Definition ls_res (b : lbw) (r : lsp) : lsp :=
  mkLsp (l_src r) (l_dst r) (l_name r) (l_path r) b (l_setup r) (l_cfg r) (l_mm r) (l_imm r).
Definition ls_setup (b : lbw) (r : lsp) : lsp :=
  mkLsp (l_src r) (l_dst r) (l_name r) (l_path r) (l_res r) b (l_cfg r) (l_mm r) (l_imm r).
Definition ls_mm (m : option Z) (im : option Z) (r : lsp) : lsp :=
  mkLsp (l_src r) (l_dst r) (l_name r) (l_path r) (l_res r) (l_setup r) (l_cfg r) m im.

(** ** The monad *)
Definition M (A : Type) : Type := st -> st * res A.

Definition ret {A} (a : A) : M A := fun s => (s, Ok a).
Definition raise {A} (e : pyexn) : M A := fun s => (s, Err e).
Definition bind {A B} (m : M A) (f : A -> M B) : M B := fun s =>
  match m s with
  | (s', Ok a) => f a s'
  | (s', Err e) => (s', Err e)
  end.
Definition gets {A} (f : st -> A) : M A := fun s => (s, Ok (f s)).
Definition modify (f : st -> st) : M unit := fun s => (f s, Ok tt).
(** Lift a computation that only reads the state. *)
Definition reads {A} (f : st -> res A) : M A := fun s => (s, f s).
(** try/except: the handler decides per exception; None re-raises. *)
Definition try {A} (m : M A) (h : pyexn -> option (M A)) : M A := fun s =>
  match m s with
  | (s', Ok a) => (s', Ok a)
  | (s', Err e) => match h e with Some k => k s' | None => (s', Err e) end
  end.

Declare Scope monad_scope.
Delimit Scope monad_scope with monad.
Notation "x <- m ;; k" := (bind m (fun x => k))
  (at level 61, m at next level, right associativity) : monad_scope.
Notation "m1 ;;; m2" := (bind m1 (fun _ => m2))
  (at level 61, right associativity) : monad_scope.
Open Scope monad_scope.

(** for x in l: body *)
Fixpoint mfor {A} (l : list A) (body : A -> M unit) : M unit :=
  match l with
  | [] => ret tt
  | x :: tl => body x ;;; mfor tl body
  end.

(** [body x for x in l] *)
Fixpoint mmap {A B} (body : A -> M B) (l : list A) : M (list B) :=
  match l with
  | [] => ret []
  | x :: tl => y <- body x ;; ys <- mmap body tl ;; ret (y :: ys)
  end.

(** [x for x in l if body x] *)
Fixpoint mfilter {A} (body : A -> M bool) (l : list A) : M (list A) :=
  match l with
  | [] => ret []
  | x :: tl => b <- body x ;; ys <- mfilter body tl ;; ret (if b : bool then x :: ys else ys)
  end.

(** The same for pure computations that may raise. *)
Definition rbind {A B} (m : res A) (f : A -> res B) : res B :=
  match m with Ok a => f a | Err e => Err e end.
Fixpoint rmap {A B} (f : A -> res B) (l : list A) : res (list B) :=
  match l with
  | [] => Ok []
  | x :: tl => rbind (f x) (fun y => rbind (rmap f tl) (fun ys => Ok (y :: ys)))
  end.

(** ** Small Python library functions *)

(** Python 3 round(x) (round half to even), on exact rationals. *)
Definition rhe (x : Q) : Z :=
  let f := Qfloor x in
  match Qcompare (x - inject_Z f) (1 # 2) with
  | Lt => f
  | Gt => f + 1
  | Eq => if Z.even f then f else f + 1
  end.

(** round(x, 1), round(x, 2), round(x, 4) *)
Definition round1 (x : Q) : Q := Qmake (rhe (x * 10)) 10.
Definition round2 (x : Q) : Q := Qmake (rhe (x * 100)) 100.
Definition round4 (x : Q) : Q := Qmake (rhe (x * 10000)) 10000.

Definition Qsum (l : list Q) : Q := fold_right Qplus 0%Q l.
Definition Zsum (l : list Z) : Z := fold_right Z.add 0 l.

(** min(l) of a non-empty iterable of numbers; None models ValueError. *)
Definition Qmin_list (l : list Q) : option Q :=
  match l with
  | [] => None
  | x :: tl => Some (fold_left (fun a b => if Qle_bool a b then a else b) tl x)
  end.
Definition Zmin_list (l : list Z) : option Z :=
  match l with [] => None | x :: tl => Some (fold_left Z.min tl x) end.
Definition Zmax_list (l : list Z) : option Z :=
  match l with [] => None | x :: tl => Some (fold_left Z.max tl x) end.
Definition Nmin_list (l : list nat) : option nat :=
  match l with [] => None | x :: tl => Some (fold_left Nat.min tl x) end.

Definition mem_str (x : string) (l : list string) : bool := existsb (String.eqb x) l.
Definition mem_nat (x : nat) (l : list nat) : bool := existsb (Nat.eqb x) l.

(** Elements of [l] without later duplicates (set(l), in first-seen order). *)
Fixpoint dedup_by {A} (eqb : A -> A -> bool) (l : list A) : list A :=
  match l with
  | [] => []
  | x :: tl => x :: filter (fun y => negb (eqb x y)) (dedup_by eqb tl)
  end.

(** dict as an association list in insertion order: d[k] = v and del d[k]. *)
Fixpoint dict_set {V} (k : string) (v : V) (d : list (string * V)) : list (string * V) :=
  match d with
  | [] => [(k, v)]
  | (k', v') :: tl => if String.eqb k k' then (k', v) :: tl else (k', v') :: dict_set k v tl
  end.
Definition dict_del {V} (k : string) (d : list (string * V)) : list (string * V) :=
  filter (fun kv => negb (String.eqb k (fst kv))) d.
Fixpoint dict_get {V} (k : string) (d : list (string * V)) : option V :=
  match d with
  | [] => None
  | (k', v') :: tl => if String.eqb k k' then Some v' else dict_get k tl
  end.

(** itertools.product applied to a list of lists. *)
Fixpoint product {A} (ls : list (list A)) : list (list A) :=
  match ls with
  | [] => [[]]
  | l :: tl => flat_map (fun x => map (cons x) (product tl)) l
  end.

(** Consecutive pairs of a node path. *)
Fixpoint hops {A} (p : list A) : list (A * A) :=
  match p with
  | u :: tl => match tl with v :: _ => (u, v) :: hops tl | [] => [] end
  | [] => []
  end.

Definition cid_eqb (a b : cid) : bool :=
  match a, b with
  | CNone, CNone => true
  | CInt x, CInt y => Z.eqb x y
  | CStr x, CStr y => String.eqb x y
  | _, _ => false
  end.

Definition Qeqb : Q -> Q -> bool := Qeq_bool.
Definition Qleb : Q -> Q -> bool := Qle_bool.
Definition Qltb (a b : Q) : bool := negb (Qle_bool b a).
