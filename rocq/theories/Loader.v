(** Loader.v - load_model_file (flex_model.py 1732-2031, performance_model.py
    974-1234, master_model.py 493-621, utilities.py).

    The input is the list of lines; Text.v has the way from the bytes of a file to
    its lines.  int(str) and float(str) are oracles here that give None for
    ValueError; Text.v defines them (nan and inf are not modelled).  The loader's local sets are the
    object sets of the model under construction, since the last step hands
    exactly these sets to the constructor; messages printed for disregarded
    lines are not modelled. *)
From Verif Require Import Base Graph Objects Sim Api.

Definition tab : ascii := ascii_of_nat 9.

(** line.split("\t") *)
Fixpoint split_tab (s : string) : list string :=
  match s with
  | EmptyString => [EmptyString]
  | String c tl =>
      if Ascii.eqb c tab then EmptyString :: split_tab tl
      else match split_tab tl with
           | x :: r => String c x :: r
           | [] => [String c EmptyString]
           end
  end.

(** lines.index(x): None models ValueError *)
Fixpoint line_index (x : string) (lines : list string) : option nat :=
  match lines with
  | [] => None
  | y :: tl => if String.eqb y x then Some O
               else match line_index x tl with Some n => Some (S n) | None => None end
  end.

(** find_end_index (utilities.py 1-11) *)
Definition find_end_index (start : nat) (lines : list string) : option nat :=
  match line_index "" (skipn start lines) with
  | Some n => Some (start + n)%nat
  | None => None
  end.

(** lines[start:end]; end may be None *)
Definition slice (start : nat) (stop : option nat) (lines : list string) : list string :=
  match stop with
  | Some e => firstn (e - start) (skipn start lines)
  | None => skipn start lines
  end.

Definition table (name : string) (lines : list string) : res (list string) :=
  match line_index name lines with
  | None => Err ValueError
  | Some i => Ok (slice (i + 2) (find_end_index (i + 2) lines) lines)
  end.

Section Load.
Variable k : kind.
Variable py_int : string -> option Z.
Variable py_float : string -> option Q.

Definition rsvp_flag (x : string) : bool := mem_str x ["T"; "True"; "true"].

Definition lift_opt {A} (o : option A) (e : pyexn) : M A :=
  match o with Some a => ret a | None => raise e end.

(** The fields of an interface line: node, remote node, name, cost, capacity,
    circuit_id, rsvp flag, percent_reservable_bandwidth text (None is the
    default 100).  Too many fields make the unpacking raise ValueError, too few
    are reported as ModelException (flex_model.py 1938-1992,
    performance_model.py 1144-1196). *)
Record if_line := mkIfLine {
  il_node : string; il_remote : string; il_name : string; il_cost : string; il_cap : string;
  il_cid : cid; il_rsvp : bool; il_pct : option string }.

Definition parse_if_line (line : string) : res if_line :=
  match k, split_tab line with
  | Flex, [a; b; n; c; p; ci] => Ok (mkIfLine a b n c p (CStr ci) true None)
  | Flex, [a; b; n; c; p; ci; r] => Ok (mkIfLine a b n c p (CStr ci) (rsvp_flag r) None)
  | Flex, [a; b; n; c; p; ci; r; q] => Ok (mkIfLine a b n c p (CStr ci) (rsvp_flag r) (Some q))
  | Perf, [a; b; n; c; p] => Ok (mkIfLine a b n c p CNone true None)
  | Perf, [a; b; n; c; p; r] => Ok (mkIfLine a b n c p CNone (rsvp_flag r) None)
  | Perf, [a; b; n; c; p; r; q] => Ok (mkIfLine a b n c p CNone (rsvp_flag r) (Some q))
  | Flex, l => if Nat.leb 8 (List.length l) then Err ValueError
               else Err (ModelException "must be defined for line")
  | Perf, l => if Nat.leb 7 (List.length l) then Err ValueError
               else Err (ModelException "must be defined for line")
  end.

(** [node for node in node_set if node.name == name][0] if present, else
    Node(name), not yet in the set (flex_model.py 1994-2006) *)
Definition node_or_new (name : string) : M nat :=
  found <- gets (fun s => find (fun n => String.eqb (n_name (h_nd s n)) name) (m_nds s)) ;;
  match found with Some n => ret n | None => node_new name end.

Definition add_implied_node (name : string) (n : nat) : M unit :=
  present <- gets (fun s => mem_str name (node_names s)) ;;
  if present : bool then ret tt else modify (fun s => set_nds (set_add_nd s n (m_nds s)) s).

(** One interface line (flex_model.py 1938-2029, performance_model.py
    1144-1232) *)
Definition load_if_line (line : string) : M unit :=
  x <- reads (fun _ => parse_if_line line) ;;
  a <- node_or_new (il_node x) ;;
  b <- node_or_new (il_remote x) ;;
  cost <- lift_opt (py_int (il_cost x)) ValueError ;;
  cap <- lift_opt (py_int (il_cap x)) ValueError ;;
  pct <- match il_pct x with
         | None => ret 100%Q
         | Some t => lift_opt (py_float t) ValueError
         end ;;
  i <- iface_new (il_name x) cost (inject_Z cap) a b (il_cid x) (il_rsvp x) pct ;;
  dup <- gets (fun s => has_ikey s (ikey s i)) ;;
  (if dup : bool then ret tt
   else modify (fun s => set_ifs (set_add_if s i (m_ifs s)) s)) ;;;
  add_implied_node (il_node x) a ;;;
  add_implied_node (il_remote x) b.

(** FlexModel: every circuit_id must appear exactly twice (flex_model.py
    1852-1874) *)
Definition circuit_ids_of (lines : list string) : list string :=
  flat_map (fun l => match nth_error (split_tab l) 5 with Some c => [c] | None => [] end) lines.
Definition count_str (x : string) (l : list string) : nat :=
  List.length (filter (String.eqb x) l).
Definition circuit_ids_ok (lines : list string) : bool :=
  forallb (fun c => Nat.eqb (count_str c (circuit_ids_of lines)) 2) (circuit_ids_of lines).

(** igp_shortcuts_enabled setter with the text of the file (node.py 110-121) *)
Definition shortcut_flag (x : option string) : res bool :=
  match x with
  | None => Ok false
  | Some "True" => Ok true
  | Some "False" => Ok false
  | Some _ => Err ValueError
  end.

Definition int_or_zero (x : option string) : Q :=
  match x with
  | Some t => match py_int t with Some z => inject_Z z | None => 0%Q end
  | None => 0%Q
  end.

(** _add_node_from_data (master_model.py 585-621) *)
Definition load_node_line (line : string) : M unit :=
  let info := split_tab line in
  let name := nth 0 info "" in
  let lat := int_or_zero (nth_error info 2) in
  let lon := int_or_zero (nth_error info 1) in
  n <- node_new name ;;
  sc <- reads (fun _ => shortcut_flag (nth_error info 3)) ;;
  present <- gets (fun s => mem_str name (node_names s)) ;;
  if present : bool then
    m <- reads (fun s => get_node s name) ;;
    modify (upd_nd m (fun r => nd_shortcuts sc (nd_pos lat lon r)))
  else
    modify (upd_nd n (nd_shortcuts sc)) ;;;
    modify (fun s => set_nds (set_add_nd s n (m_nds s)) s) ;;;
    modify (upd_nd n (fun r => nd_shortcuts sc (nd_pos lat lon r))).

Definition field (l : list string) (i : nat) : M string :=
  lift_opt (nth_error l i) IndexError.

Definition node_named (name : string) : M nat := reads (fun s => get_node s name).

(** _add_demand_from_data (master_model.py 547-583) *)
Definition load_demand_line (line : string) : M unit :=
  let info := split_tab line in
  src <- field info 0 ;; a <- node_named src ;;
  dst <- field info 1 ;; b <- node_named dst ;;
  t <- field info 2 ;;
  traffic <- lift_opt (py_int t) ValueError ;;
  nm <- field info 3 ;;
  d <- demand_new a b (inject_Z traffic) (if String.eqb nm "" then "none" else nm) ;;
  dup <- gets (fun s => existsb (fun d' => key3_eqb (dkey s d') (dkey s d)) (m_dms s)) ;;
  if dup : bool then ret tt else modify (fun s => set_dms (set_add_ref d (m_dms s)) s).

(** _add_lsp_from_data (master_model.py 493-545), one line *)
Definition load_lsp_line (line : string) : M unit :=
  let info := split_tab line in
  src <- field info 0 ;; a <- node_named src ;;
  dst <- field info 1 ;; b <- node_named dst ;;
  nm <- field info 2 ;;
  let cfg := match nth_error info 3 with Some t => py_float t | None => None end in
  let mm := match nth_error info 4 with Some t => py_int t | None => None end in
  l <- lsp_new a b nm cfg mm ;;
  dup <- gets (fun s => existsb (fun l' => key3_eqb (lkey s l') (lkey s l)) (m_lsps s)) ;;
  if dup : bool then ret tt else modify (fun s => set_lsps (set_add_ref l (m_lsps s)) s).

(** load_model_file, from the list of lines *)
Definition load (lines : list string) : M unit :=
  iflines <- reads (fun _ => table "INTERFACES_TABLE" lines) ;;
  (match k with
   | Flex => if circuit_ids_ok iflines then ret tt
             else raise (ModelException "Each circuit_id value must appear exactly twice")
   | Perf => ret tt
   end) ;;;
  mfor iflines load_if_line ;;;
  ndlines <- reads (fun _ => table "NODES_TABLE" lines) ;;
  mfor ndlines load_node_line ;;;
  dmlines <- reads (fun _ => table "DEMANDS_TABLE" lines) ;;
  mfor dmlines load_demand_line ;;;
  match line_index "RSVP_LSP_TABLE" lines with
  | None => ret tt
  | Some i =>
      try (mfor (skipn (i + 2) lines) load_lsp_line)
          (fun e => match e with ValueError => Some (ret tt) | _ => None end)
  end.

Definition load_model_file (lines : list string) : res st :=
  match load lines init_st with
  | (s, Ok _) => Ok s
  | (_, Err e) => Err e
  end.

End Load.
