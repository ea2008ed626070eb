(** Api.v - the public methods of _MasterModel, FlexModel and PerformanceModel
    that change or query the model, and histories of such calls. *)
From Verif Require Import Base Graph Objects Sim.

(** An entry of the list given to add_network_interfaces_from_list. *)
Record if_info := mkInfo {
  in_name : string; in_cost : Z; in_cap : Q; in_node : string; in_remote : string; in_cid : cid }.

(** simulation_diagnostics (master_model.py 44-132): the counts and the objects
    of the generators *)
Record diag := mkDiag {
  dg_with : Z;      (* Number of routed LSPs carrying Demands *)
  dg_without : Z;   (* Number of routed LSPs with no Demands *)
  dg_riding : Z;    (* Number of Demands riding LSPs *)
  dg_not_riding : Z;(* Number of Demands not riding LSPs *)
  dg_unr_lsps : Z;  (* Number of unrouted LSPs *)
  dg_unr_dmds : Z;  (* Number of unrouted Demands *)
  dg_lsps_without : list nat; dg_lsps_with : list nat; dg_dmds_riding : list nat }.

Definition is_lsp_item (it : item) : bool := match it with ILsp _ => true | IIf _ => false end.

Definition rides_lsp (s : st) (d : nat) : bool :=
  match d_path (h_dm s d) with
  | DUnrouted => false
  | DPaths ps => existsb (existsb is_lsp_item) ps
  end.

Definition demand_unrouted (s : st) (d : nat) : bool :=
  match d_path (h_dm s d) with DUnrouted => true | DPaths _ => false end.

Definition zlen {A} (l : list A) : Z := Z.of_nat (List.length l).

Definition simulation_diagnostics (s : st) : diag :=
  let no_d l := match demands_on_lsp s l with [] => true | _ => false end in
  let routed l := not_unrouted (l_path (h_ls s l)) in
  let without := filter (fun l => routed l && no_d l) (m_lsps s) in
  let withd := filter (fun l => routed l && negb (no_d l)) (m_lsps s) in
  let riding := filter (rides_lsp s) (m_dms s) in
  mkDiag (zlen withd) (zlen without) (zlen riding) (zlen (m_dms s) - zlen riding)%Z
         (zlen (filter (fun l => negb (routed l)) (m_lsps s)))
         (zlen (filter (demand_unrouted s) (m_dms s)))
         without withd riding.

(** ** Queries *)

(** get_failed_interface_objects / get_unfailed_interface_objects
    (master_model.py 661-676) *)
Definition get_failed_interfaces (s : st) : list nat := filter (fun i => i_failed (h_if s i)) (m_ifs s).
Definition get_unfailed_interfaces (s : st) : list nat := filter (fun i => negb (i_failed (h_if s i))) (m_ifs s).

(** get_unrouted_demand_objects (master_model.py 678-684) *)
Definition get_unrouted_demands (s : st) : list nat := filter (demand_unrouted s) (m_dms s).

(** get_failed_node_objects / get_non_failed_node_objects (master_model.py
    831-853) *)
Definition get_failed_nodes (s : st) : res (list nat) :=
  rmap (fun n => get_node s (n_name (h_nd s n))) (filter (fun n => n_failed (h_nd s n)) (m_nds s)).
Definition get_non_failed_nodes (s : st) : res (list nat) :=
  rmap (fun n => get_node s (n_name (h_nd s n))) (filter (fun n => negb (n_failed (h_nd s n))) (m_nds s)).

(** get_demand_objects_source_node / _dest_node (master_model.py 925-952) *)
Definition demands_from (s : st) (n : string) : list nat := filter (fun d => String.eqb (dsrc s d) n) (m_dms s).
Definition demands_to (s : st) (n : string) : list nat := filter (fun d => String.eqb (ddst s d) n) (m_dms s).

(** get_orphan_node_objects (master_model.py 1077-1081) *)
Definition get_orphans (s : st) : list nat :=
  filter (fun n => match node_interfaces s n with [] => true | _ => false end) (m_nds s).

(** is_node_an_orphan (master_model.py 1067-1075) *)
Definition is_orphan (s : st) (n : nat) : bool := mem_nd s n (get_orphans s).

(** get_demand_object (master_model.py 1136-1160) *)
Definition get_demand (s : st) (src dst name : string) : res nat :=
  match find (fun d => key3_eqb (dkey s d) (src, dst, name)) (m_dms s) with
  | Some d => Ok d
  | None => Err (ModelException "no matching demand")
  end.

(** get_rsvp_lsp (master_model.py 1162-1184) *)
Definition get_lsp (s : st) (src dst name : string) : res nat :=
  match find (fun l => key3_eqb (lkey s l) (src, dst, name)) (m_lsps s) with
  | Some l => Ok l
  | None => Err (ModelException "LSP does not exist in model")
  end.

(** get_circuit_object_from_interface (master_model.py 639-659) *)
Definition get_circuit (s : st) (iname nname : string) : res (nat * nat) :=
  rbind (get_interface s iname nname) (fun i =>
    match filter (fun c => iface_eqb s i (fst c) || iface_eqb s i (snd c)) (m_ckts s) with
    | c :: _ => Ok c
    | [] => Err IndexError
    end).

(** all_interface_circuit_ids (master_model.py 465-470) *)
Definition all_cids (s : st) : list cid := map (fun i => i_cid (h_if s i)) (m_ifs s).

Definition has_ikey (s : st) (key : string * string) : bool :=
  existsb (fun i => key2_eqb (ikey s i) key) (m_ifs s).

(** max(circuit_ids) + 1, or 1 for no ids (performance_model.py 696-698):
    TypeError when an id is not an int *)
Definition next_cid (s : st) : res cid :=
  match all_cids s with
  | [] => Ok (CInt 1)
  | ids =>
      if forallb (fun c => match c with CInt _ => true | _ => false end) ids then
        match Zmax_list (flat_map (fun c => match c with CInt z => [z] | _ => [] end) ids) with
        | Some z => Ok (CInt (z + 1))
        | None => Err ValueError
        end
      else Err TypeError
  end.

(** change_interface_name (master_model.py 686-700) *)
Definition change_interface_name (nname old new : string) : M unit :=
  i <- reads (fun s => get_interface s old nname) ;;
  modify (upd_if i (if_name new)).

(** fail_interface (master_model.py 702-722) *)
Definition fail_interface (iname nname : string) : M unit :=
  i <- reads (fun s => get_interface s iname nname) ;;
  j <- reads (fun s => get_remote_interface s i) ;;
  iface_set_failed j true ;;;
  iface_set_failed i true.

(** fail_node (master_model.py 797-807) *)
Definition fail_node (nname : string) : M unit :=
  ifs <- gets (fun s => ifaces_of_name s nname) ;;
  mfor ifs (fun i => nm <- gets (fun s => i_name (h_if s i)) ;; fail_interface nm nname) ;;;
  n <- reads (fun s => get_node s nname) ;;
  node_set_failed n true.

(** fail_srlg (master_model.py 979-1008).  The generators test membership
    lazily, i.e. in the state current at each step. *)
Definition fail_srlg (name : string) : M unit :=
  g <- reads (fun s => get_srlg s name) ;;
  nds <- gets m_nds ;;
  mfor nds (fun n =>
    b <- gets (fun s => mem_nd s n (srlg_nodes s g)) ;;
    if b : bool then nm <- gets (fun s => n_name (h_nd s n)) ;; fail_node nm else ret tt) ;;;
  ifs <- gets m_ifs ;;
  mfor ifs (fun i =>
    b <- gets (fun s => mem_if s i (srlg_ifaces s g)) ;;
    if b : bool then k <- gets (fun s => ikey s i) ;; fail_interface (fst k) (snd k) else ret tt) ;;;
  modify (upd_sr g (sr_set true)).

(** add_srlg (master_model.py 1051-1065) *)
Definition add_srlg (name : string) : M unit :=
  dup <- gets (fun s => mem_str name (map (fun g => sr_name (h_sr s g)) (m_srs s))) ;;
  if dup : bool then raise (ModelException "SRLG already exists in Model")
  else g <- srlg_new name ;; modify (fun s => set_srs (set_add_ref g (m_srs s)) s).

Definition ignore_model_exn (m : M unit) : M unit :=
  try m (fun e => if is_model_exn e then Some (ret tt) else None).

Section Api.
Variable E : env.
Variable k : kind.

(** unfail_interface (master_model.py 724-770) *)
Definition unfail_interface (iname nname : string) (raise_exception : bool) : M unit :=
  i <- reads (fun s => get_interface s iname nname) ;;
  j <- reads (fun s => get_remote_interface s i) ;;
  a <- reads (fun s => get_node s (ilocal s i)) ;;
  fa <- gets (fun s => n_failed (h_nd s a)) ;;
  ok <- (if fa : bool then ret false
         else b <- reads (fun s => get_node s (ilocal s j)) ;;
              gets (fun s => negb (n_failed (h_nd s b)))) ;;
  if ok : bool then
    iface_set_failed j false ;;;
    modify (upd_if j (if_res 0%Q)) ;;;
    iface_set_failed i false ;;;
    modify (upd_if i (if_res 0%Q)) ;;;
    validate_model E k
  else if raise_exception then
    raise (ModelException "Local and/or remote node are failed; cannot have unfailed interface on failed node.")
  else ret tt.

(** unfail_node (master_model.py 809-829) *)
Definition unfail_node (nname : string) : M unit :=
  n <- reads (fun s => get_node s nname) ;;
  node_set_failed n false ;;;
  ifs <- gets (fun s => ifaces_of_name s nname) ;;
  mfor ifs (fun i =>
    rf <- gets (fun s => n_failed (h_nd s (i_rem (h_if s i)))) ;;
    if rf : bool then ret tt
    else
      nm <- gets (fun s => i_name (h_if s i)) ;;
      unfail_interface nm nname false ;;;
      j <- reads (fun s => get_remote_interface s i) ;;
      kj <- gets (fun s => ikey s j) ;;
      unfail_interface (fst kj) (snd kj) false).

(** unfail_srlg (master_model.py 1010-1049) *)
Definition unfail_srlg (name : string) : M unit :=
  g <- reads (fun s => get_srlg s name) ;;
  modify (upd_sr g (sr_set false)) ;;;
  nds <- gets m_nds ;;
  mfor nds (fun n =>
    b <- gets (fun s => mem_nd s n (srlg_nodes s g)) ;;
    if b : bool then
      nm <- gets (fun s => n_name (h_nd s n)) ;; ignore_model_exn (unfail_node nm)
    else ret tt) ;;;
  ifs <- gets m_ifs ;;
  mfor ifs (fun i =>
    b <- gets (fun s => mem_if s i (srlg_ifaces s g)) ;;
    if b : bool then
      ky <- gets (fun s => ikey s i) ;; ignore_model_exn (unfail_interface (fst ky) (snd ky) false)
    else ret tt).

(** add_node (master_model.py 1083-1098); [n] is the Node object given *)
Definition add_node (n : nat) : M unit :=
  dup <- gets (fun s => mem_str (n_name (h_nd s n)) (node_names s)) ;;
  if dup : bool then raise (ModelException "A node with name already exists in the model")
  else
    modify (fun s => set_nds (set_add_nd s n (m_nds s)) s) ;;;
    validate_model E k.

(** add_demand (master_model.py 472-491) *)
Definition add_demand (src dst : string) (traffic : Q) (name : string) : M unit :=
  a <- reads (fun s => get_node s src) ;;
  b <- reads (fun s => get_node s dst) ;;
  d <- demand_new a b traffic name ;;
  dup <- gets (fun s => existsb (fun d' => key3_eqb (dkey s d') (dkey s d)) (m_dms s)) ;;
  if dup : bool then raise (ModelException "already exists in demand_objects")
  else
    modify (fun s => set_dms (set_add_ref d (m_dms s)) s) ;;;
    validate_model E k.

(** add_rsvp_lsp (master_model.py 1115-1134) *)
Definition add_rsvp_lsp (src dst name : string) : M unit :=
  a <- reads (fun s => get_node s src) ;;
  b <- reads (fun s => get_node s dst) ;;
  l <- lsp_new a b name None None ;;
  dup <- gets (fun s => existsb (fun l' => key3_eqb (lkey s l') (lkey s l)) (m_lsps s)) ;;
  if dup : bool then raise (ModelException "already exists in rsvp_lsp_objects")
  else
    modify (fun s => set_lsps (set_add_ref l (m_lsps s)) s) ;;;
    validate_model E k.

(** add_circuit (flex_model.py 1234-1306, performance_model.py 664-730).  The
    parameter [failed] is not used by the code and is omitted. *)
Definition add_circuit (a b : nat) (name_a name_b : string) (cost_a cost_b : Z) (cap : Q) (c : cid) : M unit :=
  c' <- match k, c with
        | Flex, CNone => raise (ModelException "circuit_id must be specified explicitly")
        | Flex, _ =>
            dup <- gets (fun s => existsb (cid_eqb c) (all_cids s)) ;;
            if dup : bool then raise (ModelException "circuit_id value already exists in model") else ret c
        | Perf, CNone => reads next_cid
        | Perf, _ => ret c
        end ;;
  ia <- iface_new name_a cost_a cap a b c' true 100 ;;
  ib <- iface_new name_b cost_b cap b a c' true 100 ;;
  da <- gets (fun s => has_ikey s (ikey s ia)) ;;
  db <- gets (fun s => has_ikey s (ikey s ib)) ;;
  if (da || db)%bool then raise (ModelException "interface already exists in model")
  else
    modify (fun s => set_ifs (set_add_if s ia (m_ifs s)) s) ;;;
    modify (fun s => set_ifs (set_add_if s ib (m_ifs s)) s) ;;;
    validate_model E k.

(** _make_network_interfaces (master_model.py 1186-1217): the accumulators are
    network_interface_objects and network_node_objects *)
Fixpoint make_network_interfaces (l : list if_info) (ifs nds : list nat) : M (list nat * list nat) :=
  match l with
  | [] => ret (ifs, nds)
  | x :: tl =>
      a <- node_new (in_node x) ;;
      b <- node_new (in_remote x) ;;
      i <- iface_new (in_name x) (in_cost x) (in_cap x) a b (in_cid x) true 100 ;;
      ifs' <- gets (fun s => set_add_if s i ifs) ;;
      names <- gets node_names ;;
      nds1 <- (if mem_str (in_node x) names then ret nds
               else n <- node_new (in_node x) ;; gets (fun s => set_add_nd s n nds)) ;;
      nds2 <- (if mem_str (in_remote x) names then ret nds1
               else n <- node_new (in_remote x) ;; gets (fun s => set_add_nd s n nds1)) ;;
      make_network_interfaces tl ifs' nds2
  end.

(** add_network_interfaces_from_list (flex_model.py 94-119, performance_model.py
    102-127) *)
Definition add_network_interfaces (l : list if_info) : M unit :=
  r <- make_network_interfaces l [] [] ;;
  modify (fun s => set_nds (fold_left (fun acc n => set_add_nd s n acc) (snd r) (m_nds s)) s) ;;;
  modify (fun s => set_ifs (fold_left (fun acc i => set_add_if s i acc) (fst r) (m_ifs s)) s) ;;;
  validate_model E k.

(** ** Histories
    Calls that a client can make.  Objects are named by reference; [OpNewNode]
    is the Node constructor. *)
Inductive op :=
| OpUpdate | OpValidate
| OpFailIf (iname nname : string) | OpUnfailIf (iname nname : string) (raise_exception : bool)
| OpFailNode (n : string) | OpUnfailNode (n : string)
| OpFailSrlg (n : string) | OpUnfailSrlg (n : string)
| OpAddSrlg (n : string)
| OpIfToSrlg (i : nat) (n : string) (create : bool) | OpIfFromSrlg (i : nat) (n : string)
| OpNdToSrlg (i : nat) (n : string) (create : bool) | OpNdFromSrlg (i : nat) (n : string)
| OpNewNode (n : string) | OpAddNode (n : nat)
| OpAddDemand (src dst : string) (traffic : Q) (name : string)
| OpAddLsp (src dst name : string)
| OpAddCircuit (a b : nat) (name_a name_b : string) (cost_a cost_b : Z) (cap : Q) (c : cid)
| OpAddInterfaces (l : list if_info)
| OpRenameIf (nname old new : string)
| OpSetMetric (l : nat) (v : Z)
| OpSetCost (i : nat) (c : Z) | OpSetCapacity (i : nat) (c : Q)
| OpIfFail (i : nat) | OpIfUnfail (i : nat)
| OpIfSetFailed (i : nat) (b : bool) | OpNdSetFailed (n : nat) (b : bool)
| OpTrafficOnLsp (l : nat) | OpEffectiveMetric (l : nat).

Definition discard {A} (m : M A) : M unit := m ;;; ret tt.

Definition run_op (o : op) : M unit :=
  match o with
  | OpUpdate => update_simulation E k
  | OpValidate => validate_model E k
  | OpFailIf i n => fail_interface i n
  | OpUnfailIf i n r => unfail_interface i n r
  | OpFailNode n => fail_node n
  | OpUnfailNode n => unfail_node n
  | OpFailSrlg n => fail_srlg n
  | OpUnfailSrlg n => unfail_srlg n
  | OpAddSrlg n => add_srlg n
  | OpIfToSrlg i n c => iface_add_to_srlg i n c
  | OpIfFromSrlg i n => iface_remove_from_srlg i n
  | OpNdToSrlg i n c => node_add_to_srlg i n c
  | OpNdFromSrlg i n => node_remove_from_srlg i n
  | OpNewNode n => discard (node_new n)
  | OpAddNode n => add_node n
  | OpAddDemand s d t n => add_demand s d t n
  | OpAddLsp s d n => add_rsvp_lsp s d n
  | OpAddCircuit a b na nb ca cb cap c => add_circuit a b na nb ca cb cap c
  | OpAddInterfaces l => add_network_interfaces l
  | OpRenameIf n o w => change_interface_name n o w
  | OpSetMetric l v => set_manual_metric l v
  | OpSetCost i c => iface_set_cost i c
  | OpSetCapacity i c => iface_set_capacity i c
  | OpIfFail i => iface_fail i
  | OpIfUnfail i => iface_unfail i
  | OpIfSetFailed i b => iface_set_failed i b
  | OpNdSetFailed n b => node_set_failed n b
  | OpTrafficOnLsp l => discard (traffic_on_lsp E k l)
  | OpEffectiveMetric l => discard (effective_metric E k l)
  end.

(** A client that catches every exception and goes on. *)
Fixpoint run_ops (l : list op) (s : st) : st :=
  match l with
  | [] => s
  | o :: tl => run_ops tl (fst (run_op o s))
  end.

End Api.

(** A model with no objects: FlexModel() / PerformanceModel() with fresh empty
    sets (master_model.py 29-42). *)
Definition dummy_node : node := mkNode "" false 0 0 [] false.
Definition dummy_if : iface := mkIface "" 1 1 0 0 CNone (TNum 0) false 0 [] true 100 false.
Definition dummy_demand : demand := mkDemand 0 0 0 "" DUnrouted PDInitial.
Definition dummy_lsp : lsp := mkLsp 0 0 "" PInit RInit RInit None None None.
Definition init_st : st :=
  mkSt (fun _ => dummy_if) (fun _ => dummy_node) (fun _ => mkSrlg "" false)
       (fun _ => dummy_demand) (fun _ => dummy_lsp) [] [] [] [] [] [] [] 0 0.
