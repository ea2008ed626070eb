(** Objects.v - methods of the classes Node, Interface, SRLG, RSVP_LSP, Circuit
    and the parts of _MasterModel that they call.
    "is True"/"is False" tests are ordinary boolean tests: the attributes only
    ever hold booleans. *)
From Verif Require Import Base Graph.

(** ** Names *)

(** interface.node_object.name and interface.remote_node_object.name *)
Definition ilocal (s : st) (i : nat) : string := n_name (h_nd s (i_node (h_if s i))).
Definition iremote (s : st) (i : nat) : string := n_name (h_nd s (i_rem (h_if s i))).

(** Interface._key (interface.py 39-41) *)
Definition ikey (s : st) (i : nat) : string * string := (i_name (h_if s i), ilocal s i).
Definition key2_eqb (a b : string * string) : bool :=
  String.eqb (fst a) (fst b) && String.eqb (snd a) (snd b).

(** RSVP_LSP._key (rsvp.py 52-54) and Demand._key (demand.py 23-25) *)
Definition lsrc (s : st) (l : nat) : string := n_name (h_nd s (l_src (h_ls s l))).
Definition ldst (s : st) (l : nat) : string := n_name (h_nd s (l_dst (h_ls s l))).
Definition dsrc (s : st) (d : nat) : string := n_name (h_nd s (d_src (h_dm s d))).
Definition ddst (s : st) (d : nat) : string := n_name (h_nd s (d_dst (h_dm s d))).
Definition lkey (s : st) (l : nat) : string * string * string :=
  (lsrc s l, ldst s l, l_name (h_ls s l)).
Definition dkey (s : st) (d : nat) : string * string * string :=
  (dsrc s d, ddst s d, d_name (h_dm s d)).
Definition key3_eqb (a b : string * string * string) : bool :=
  String.eqb (fst (fst a)) (fst (fst b)) && String.eqb (snd (fst a)) (snd (fst b))
  && String.eqb (snd a) (snd b).

(** ** Equality *)

(** Set equality of SRLG reference sets (SRLG has identity equality). *)
Definition srlgs_eqb (a b : list nat) : bool :=
  forallb (fun x => mem_nat x b) a && forallb (fun x => mem_nat x a) b.

(** Node.__eq__ compares the whole __dict__ (node.py 39-40); "is" is checked
    first by list and set operations. *)
Definition node_eqb (s : st) (a b : nat) : bool :=
  Nat.eqb a b ||
  (let x := h_nd s a in let y := h_nd s b in
   String.eqb (n_name x) (n_name y) && Bool.eqb (n_failed x) (n_failed y)
   && Qeqb (n_lat x) (n_lat y) && Qeqb (n_lon x) (n_lon y)
   && srlgs_eqb (n_srlgs x) (n_srlgs y) && Bool.eqb (n_shortcuts x) (n_shortcuts y)).

(** Interface.__eq__ (interface.py 44-60): node, remote node, name, capacity,
    circuit_id; identity first. *)
Definition iface_eqb (s : st) (a b : nat) : bool :=
  Nat.eqb a b ||
  (let x := h_if s a in let y := h_if s b in
   node_eqb s (i_node x) (i_node y) && node_eqb s (i_rem x) (i_rem y)
   && String.eqb (i_name x) (i_name y) && Qeqb (i_cap x) (i_cap y)
   && cid_eqb (i_cid x) (i_cid y)).

(** interface in <list or set of interfaces>.  For sets Python also compares the
    stored hash of name + node name; equal interfaces have equal hashes unless
    one was renamed after insertion, which is ignored here. *)
Definition mem_if (s : st) (i : nat) (l : list nat) : bool := existsb (iface_eqb s i) l.
Definition mem_nd (s : st) (n : nat) (l : list nat) : bool := existsb (node_eqb s n) l.

(** Demand and RSVP_LSP have identity equality; an Interface is never equal to
    an RSVP_LSP (interface.py 45-46). *)
Definition item_eqb (s : st) (a b : item) : bool :=
  match a, b with
  | IIf i, IIf j => iface_eqb s i j
  | ILsp l, ILsp m => Nat.eqb l m
  | _, _ => false
  end.
Definition mem_item (s : st) (x : item) (l : list item) : bool := existsb (item_eqb s x) l.

(** interface_objects.add(i) / union: no-op when an equal element is present. *)
Definition set_add_if (s : st) (i : nat) (l : list nat) : list nat :=
  if mem_if s i l then l else l ++ [i].
Definition set_add_nd (s : st) (n : nat) (l : list nat) : list nat :=
  if mem_nd s n l then l else l ++ [n].
Definition set_add_ref (x : nat) (l : list nat) : list nat :=
  if mem_nat x l then l else l ++ [x].

(** ** Interface *)

(** Interface.reserved_bandwidth getter (interface.py 109-113) *)
Definition reserved_bw (s : st) (i : nat) : Q := round1 (i_res (h_if s i)).

(** Interface.reservable_bandwidth (interface.py 94-106) *)
Definition reservable_bw (s : st) (i : nat) : Q :=
  let r := h_if s i in
  if i_rsvp r then round1 (i_cap r * (i_pct r / 100) - reserved_bw s i)%Q else (-(1))%Q.

(** interface.reserved_bandwidth += x (getter 109-113, setter 116-128) *)
Definition add_reserved (i : nat) (x : Q) : M unit :=
  modify (fun s => upd_if i (if_res (reserved_bw s i + x)%Q) s).

(** Interface.failed setter (interface.py 141-180) *)
Definition iface_set_failed (i : nat) (status : bool) : M unit :=
  if status then modify (fun s => upd_if i (fun r => if_res 0%Q (if_failed true r)) s)
  else
    r <- gets (fun s => h_if s i) ;;
    infailed <- gets (fun s => existsb (fun g => sr_failed (h_sr s g)) (i_srlgs r)) ;;
    if infailed : bool then
      modify (fun s => upd_if i (fun r => if_res 0%Q (if_failed true r)) s) ;;;
      raise (ModelException "Interface must be failed since it is a member of one or more SRLGs that are failed")
    else
      nf <- gets (fun s => n_failed (h_nd s (i_node r))) ;;
      rf <- gets (fun s => n_failed (h_nd s (i_rem r))) ;;
      if negb nf && negb rf then modify (fun s => upd_if i (if_failed false) s)
      else modify (fun s => upd_if i (fun r => if_res 0%Q (if_failed true r)) s).

(** Interface.cost setter (interface.py 187-192); non-integers are not modelled *)
Definition iface_set_cost (i : nat) (c : Z) : M unit :=
  if (c <? 1)%Z then raise (ModelException "Interface cost cannot be less than 1")
  else modify (upd_if i (if_cost c)).

(** Interface.capacity setter (interface.py 199-202) *)
Definition iface_set_capacity (i : nat) (c : Q) : M unit :=
  if negb (Qltb 0 c) then raise (ModelException "Interface capacity must be greater than 0")
  else modify (upd_if i (if_cap c)).

(** Interface.__init__ (interface.py 12-36): the cost and capacity setters may
    raise; no object is then created. *)
Definition iface_new (name : string) (cost : Z) (cap : Q) (nd rem : nat) (c : cid)
  (rsvp : bool) (pct : Q) : M nat :=
  if (cost <? 1)%Z then raise (ModelException "Interface cost cannot be less than 1")
  else if negb (Qltb 0 cap) then raise (ModelException "Interface capacity must be greater than 0")
  else
    i <- gets s_next ;;
    modify (fun s => bump_next (upd_if i
      (fun _ => mkIface name cost cap nd rem c (TNum 0) false 0 [] rsvp pct false) s)) ;;;
    ret i.

(** Node.interfaces(model) (node.py 123-138) *)
Definition ifaces_of_name (s : st) (n : string) : list nat :=
  filter (fun i => String.eqb (ilocal s i) n) (m_ifs s).
Definition node_interfaces (s : st) (n : nat) : list nat :=
  ifaces_of_name s (n_name (h_nd s n)).

(** Python list equality of two lists of interfaces *)
Fixpoint ifs_eqb (s : st) (a b : list nat) : bool :=
  match a, b with
  | [], [] => true
  | x :: a', y :: b' => iface_eqb s x y && ifs_eqb s a' b'
  | _, _ => false
  end.

(** Interface.get_remote_interface (interface.py 239-269); when the loop finds
    nothing [remote_interface] is unbound. *)
Definition get_remote_interface (s : st) (i : nat) : res nat :=
  match find (fun j => String.eqb (ilocal s j) (iremote s i)
                       && cid_eqb (i_cid (h_if s j)) (i_cid (h_if s i))) (m_ifs s) with
  | None => Err UnboundLocalError
  | Some j =>
      if ifs_eqb s (node_interfaces s (i_rem (h_if s j))) (node_interfaces s (i_node (h_if s i)))
      then Ok j
      else Err (ModelException "Internal Validation Error")
  end.

(** Interface.fail_interface (interface.py 204-217) *)
Definition iface_fail (i : nat) : M unit :=
  j <- reads (fun s => get_remote_interface s i) ;;
  iface_set_failed i true ;;; iface_set_failed j true.

(** Interface.unfail_interface (interface.py 219-237) *)
Definition iface_unfail (i : nat) : M unit :=
  j <- reads (fun s => get_remote_interface s i) ;;
  r <- gets (fun s => h_if s i) ;;
  nf <- gets (fun s => n_failed (h_nd s (i_node r))) ;;
  rf <- gets (fun s => n_failed (h_nd s (i_rem r))) ;;
  if negb nf && negb rf then iface_set_failed i false ;;; iface_set_failed j false
  else raise (ModelException "Local and/or remote node are failed; cannot have unfailed interface on failed node").

(** Interface.utilization (interface.py 341-348): None is "Int is down"; "%.2f"
    is rounding to two decimals (half to even on the exact value). *)
Definition utilization (s : st) (i : nat) : option Q :=
  match i_traffic (h_if s i) with
  | TDown => None
  | TNum t => Some (round2 (t / i_cap (h_if s i) * 100)%Q)
  end.

(** ** Node *)

(** Node.failed setter (node.py 60-78) *)
Definition node_set_failed (n : nat) (status : bool) : M unit :=
  if status then modify (upd_nd n (nd_failed true))
  else
    infailed <- gets (fun s => existsb (fun g => sr_failed (h_sr s g)) (n_srlgs (h_nd s n))) ;;
    if infailed : bool then
      modify (upd_nd n (nd_failed true)) ;;;
      raise (ModelException "Node must be failed since it is a member of one or more SRLGs that are failed")
    else modify (upd_nd n (nd_failed false)).

(** Node.__init__ (node.py 16-28) with numeric lat/lon *)
Definition node_new (name : string) : M nat :=
  n <- gets s_next ;;
  modify (fun s => bump_next (upd_nd n (fun _ => mkNode name false 0 0 [] false) s)) ;;;
  ret n.

(** Node.adjacent_nodes (node.py 140-155): a set of remote node objects *)
Definition adjacent_nodes (s : st) (n : nat) : list nat :=
  fold_left (fun acc i => set_add_nd s (i_rem (h_if s i)) acc) (node_interfaces s n) [].

(** ** SRLG (srlg.py 49-63): membership is computed from the model's objects *)
Definition srlg_nodes (s : st) (g : nat) : list nat :=
  filter (fun n => mem_nat g (n_srlgs (h_nd s n))) (m_nds s).
Definition srlg_ifaces (s : st) (g : nat) : list nat :=
  filter (fun i => mem_nat g (i_srlgs (h_if s i))) (m_ifs s).

(** SRLG.__init__ (srlg.py 22-36): raises on a duplicate name, else adds itself
    to model.srlg_objects *)
Definition srlg_new (name : string) : M nat :=
  dup <- gets (fun s => mem_str name (map (fun g => sr_name (h_sr s g)) (m_srs s))) ;;
  if dup : bool then raise (ModelException "SRLG already exists in Model")
  else
    g <- gets s_next ;;
    modify (fun s => bump_next (upd_sr g (fun _ => mkSrlg name false) s)) ;;;
    modify (fun s => set_srs (set_add_ref g (m_srs s)) s) ;;;
    ret g.

(** ** Lookups of _MasterModel used by the object methods *)

(** get_srlg_object (master_model.py 955-977) with raise_exception=True *)
Definition get_srlg (s : st) (name : string) : res nat :=
  match filter (fun g => String.eqb (sr_name (h_sr s g)) name) (m_srs s) with
  | [g] => Ok g
  | _ => Err (ModelException "No SRLG with name exists in Model")
  end.

(** get_node_object (master_model.py 1100-1113) *)
Definition get_node (s : st) (name : string) : res nat :=
  match filter (fun n => String.eqb (n_name (h_nd s n)) name) (m_nds s) with
  | n :: _ => Ok n
  | [] => Err (ModelException "No node with name exists in the model")
  end.

(** _does_interface_exist (master_model.py 623-637) and get_interface_object
    (772-790) *)
Definition get_interface (s : st) (iname nname : string) : res nat :=
  if existsb (fun i => key2_eqb (ikey s i) (iname, nname)) (m_ifs s) then
    rbind (get_node s nname) (fun n =>
      match filter (fun i => String.eqb (i_name (h_if s i)) iname) (node_interfaces s n) with
      | i :: _ => Ok i
      | [] => Err IndexError
      end)
  else Err (ModelException "specified interface does not exist").

(** ** SRLG membership changes *)

Definition refs_remove (x : nat) (l : list nat) : list nat := filter (fun y => negb (Nat.eqb x y)) l.

(** Interface.add_to_srlg (interface.py 354-398).  The calls
    get_srlg.interface_objects.add(...) act on a temporary set and are no-ops. *)
Definition iface_add_to_srlg (i : nat) (name : string) (create : bool) : M unit :=
  sr <- gets (fun s => get_srlg s name) ;;
  match sr with
  | Ok g =>
      modify (upd_if i (fun r => if_srlgs (set_add_ref g (i_srlgs r)) r)) ;;;
      j <- reads (fun s => get_remote_interface s i) ;;
      modify (upd_if j (fun r => if_srlgs (set_add_ref g (i_srlgs r)) r))
  | Err _ =>
      if create then
        g <- srlg_new name ;;
        modify (fun s => set_srs (set_add_ref g (m_srs s)) s) ;;;
        modify (upd_if i (fun r => if_srlgs (set_add_ref g (i_srlgs r)) r)) ;;;
        j <- reads (fun s => get_remote_interface s i) ;;
        modify (upd_if j (fun r => if_srlgs (set_add_ref g (i_srlgs r)) r))
      else raise (ModelException "An SRLG with name does not exist in the Model")
  end.

(** Interface.remove_from_srlg (interface.py 400-430).  set.remove raises
    KeyError when the element is absent. *)
Definition iface_remove_from_srlg (i : nat) (name : string) : M unit :=
  sr <- gets (fun s => get_srlg s name) ;;
  match sr with
  | Err _ => raise (ModelException "An SRLG with name does not exist in the Model")
  | Ok g =>
      ok <- gets (fun s => mem_if s i (srlg_ifaces s g)) ;;
      (if ok : bool then ret tt else raise KeyError) ;;;
      own <- gets (fun s => mem_nat g (i_srlgs (h_if s i))) ;;
      (if own : bool then ret tt else raise KeyError) ;;;
      modify (upd_if i (fun r => if_srlgs (refs_remove g (i_srlgs r)) r)) ;;;
      j <- reads (fun s => get_remote_interface s i) ;;
      ok' <- gets (fun s => mem_if s j (srlg_ifaces s g)) ;;
      (if ok' : bool then ret tt else raise KeyError) ;;;
      own' <- gets (fun s => mem_nat g (i_srlgs (h_if s j))) ;;
      (if own' : bool then ret tt else raise KeyError) ;;;
      modify (upd_if j (fun r => if_srlgs (refs_remove g (i_srlgs r)) r)) ;;;
      iface_set_failed i false
  end.

(** Node.add_to_srlg (node.py 157-191) *)
Definition node_add_to_srlg (n : nat) (name : string) (create : bool) : M unit :=
  sr <- gets (fun s => get_srlg s name) ;;
  match sr with
  | Ok g => modify (upd_nd n (fun r => nd_srlgs (set_add_ref g (n_srlgs r)) r))
  | Err _ =>
      if create then
        g <- srlg_new name ;;
        modify (fun s => set_srs (set_add_ref g (m_srs s)) s) ;;;
        modify (upd_nd n (fun r => nd_srlgs (set_add_ref g (n_srlgs r)) r))
      else raise (ModelException "An SRLG with name does not exist in the Model")
  end.

(** Node.remove_from_srlg (node.py 193-228) *)
Definition node_remove_from_srlg (n : nat) (name : string) : M unit :=
  sr <- gets (fun s => get_srlg s name) ;;
  match sr with
  | Err _ => raise (ModelException "An SRLG with name does not exist in the Model")
  | Ok g =>
      ok <- gets (fun s => mem_nd s n (srlg_nodes s g)) ;;
      (if ok : bool then ret tt else raise KeyError) ;;;
      own <- gets (fun s => mem_nat g (n_srlgs (h_nd s n))) ;;
      (if own : bool then ret tt else raise KeyError) ;;;
      modify (upd_nd n (fun r => nd_srlgs (refs_remove g (n_srlgs r)) r)) ;;;
      node_set_failed n false
  end.

(** ** RSVP_LSP *)

(** "Unrouted" in lsp.path: substring test on the two string values, key test
    (False) on the two dict values *)
Definition says_unrouted (p : lpath) : bool :=
  match p with PInit | PUnrouted => true | PEmpty | PRouted _ _ _ => false end.
Definition lsp_routed (s : st) (l : nat) : bool := negb (says_unrouted (l_path (h_ls s l))).

(** lsp.path != "Unrouted" *)
Definition not_unrouted (p : lpath) : bool := match p with PUnrouted => false | _ => true end.

(** lsp.path["interfaces"]: TypeError on a string, KeyError on {} *)
Definition lsp_interfaces (s : st) (l : nat) : res (list nat) :=
  match l_path (h_ls s l) with
  | PRouted ifs _ _ => Ok ifs
  | PEmpty => Err KeyError
  | _ => Err TypeError
  end.

(** lsp.reserved_bandwidth used in arithmetic: TypeError on a string *)
Definition num_bw (b : lbw) : res Q :=
  match b with RNum q => Ok q | _ => Err TypeError end.

(** setup_bandwidth setter (rsvp.py 122-138) *)
Definition set_setup_bw (l : nat) (proposed : Q) : M unit :=
  r <- gets (fun s => h_ls s l) ;;
  match l_cfg r with
  | Some c =>
      if Qeqb c 0 then
        if Qleb 0 proposed then modify (upd_ls l (ls_setup (RNum proposed)))
        else raise (ModelException "setup_bandwidth must be 0 or greater")
      else modify (upd_ls l (ls_setup (RNum c)))
  | None =>
      if Qleb 0 proposed then modify (upd_ls l (ls_setup (RNum proposed)))
      else raise (ModelException "setup_bandwidth must be 0 or greater")
  end.

(** truthiness of initial_manual_metric *)
Definition truthy (m : option Z) : bool :=
  match m with None => false | Some z => negb (Z.eqb z 0) end.

(** manual_metric getter (rsvp.py 140-168) *)
Definition get_manual_metric (l : nat) : M (option Z) :=
  r <- gets (fun s => h_ls s l) ;;
  match l_imm r with
  | Some z =>
      if Z.eqb z 0 then ret (l_mm r)
      else if (0 <? z)%Z then modify (upd_ls l (ls_mm (Some z) None)) ;;; ret (Some z)
      else raise (ModelException "RSVP LSP metric must be positive integer value")
  | None => ret (l_mm r)
  end.

(** manual_metric setter (rsvp.py 170-191); non-integer values not modelled *)
Definition set_manual_metric (l : nat) (v : Z) : M unit :=
  r <- gets (fun s => h_ls s l) ;;
  if truthy (l_imm r) then
    match l_imm r with
    | Some z => if (0 <? z)%Z then modify (upd_ls l (ls_mm (Some z) None)) else ret tt
    | None => ret tt
    end
  else if (0 <? v)%Z then modify (upd_ls l (ls_mm (Some v) None))
  else if (v =? -1)%Z then modify (upd_ls l (ls_mm None None))
  else raise (ModelException "RSVP LSP metric must be positive integer value").

(** topology_metric (rsvp.py 193-206): None is "Unrouted" *)
Definition topology_metric (s : st) (l : nat) : res (option Z) :=
  if says_unrouted (l_path (h_ls s l)) then Ok None
  else rbind (lsp_interfaces s l) (fun ifs => Ok (Some (Zsum (map (fun i => i_cost (h_if s i)) ifs)))).

(** RSVP_LSP.__init__ (rsvp.py 32-49) *)
Definition lsp_new (src dst : nat) (name : string) (cfg : option Q) (imm : option Z) : M nat :=
  l <- gets s_next ;;
  modify (fun s => bump_next (upd_ls l
    (fun _ => mkLsp src dst name PInit RInit RInit cfg None imm) s)) ;;;
  ret l.

(** demands_on_lsp (rsvp.py 253-268) *)
Definition demands_on_lsp (s : st) (l : nat) : list nat :=
  filter (fun d => match d_path (h_dm s d) with
                   | DUnrouted => false
                   | DPaths ps => existsb (fun p => mem_item s (ILsp l) p) ps
                   end) (m_dms s).

(** Interface.demands (interface.py 282-320).  For an RSVP_LSP item the LSP's
    path is subscripted and may raise; for an Interface item the test is
    "self in dmd_path". *)
Definition iface_demands (s : st) (i : nat) : res (list nat) :=
  rbind (rmap (fun d =>
    match d_path (h_dm s d) with
    | DUnrouted => Ok (d, false)
    | DPaths ps =>
        rbind (rmap (fun p =>
          rbind (rmap (fun it => match it with
                        | ILsp l => rbind (lsp_interfaces s l) (fun ifs => Ok (mem_if s i ifs))
                        | IIf _ => Ok (mem_item s (IIf i) p)
                        end) p) (fun bs => Ok (existsb id bs))) ps)
          (fun bss => Ok (d, existsb id bss))
    end) (m_dms s))
  (fun dbs => Ok (map fst (filter (fun db => snd db) dbs))).

(** Interface.lsps (interface.py 322-339) *)
Definition iface_lsps (s : st) (i : nat) : res (list nat) :=
  rbind (rmap (fun l => rbind (lsp_interfaces s l) (fun ifs => Ok (l, mem_if s i ifs)))
              (filter (lsp_routed s) (m_lsps s)))
        (fun lbs => Ok (map fst (filter (fun lb => snd lb) lbs))).

(** ** Demand.__init__ (demand.py 10-20) *)
Definition demand_new (src dst : nat) (traffic : Q) (name : string) : M nat :=
  if Qltb traffic 0 then raise ValueError
  else
    d <- gets s_next ;;
    modify (fun s => bump_next (upd_dm d
      (fun _ => mkDemand src dst traffic name DUnrouted PDInitial) s)) ;;;
    ret d.

(** ** Circuit.failed (circuit.py 26-38) *)
Definition circuit_failed (s : st) (c : nat * nat) : bool :=
  i_failed (h_if s (fst c)) || i_failed (h_if s (snd c)).
