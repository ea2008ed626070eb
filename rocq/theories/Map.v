(** Map.v - the parts of the weather map (weathermap.py) that compute what is
    shown from the model: elements of the map, colours, dropdown options, the
    selected object and the highlighted edges.

    Dash, the page layout and the texts of __repr__ are not modelled.  A JSON text
    that a callback passes on is the record it encodes (json.loads undoes
    json.dumps); tests for a marker inside such a text ("no routed demand
    selected", "routed": false) are tests on that record. *)
From Coq Require Import DecimalString.
From Verif Require Import Base Graph Objects Sim Api MapTypes.

(** x.split("-") *)
Fixpoint split_dash (x : string) : list string :=
  match x with
  | EmptyString => [EmptyString]
  | String c tl =>
      if Ascii.eqb c "-" then EmptyString :: split_dash tl
      else match split_dash tl with
           | y :: r => String c y :: r
           | [] => [String c EmptyString]
           end
  end.

(** str(circuit_id) *)
Definition cid_text (c : cid) : string :=
  match c with
  | CNone => "None"
  | CInt z => NilZero.string_of_int (Z.to_int z)
  | CStr x => x
  end.

(** int(x) for the ends of a utilization range: None is ValueError; signs, blanks
    and underscores are not modelled *)
Definition int_of (x : string) : option Z :=
  match NilZero.uint_of_string x with Some d => Some (Z.of_uint d) | None => None end.

(** self.util_ranges (weathermap.py 113-121) *)
Definition down_colour : string := "dimgrey".
Definition util_ranges : list (string * string) :=
  [("0-24", "royalblue"); ("25-49", "green"); ("50-74", "yellow"); ("75-89", "orangered");
   ("90-99", "darkred"); ("100+", "darkviolet"); ("failed", down_colour)].

(** int(range.split("-")[0]), int(range.split("-")[1]); None is ValueError or
    IndexError (weathermap.py 249-259) *)
Definition range_ends (key : string) : option (Z * Z) :=
  match split_dash key with
  | a :: b :: _ => match int_of a, int_of b with Some x, Some y => Some (x, y) | _, _ => None end
  | _ => None
  end.

(** The group of an edge (weathermap.py 242-259); the utilization None is "Int is
    down", the group None is None *)
Definition edge_group (u : option Q) : option string :=
  match u with
  | None => Some down_colour
  | Some q =>
      if Qleb 100 q then dict_get "100+" util_ranges
      else match find (fun kv => match range_ends (fst kv) with
                                 | Some (lo, hi) => Qleb (inject_Z lo) q && Qleb q (inject_Z hi)
                                 | None => false
                                 end) util_ranges with
           | Some kv => Some (snd kv)
           | None => None
           end
  end.


(** self.spacing_factor (weathermap.py 41) *)
Definition spacing_factor : Q := 5.

Definition node_x (s : st) (n : nat) : Q := (n_lon (h_nd s n) * spacing_factor)%Q.
Definition node_y (s : st) (n : nat) : Q := (- n_lat (h_nd s n) * spacing_factor)%Q.
Definition end_node (s : st) (n : nat) : jnode :=
  mkJnode (node_x s n) (node_y s n) (n_name (h_nd s n)) (n_name (h_nd s n)) "" (n_failed (h_nd s n)) [].

(** create_elements (weathermap.py 441-537), the body for one circuit, with
    group_midpoints=True.  circuit_id always exists, so that the except clause of
    lines 477-480 is never used. *)
Definition midpoint_label (s : st) (c : nat * nat) : string :=
  String.append "midpoint-" (pair_key (ilocal s (fst c)) (ilocal s (snd c))).
Definition circuit_nodes (s : st) (c : nat * nat) : list jnode :=
  let na := i_node (h_if s (fst c)) in
  let nb := i_node (h_if s (snd c)) in
  [mkJnode ((node_x s na + node_x s nb) / 2)%Q ((node_y s na + node_y s nb) / 2)%Q
           (midpoint_label s c) (midpoint_label s c) "midpoint" false [n_name (h_nd s na); n_name (h_nd s nb)];
   end_node s na; end_node s nb].
Definition circuit_edge (s : st) (c : nat * nat) (i : nat) : jedge :=
  mkJedge (ilocal s i) (midpoint_label s c) (edge_group (utilization s i)) (cid_text (i_cid (h_if s (fst c))))
          (utilization s i) (i_name (h_if s i)) (i_cap (h_if s (fst c))) (i_cost (h_if s i)).
Definition circuit_edges (s : st) (c : nat * nat) : list jedge :=
  [circuit_edge s c (fst c); circuit_edge s c (snd c)].
Definition create_elements (s : st) : list jnode * list jedge :=
  (flat_map (circuit_nodes s) (m_ckts s), flat_map (circuit_edges s) (m_ckts s)).

(** ** Dropdowns *)

(** list.sort() of strings *)
Fixpoint insert_str (x : string) (l : list string) : list string :=
  match l with
  | [] => [x]
  | y :: tl => if String.leb x y then x :: l else y :: insert_str x tl
  end.
Definition sort_str (l : list string) : list string := fold_right insert_str [] l.

(** make_node_list (weathermap.py 905-916) *)
Definition make_node_list (s : st) : list string := sort_str (map (fun n => n_name (h_nd s n)) (m_nds s)).

(** format_objects_for_display (weathermap.py 273-313): the value of an option is
    source, dest and name; an empty list raises IndexError.  The list holds demands
    or LSPs according to [t]. *)
Definition obj_key (s : st) (t : otype) (x : nat) : string * string * string :=
  match t with TDemand => dkey s x | TLsp => lkey s x end.
Definition format_objects (s : st) (t : otype) (l : list nat) : res (list (string * string * string)) :=
  match l with [] => Err IndexError | _ => Ok (map (obj_key s t) l) end.
(** format_interfaces_for_display (weathermap.py 315-338) *)
Definition format_interface (s : st) (i : nat) : jint :=
  mkJint (ilocal s i) (i_name (h_if s i)) (iremote s i) (i_cid (h_if s i)) (i_cost (h_if s i)).


Section Map.
Variable E : env.

Definition groups_of (t : otype) : M (list (string * list nat)) :=
  match t with TDemand => gets (parallel_demand_groups E) | TLsp => parallel_lsp_groups E end.

(** get_sources and get_destinations (weathermap.py 363-391 and 393-421); a key
    always contains '-', so that pair[1] exists *)
Definition first_part (key : string) : string := nth 0 (split_dash key) "".
Definition second_part (key : string) : string := nth 1 (split_dash key) "".
Definition get_sources (dest : string) (t : otype) : M (list string) :=
  g <- groups_of t ;;
  ret (map first_part (filter (fun key => String.eqb (second_part key) dest) (map fst g))).
Definition get_destinations (src : string) (t : otype) : M (list string) :=
  g <- groups_of t ;;
  ret (map second_part (filter (fun key => String.eqb (first_part key) src) (map fst g))).

(** demand_sources_and_destinations and lsp_sources_and_destinations (weathermap.py
    860-880 and 882-902): a key with more than one '-' raises ValueError *)
Definition two_parts (key : string) : res (string * string) :=
  match split_dash key with [a; b] => Ok (a, b) | _ => Err ValueError end.
Definition sources_and_destinations (t : otype) : M (list string * list string) :=
  g <- groups_of t ;;
  ps <- reads (fun _ => rmap two_parts (map fst g)) ;;
  ret (sort_str (set_iter E (map fst ps)), sort_str (set_iter E (map snd ps))).

(** display_lsp_dropdowns and display_demand_dropdowns (weathermap.py 1213-1311 and
    1324-1422); [srcs] and [dsts] are the lists made when the map was created *)
Definition dropdowns (srcs dsts : list string) (t : otype) (source dest : option string)
  : M (list string * list string * list (choice (string * string * string))) :=
  match source, dest with
  | None, None => ret (srcs, dsts, [Clear; Text ""])
  | Some a, Some b =>
      g <- groups_of t ;;
      l <- reads (fun _ => match dict_get (pair_key a b) g with Some l => Ok l | None => Err KeyError end) ;;
      os <- reads (fun s => format_objects s t l) ;;
      ret ([a], [b], Clear :: map Obj os)
  | None, Some b =>
      ss <- get_sources b t ;;
      g <- groups_of t ;;
      os <- reads (fun s => format_objects s t (flat_map snd (filter (fun kl => String.eqb (second_part (fst kl)) b) g))) ;;
      ret (sort_str ss, [b], Clear :: map Obj os)
  | Some a, None =>
      ds <- get_destinations a t ;;
      g <- groups_of t ;;
      os <- reads (fun s => format_objects s t (flat_map snd (filter (fun kl => String.eqb (first_part (fst kl)) a) g))) ;;
      ret ([a], sort_str ds, Clear :: map Obj os)
  end.

(** interfaces_on_node (weathermap.py 969-990) *)
Definition interfaces_on_node (s : st) (nname : string) : res (list (choice jint)) :=
  rbind (get_node s nname) (fun n =>
    match node_interfaces s n with
    | [] => Ok []
    | l => Ok (Clear :: map (fun i => Obj (format_interface s i)) l)
    end).

(** ** Selection *)

(** display_selected_demand_data and display_selected_lsp for the value of an
    option (weathermap.py 1606-1616 and 1459-1470) *)
Definition select_demand (s : st) (k : string * string * string) : res sel :=
  rbind (get_demand s (fst (fst k)) (snd (fst k)) (snd k)) (fun d =>
    Ok (mkSel k (match d_path (h_dm s d) with DUnrouted => false | DPaths _ => true end))).
Definition select_lsp (s : st) (k : string * string * string) : res sel :=
  rbind (get_lsp s (fst (fst k)) (snd (fst k)) (snd k)) (fun l =>
    Ok (mkSel k (match l_path (h_ls s l) with PUnrouted => false | _ => true end))).

(** display_selected_edge, a click on an edge (weathermap.py 1512-1535) *)
Definition select_edge (e : jedge) : res seli :=
  match filter (fun x => negb (String.eqb x (je_source e))) (tl (split_dash (je_target e))) with
  | x :: _ => Ok (mkSeli (je_source e) (je_name e) x (CStr (je_cid e)) (je_util e) (je_cost e))
  | [] => Err IndexError
  end.
(** ..., the value of an option (weathermap.py 1543-1559) *)
Definition select_interface (s : st) (v : jint) : res seli :=
  rbind (get_interface s (ji_name v) (ji_source v)) (fun i =>
    Ok (mkSeli (ji_source v) (ji_name v) (ji_dest v) (ji_cid v) (utilization s i) (ji_cost v))).

(** lsps_on_interface and demands_on_interface (weathermap.py 1620-1655 and
    1662-1700) *)
Definition on_interface (s : st) (t : otype) (v : seli) : res (list (choice (string * string * string))) :=
  rbind (get_interface s (si_name v) (si_source v)) (fun i =>
    rbind (match t with TDemand => iface_demands s i | TLsp => iface_lsps s i end) (fun l =>
      match l with
      | [] => Ok [Text (match t with TDemand => "no demands on interface" | TLsp => "no lsps on interface" end)]
      | _ => Ok (Clear :: map (fun x => Obj (obj_key s t x)) l)
      end)).
(** demands_on_lsp (weathermap.py 1707-1746) for a selected routed LSP *)
Definition on_lsp (s : st) (k : string * string * string) : res (list (choice (string * string * string))) :=
  rbind (get_lsp s (fst (fst k)) (snd (fst k)) (snd k)) (fun l =>
    match demands_on_lsp s l with
    | [] => Ok [Text "no demands on lsp"]
    | ds => Ok (Clear :: map (fun d => Obj (dkey s d)) ds)
    end).

(** ** Highlighting *)

Fixpoint letters (x : string) : list ascii :=
  match x with EmptyString => [] | String c tl => c :: letters tl end.
Definition hop_eqb (s : st) (a b : hop) : bool :=
  match a, b with
  | HIf i, HIf j => iface_eqb s i j
  | HChr c, HChr d => Ascii.eqb c d
  | _, _ => false
  end.
(** find_demand_interfaces_and_lsps (weathermap.py 340-361) *)
Definition item_hops (s : st) (x : item) : res (list hop) :=
  match x with
  | IIf i => Ok [HIf i]
  | ILsp l => rbind (lsp_interfaces s l) (fun ifs => Ok (map HIf ifs))
  end.
Definition demand_hops (s : st) (d : nat) : res (list hop) :=
  match d_path (h_dm s d) with
  | DUnrouted => Ok (map HChr (letters "Unrouted"))
  | DPaths ps => rbind (rmap (item_hops s) (List.concat ps)) (fun hs => Ok (List.concat hs))
  end.
Definition demand_lsps (s : st) (d : nat) : list nat :=
  match d_path (h_dm s d) with
  | DUnrouted => []
  | DPaths ps => flat_map (fun x => match x with ILsp l => [l] | IIf _ => [] end) (List.concat ps)
  end.
Definition find_demand_interfaces_and_lsps (s : st) (ds : list nat) : res (list hop * list nat) :=
  rbind (rmap (demand_hops s) ds) (fun hs =>
    Ok (dedup_by (hop_eqb s) (List.concat hs), dedup_by Nat.eqb (flat_map (demand_lsps s) ds))).

(** demand_interfaces (weathermap.py 1757-1807) for a selected routed demand *)
Definition hop_interface (h : hop) : res nat := match h with HIf i => Ok i | HChr _ => Err AttributeError end.
Definition demand_interfaces (s : st) (k : string * string * string)
  : res (list (choice jint) * list (choice (string * string * string))) :=
  rbind (get_demand s (fst (fst k)) (snd (fst k)) (snd k)) (fun d =>
    rbind (find_demand_interfaces_and_lsps s [d]) (fun hl =>
      rbind (rmap hop_interface (fst hl)) (fun ifs =>
        Ok (match ifs with [] => [] | _ => Clear :: map (fun i => Obj (format_interface s i)) ifs end,
            match snd hl with
            | [] => [Text "Demand does not take LSPs"]
            | ls => Clear :: map (fun l => Obj (lkey s l)) ls
            end)))).
(** lsp_interfaces (weathermap.py 1814-1840) for a selected routed LSP *)
Definition lsp_interface_options (s : st) (k : string * string * string) : res (list (choice jint)) :=
  rbind (get_lsp s (fst (fst k)) (snd (fst k)) (snd k)) (fun l =>
    rbind (lsp_interfaces s l) (fun ifs =>
      Ok (match ifs with [] => [] | _ => Clear :: map (fun i => Obj (format_interface s i)) ifs end))).

(** get_lsp_interface_data (weathermap.py 423-439) *)
Definition get_lsp_interface_data (s : st) (k : string * string * string) : res (list nat * list string) :=
  rbind (get_lsp s (fst (fst k)) (snd (fst k)) (snd k)) (fun l =>
    rbind (lsp_interfaces s l) (fun ifs =>
      Ok (ifs, dedup_by String.eqb (flat_map (fun i => [ilocal s i; iremote s i]) ifs)))).

(** update_stylesheet (weathermap.py 1006-1196): the entries added to the default
    stylesheet *)
Definition demand_entries (s : st) (i : nat) : list entry :=
  [OnEdge (cid_text (i_cid (h_if s i))) (ilocal s i) DemandOut;
   OnEdge (cid_text (i_cid (h_if s i))) (iremote s i) DemandIn;
   OnNode (ilocal s i) DemandNode; OnNode (iremote s i) DemandNode].
Definition lsp_entries (s : st) (i : nat) : list entry :=
  [OnEdge (cid_text (i_cid (h_if s i))) (ilocal s i) LspOut;
   OnEdge (cid_text (i_cid (h_if s i))) (iremote s i) LspIn].
Definition update_stylesheet (s : st) (colours : list string) (dm : option sel) (ifc : option seli) (lp : option sel) : res (list entry) :=
  let cs := map (fun c => OnColour c Opaque) colours in
  let rest :=
    rbind (match lp with
           | Some (mkSel k true) =>
               rbind (get_lsp_interface_data s k) (fun ins =>
                 Ok (flat_map (lsp_entries s) (fst ins) ++ map (fun n => OnNode n LspNode) (snd ins)))
           | _ => Ok []
           end) (fun ls =>
      Ok (ls ++ match ifc with Some v => [OnEdge (cid_text (si_cid v)) (si_source v) Chosen] | None => [] end)) in
  match dm with
  | Some (mkSel k true) =>
      match dict_get (pair_key (fst (fst k)) (snd (fst k))) (parallel_demand_groups E s) with
      | None => Ok cs
      | Some ds =>
          rbind (find_demand_interfaces_and_lsps s ds) (fun hl =>
            rbind (rmap hop_interface (fst hl)) (fun ifs =>
              rbind rest (fun r => Ok (cs ++ flat_map (demand_entries s) ifs ++ r))))
      end
  | _ => rbind rest (fun r => Ok (cs ++ r))
  end.
End Map.
