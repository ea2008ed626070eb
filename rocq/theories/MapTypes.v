(** MapTypes.v - the records that stand for the JSON data of the weather map
    (weathermap.py). *)
From Verif Require Import Base.

(** make_json_node and make_json_edge (weathermap.py 183-209 and 211-271) *)
Record jnode := mkJnode {
  jn_x : Q; jn_y : Q; jn_id : string; jn_label : string; jn_group : string;
  jn_failed : bool; jn_neighbors : list string }.
Record jedge := mkJedge {
  je_source : string; je_target : string; je_group : option string; je_cid : string;
  je_util : option Q; je_name : string; je_cap : Q; je_cost : Z }.

(** The two kinds of objects in dropdowns *)
Inductive otype := TDemand | TLsp.

(** The value of an interface option (format_interfaces_for_display, weathermap.py 315-338) *)
Record jint := mkJint { ji_source : string; ji_name : string; ji_dest : string; ji_cid : cid; ji_cost : Z }.

(** An option of a dropdown: the choice that clears the selection, a text without
    value, or an object *)
Inductive choice (A : Type) := Clear | Text (label : string) | Obj (a : A).
Arguments Clear {A}. Arguments Text {A} _. Arguments Obj {A} _.

(** The selected demand or LSP: source, dest, name and the flag "routed" (weathermap.py
    1606-1616 and 1459-1470) *)
Record sel := mkSel { sel_key : string * string * string; sel_routed : bool }.

(** The selected interface (weathermap.py 1526-1533 and 1549-1559): circuit_id is a
    text when the edge was clicked *)
Record seli := mkSeli { si_source : string; si_name : string; si_dest : string; si_cid : cid; si_util : option Q; si_cost : Z }.

(** An element of the set of interfaces of a demand.  The path of an unrouted
    demand is the text "Unrouted", whose characters end up in that set. *)
Inductive hop := HIf (i : nat) | HChr (c : ascii).

(** An entry that update_stylesheet adds (weathermap.py 1006-1196): an edge entry
    selects edges by circuit_id and source, a node entry nodes by id, a colour entry
    edges by group *)
Inductive mark := DemandOut | DemandIn | LspOut | LspIn | Chosen | DemandNode | LspNode | Opaque.
Inductive entry :=
| OnEdge (cid src : string) (m : mark)
| OnNode (id : string) (m : mark)
| OnColour (c : string) (m : mark).
