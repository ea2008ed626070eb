(** Print.v - the tables and lists that a model prints. *)
From Verif Require Import Base Graph Objects Sim.

(** str.ljust(12) *)
Fixpoint blanks (n : nat) : string := match n with O => EmptyString | S n => String " " (blanks n) end.
Definition ljust12 (s : string) : string := String.append s (blanks (12 - String.length s)).

(** print(a.ljust(12), b.ljust(12), ...): the texts with a blank between them; a print with
    end=" " and the next one make one line. *)
Definition print_row (cells : list string) : string := String.concat " " (map ljust12 cells).

(** str(bool) *)
Definition str_bool (b : bool) : string := if b then "True" else "False".

(** display_node_status (master_model.py 871-879) *)
Definition display_node_status (s : st) : list string :=
  print_row ["Node"; "Failed"] ::
  map (fun n => print_row [n_name (h_nd s n); str_bool (n_failed (h_nd s n))]) (m_nds s).

(** display_interface_status (master_model.py 856-869) *)
Definition display_interface_status (s : st) : list string :=
  print_row ["Node"; "Interface"; "Remote Node"; "Failed"] ::
  map (fun i => print_row [ilocal s i; i_name (h_if s i); iremote s i; str_bool (i_failed (h_if s i))]) (m_ifs s).

(** repr(interface.traffic): the text 'Down' in quotes, or what repr makes of the number *)
Definition repr_traffic (repr : Q -> string) (t : traf) : string :=
  match t with TDown => "'Down'" | TNum q => repr q end.
(** display_interfaces_traffic (master_model.py 881-900) *)
Definition display_interfaces_traffic (repr : Q -> string) (s : st) : list string :=
  print_row ["Node"; "Interface"; "Remote Node"; "Traffic"] ::
  map (fun i => print_row [ilocal s i; i_name (h_if s i); iremote s i; repr_traffic repr (i_traffic (h_if s i))]) (m_ifs s).

(** What display_demand_paths prints, print by print: the key, the number of paths, each
    element of demand.path (a path, or a letter if demand.path is a text), empty lines *)
Inductive shown :=
| SKey (src dst name : string) | SCount (n : nat) | SPath (p : list item) | SLetter (a : ascii) | SBlank.
Fixpoint letters (s : string) : list ascii := match s with EmptyString => [] | String a r => a :: letters r end.
(** len(demand.path) and the elements; demand.path may be the text "Unrouted" *)
Definition path_elements (p : dpath) : list shown :=
  match p with DPaths ps => map SPath ps | DUnrouted => map SLetter (letters "Unrouted") end.
(** display_demand_paths (master_model.py 902-916) *)
Definition display_demand (s : st) (d : nat) : list shown :=
  let els := path_elements (d_path (h_dm s d)) in
  [SKey (dsrc s d) (ddst s d) (d_name (h_dm s d)); SCount (List.length els)] ++
  flat_map (fun e => [e; SBlank]) els ++ [SBlank; SBlank].
Definition display_demand_paths (s : st) : list shown := flat_map (display_demand s) (m_dms s).
