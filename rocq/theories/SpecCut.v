(** SpecCut.v - traffic across the border of a region, a set of nodes (C113). *)
From Verif Require Import Base Spec SpecWhatIf.

(** Interfaces that lead out of region [A], and demands that do *)
Definition leads_out (s : st) (A : string -> bool) (i : nat) : bool := A (loc s i) && negb (A (rem s i)).
Definition goes_out (s : st) (A : string -> bool) (d : nat) : bool := A (dmd_from s d) && negb (A (dmd_to s d)).
(** Traffic and capacity of the interfaces that lead out of [A], traffic of the routed demands
    that start in [A] and end elsewhere *)
Definition out_of (s : st) (A : string -> bool) : Q := Qsum (map (traffic_of s) (filter (leads_out s A) (m_ifs s))).
Definition room_out (s : st) (A : string -> bool) : Q :=
  Qsum (map (fun i => i_cap (h_if s i)) (filter (fun i => leads_out s A i && negb (i_failed (h_if s i))) (m_ifs s))).
Definition wants_out (s : st) (A : string -> bool) : Q := Qsum (map (routed_traffic s) (filter (goes_out s A) (m_dms s))).
(** The rest of the network *)
Definition rest (A : string -> bool) (n : string) : bool := negb (A n).
