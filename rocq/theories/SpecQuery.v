(** SpecQuery.v - definitions used to state what the path queries return. *)
From Verif Require Import Base Spec.

(** interfaces with enough reservable bandwidth, failed or not *)
Definition wide (s : st) (bw : Q) (i : nat) : Prop := exists r, reservable s i r /\ (bw <= r)%Q.
(** interfaces get_all_paths_reservable_bw may use *)
Definition allowed (s : st) (include_failed : bool) (bw : Q) (i : nat) : Prop :=
  (include_failed = true \/ i_failed (h_if s i) = false) /\ wide s bw i.
(** a route that visits no node twice and has between 1 and [cutoff] hops *)
Definition simple_route (s : st) (ok : nat -> Prop) (u : string) (p : list nat) (v : string) (cutoff : nat) : Prop :=
  route s ok u p v /\ NoDup (route_nodes s u p) /\ p <> [] /\ (List.length p <= cutoff)%nat.
Definition node_of (s : st) (u : string) : Prop := exists n, In n (m_nds s) /\ nd_name s n = u.
