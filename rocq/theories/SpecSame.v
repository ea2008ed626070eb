(** SpecSame.v - comparing the results of two simulations of models with LSPs
    (C89). *)
From Verif Require Import Base Spec SpecCkt SpecMetric SpecSig SpecTotal.

(** The same bandwidth *)
Definition same_amount (a b : lbw) : Prop :=
  match a, b with RNum x, RNum y => (x == y)%Q | RInit, RInit => True | RUnrouted, RUnrouted => True | _, _ => False end.
(** Routed at the same cost, or Unrouted, in both simulations *)
Definition same_fate (a b : lpath) : Prop :=
  match a, b with PRouted _ c _, PRouted _ c' _ => c = c' | PUnrouted, PUnrouted => True | _, _ => False end.
(** Routed the same way, or Unrouted, in both simulations *)
Definition same_way (a b : lpath) : Prop :=
  match a, b with PRouted p c _, PRouted p' c' _ => p = p' /\ c = c' | PUnrouted, PUnrouted => True | _, _ => False end.

(** Every LSP has at most one best way. *)
Definition sole_roads (s : st) : Prop :=
  forall l p q, In l (m_lsps s) -> best_road s l p -> best_road s l q -> p = q.

(** No node has IGP shortcuts enabled. *)
Definition shortcuts_off (s : st) : Prop := forall n, In n (m_nds s) -> n_shortcuts (h_nd s n) = false.

(** All least-cost ways of demand [d] over interfaces that are up and open to RSVP
    visit the same nodes. *)
Definition one_road (s : st) (d : nat) : Prop :=
  forall p q, least_cost s (rsvp_up s) (dmd_from s d) p (dmd_to s d) -> least_cost s (rsvp_up s) (dmd_from s d) q (dmd_to s d) ->
    route_nodes s (dmd_from s d) p = route_nodes s (dmd_from s d) q.
