(** SpecWorld.v - several models in one program (C86, C87). *)
From Verif Require Import Base Graph Objects Sim Api SpecOwn World.

(** Objects that a model other than number [a], or a default argument of the
    constructors, holds *)
Definition held_by_others (f : model -> list nat) (d : nat) (w : world) (a x : nat) : Prop :=
  (exists b o, b <> a /\ nth_error (w_models w) b = Some o /\ In x (f o)) \/ In x (w_sets w (default_sets Flex + d)) \/ In x (w_sets w (default_sets Perf + d)).
Definition other_if (w : world) := held_by_others (fun o => w_sets w (o_ifs o)) 0 w.
Definition other_nd (w : world) := held_by_others (fun o => w_sets w (o_nds o)) 1 w.
Definition other_dm (w : world) := held_by_others (fun o => w_sets w (o_dms o)) 2 w.
Definition other_ls (w : world) := held_by_others (fun o => w_sets w (o_lsps o)) 3 w.
Definition other_sr (w : world) (a x : nat) : Prop := exists b o, b <> a /\ nth_error (w_models w) b = Some o /\ In x (o_srs o).

(** Objects handed to a step *)
Definition wgiven_ifs (x : wop) : list nat := match x with WNew _ => [] | WWith _ l _ _ _ => l | WCall _ o => given_ifs o end.
Definition wgiven_nds (x : wop) : list nat := match x with WNew _ => [] | WWith _ _ l _ _ => l | WCall _ o => given_nodes o end.
Definition wgiven_dms (x : wop) : list nat := match x with WWith _ _ _ l _ => l | _ => [] end.
Definition wgiven_lsps (x : wop) : list nat := match x with WNew _ => [] | WWith _ _ _ _ l => l | WCall _ o => given_lsps o end.

(** Model number [a], [o], is the only one that holds its sets, and they are not
    default arguments of the constructors. *)
Definition refs (o : model) : list nat := [o_ifs o; o_nds o; o_dms o; o_lsps o].
Definition own_sets (w : world) (a : nat) (o : model) : Prop :=
  nth_error (w_models w) a = Some o /\
  (forall r, In r (refs o) -> r <> 0 /\ r <> 1 /\ r <> 2 /\ r <> 3 /\ r <> 4 /\ r <> 5 /\ r <> 6 /\ r <> 7)%nat /\
  (forall b o' r, b <> a -> nth_error (w_models w) b = Some o' -> In r (refs o) -> ~ In r (refs o')).

(** Model [o] holds the same objects in [w] and [w']. *)
Definition same_holdings (o : model) (w w' : world) : Prop :=
  w_sets w' (o_ifs o) = w_sets w (o_ifs o) /\ w_sets w' (o_nds o) = w_sets w (o_nds o) /\
  w_sets w' (o_dms o) = w_sets w (o_dms o) /\ w_sets w' (o_lsps o) = w_sets w (o_lsps o).

(** No object that only model [a] can reach, or no model at all, is changed. *)
Record spared_objects (h : list wop) (a : nat) (w w' : world) : Prop := {
  so_if : forall i, (i < w_next w)%nat -> ~ other_if w a i -> ~ In i (flat_map wgiven_ifs h) -> w_if w' i = w_if w i;
  so_nd : forall n, (n < w_next w)%nat -> ~ other_nd w a n -> ~ In n (flat_map wgiven_nds h) -> w_nd w' n = w_nd w n;
  so_dm : forall d, (d < w_next w)%nat -> ~ other_dm w a d -> ~ In d (flat_map wgiven_dms h) -> w_dm w' d = w_dm w d;
  so_ls : forall l, (l < w_next w)%nat -> ~ other_ls w a l -> ~ In l (flat_map wgiven_lsps h) -> w_ls w' l = w_ls w l;
  so_sr : forall g, (g < w_next w)%nat -> ~ other_sr w a g -> w_sr w' g = w_sr w g }.

(** Steps that are not calls on model [a] *)
Definition not_on (a : nat) (x : wop) : Prop := match x with WCall m _ => m <> a | _ => True end.
(** Calls on model [a] other than add_network_interfaces_from_list *)
Definition not_listing (a : nat) (x : wop) : Prop := match x with WCall m (OpAddInterfaces _) => m <> a | _ => True end.
