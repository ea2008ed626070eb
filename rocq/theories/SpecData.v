(** SpecData.v - models that hold the same data in different objects (C93). *)
From Verif Require Import Base Spec SpecMetric SpecOrder SpecSame SpecTotal SpecSig SpecMore.

(** The same interface, demand, LSP, node, in two models: same names and values,
    whatever the objects are.  A PerformanceModel numbers its circuits itself. *)
Definition if_alike (k : kind) (s : st) (i : nat) (t : st) (j : nat) : Prop :=
  if_key t j = if_key s i /\ rem t j = rem s i /\ i_cost (h_if t j) = i_cost (h_if s i) /\ (i_cap (h_if t j) == i_cap (h_if s i))%Q /\
  i_failed (h_if t j) = i_failed (h_if s i) /\ i_rsvp (h_if t j) = i_rsvp (h_if s i) /\ (i_pct (h_if t j) == i_pct (h_if s i))%Q /\
  (k = Flex -> i_cid (h_if t j) = i_cid (h_if s i)).
Definition dm_alike (s : st) (d : nat) (t : st) (e : nat) : Prop :=
  dmd_key t e = dmd_key s d /\ (d_traffic (h_dm t e) == d_traffic (h_dm s d))%Q.
Definition same_cfg (a b : option Q) : Prop :=
  match a, b with None, None => True | Some x, Some y => (x == y)%Q | _, _ => False end.
Definition ls_alike (s : st) (l : nat) (t : st) (m : nat) : Prop :=
  lsp_key t m = lsp_key s l /\ same_cfg (l_cfg (h_ls s l)) (l_cfg (h_ls t m)) /\
  snd (mstep (mstate_of (h_ls t m)) MRead) = snd (mstep (mstate_of (h_ls s l)) MRead).
Definition nd_alike (s : st) (n : nat) (t : st) (m : nat) : Prop :=
  nd_name t m = nd_name s n /\ n_shortcuts (h_nd t m) = n_shortcuts (h_nd s n).

(** Every object of [l] has one like it in [m], and the other way round. *)
Definition each_has (R : nat -> nat -> Prop) (l m : list nat) : Prop :=
  (forall x, In x l -> exists y, In y m /\ R x y) /\ (forall y, In y m -> exists x, In x l /\ R x y).

Record same_data (k : kind) (s t : st) : Prop := {
  sd_ifs : each_has (fun i j => if_alike k s i t j) (m_ifs s) (m_ifs t);
  sd_nds : each_has (fun n m => nd_alike s n t m) (m_nds s) (m_nds t);
  sd_dms : each_has (fun d e => dm_alike s d t e) (m_dms s) (m_dms t);
  sd_lsps : each_has (fun l m => ls_alike s l t m) (m_lsps s) (m_lsps t) }.

(** Paths told by names: each step is an interface or an LSP. *)
Inductive hop := HopIf (k : string * string) | HopLsp (k : string * string * string).
Definition hop_of (s : st) (x : item) : hop := match x with IIf i => HopIf (if_key s i) | ILsp l => HopLsp (lsp_key s l) end.
Definition same_routes (s : st) (p : dpath) (t : st) (q : dpath) : Prop :=
  match p, q with
  | DUnrouted, DUnrouted => True
  | DPaths ps, DPaths qs => forall h, In h (map (map (hop_of s)) ps) <-> In h (map (map (hop_of t)) qs)
  | _, _ => False
  end.
(** The same way of an LSP *)
Definition same_named_way (s : st) (a : lpath) (t : st) (b : lpath) : Prop :=
  match a, b with PRouted p c _, PRouted q c' _ => map (if_key s) p = map (if_key t) q /\ c = c' | PUnrouted, PUnrouted => True | _, _ => False end.

(** [t] is [s] with every demand and every configured bandwidth multiplied by [c],
    and every cost and manual metric by [z]. *)
Definition times_bw (c : Q) (a b : option Q) : Prop :=
  match a, b with None, None => True | Some x, Some y => (y == c * x)%Q | _, _ => False end.
Definition times_metric (z : Z) (a b : mout) : Prop :=
  match a, b with OutValue None, OutValue None => True | OutValue (Some x), OutValue (Some y) => y = (z * x)%Z | _, _ => False end.
Record multiplied (z : Z) (c : Q) (s t : st) : Prop := {
  mu_ifs : forall i, In i (m_ifs t) <-> In i (m_ifs s);
  mu_dms : forall d, In d (m_dms t) <-> In d (m_dms s);
  mu_lsps : forall l, In l (m_lsps t) <-> In l (m_lsps s);
  mu_if : forall i, In i (m_ifs s) -> loc t i = loc s i /\ rem t i = rem s i /\ i_cost (h_if t i) = (z * i_cost (h_if s i))%Z /\
                                      i_failed (h_if t i) = i_failed (h_if s i) /\ i_rsvp (h_if t i) = i_rsvp (h_if s i);
  mu_dm : forall d, In d (m_dms s) -> dmd_from t d = dmd_from s d /\ dmd_to t d = dmd_to s d /\ (d_traffic (h_dm t d) == c * d_traffic (h_dm s d))%Q;
  mu_ls : forall l, In l (m_lsps s) -> lsp_from t l = lsp_from s l /\ lsp_to t l = lsp_to s l /\ times_bw c (l_cfg (h_ls s l)) (l_cfg (h_ls t l)) /\
                                       times_metric z (snd (mstep (mstate_of (h_ls s l)) MRead)) (snd (mstep (mstate_of (h_ls t l)) MRead)) }.
(** Bandwidth multiplied by [c], and a path kept with its cost multiplied by [z] *)
Definition times_amount (c : Q) (a b : lbw) : Prop :=
  match a, b with RNum x, RNum y => (y == c * x)%Q | RInit, RInit => True | RUnrouted, RUnrouted => True | _, _ => False end.
Definition times_fate (z : Z) (a b : lpath) : Prop :=
  match a, b with PRouted _ x _, PRouted _ y _ => y = (z * x)%Z | PUnrouted, PUnrouted => True | _, _ => False end.
Definition same_hops (a b : lpath) : Prop :=
  match a, b with PRouted p _ _, PRouted q _ _ => p = q | PUnrouted, PUnrouted => True | _, _ => False end.

(** Every RSVP interface, also one that is down, has room for all LSPs. *)
Definition always_room (s : st) : Prop :=
  forall i, In i (m_ifs s) -> i_rsvp (h_if s i) = true -> (Qsum (map (fun l => wanted s l (equal_share s l)) (m_lsps s)) <= i_cap (h_if s i) * i_pct (h_if s i) / 100)%Q.

(** Every LSP on a path of a demand of the simulated model [s'] had one best way. *)
Definition used_roads (s s' : st) : Prop :=
  forall d ps q l, In d (m_dms s) -> d_path (h_dm s' d) = DPaths ps -> In q ps -> In (ILsp l) q -> sole_road s l.
