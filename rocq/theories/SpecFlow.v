(** SpecFlow.v - how a demand's traffic is spread over its paths, read off
    demand.path_detail. *)
From Verif Require Import Base Spec SpecSim SpecMetric.

(** The path of an entry of path_detail (key "items" or "interfaces") *)
Definition entry_path (e : pinfo) : list item :=
  match pi_items e with
  | Some p => p
  | None => match pi_interfaces e with Some p => p | None => [] end
  end.
Definition crosses (i : nat) (p : list item) : bool :=
  existsb (fun x => match x with IIf j => Nat.eqb j i | ILsp _ => false end) p.
Definition visits (s : st) (u n : string) (p : list item) : bool :=
  String.eqb u n ||
  existsb (fun x => String.eqb (match x with IIf i => rem s i | ILsp l => lsp_to s l end) n) p.

(** path_traffic added up over all entries, over those crossing an interface,
    and over those visiting a node *)
Definition total (es : list pinfo) : Q := Qsum (map pi_traffic es).
Definition over (i : nat) (es : list pinfo) : Q := total (filter (fun e => crosses i (entry_path e)) es).
Definition through (s : st) (u n : string) (es : list pinfo) : Q := total (filter (fun e => visits s u n (entry_path e)) es).

(** The interfaces on the paths that leave or enter node [n] *)
Definition leaving (s : st) (es : list pinfo) (n : string) (O : list nat) : Prop :=
  NoDup O /\ forall i, In i O <-> loc s i = n /\ exists e, In e es /\ crosses i (entry_path e) = true.
Definition entering (s : st) (es : list pinfo) (n : string) (I : list nat) : Prop :=
  NoDup I /\ forall i, In i I <-> rem s i = n /\ exists e, In e es /\ crosses i (entry_path e) = true.

Definition count (O : list nat) : Q := inject_Z (Z.of_nat (List.length O)).

(** The "splits" entry of path_detail: every interface of the path with the
    number of ways the traffic has been divided so far, [outs n] being the
    interfaces that leave node [n]. *)
Fixpoint split_counts (s : st) (outs : string -> list nat) (a : Z) (p : list nat) : list (item * Z) :=
  match p with
  | [] => []
  | i :: t => let a' := a * Z.of_nat (List.length (outs (loc s i))) in (IIf i, a') :: split_counts s outs a' t
  end.
(** [x] divided equally at every node of the path *)
Fixpoint divided (s : st) (outs : string -> list nat) (x : Q) (p : list nat) : Q :=
  match p with [] => x | i :: t => divided s outs (x / count (outs (loc s i)))%Q t end.
(** A FlexModel stores the path under "items", a PerformanceModel under
    "interfaces". *)
Definition entry_key (k : kind) (e : pinfo) : option (list item) :=
  match k with Flex => pi_items e | Perf => pi_interfaces e end.

(** interface keys are unique *)
Definition if_keys_unique (s : st) : Prop := NoDup (map (if_key s) (m_ifs s)).

(** [m] is the effective metric of a routed LSP: its manual metric if it has
    one, else the cost of a least-cost route between its end nodes over the
    interfaces IGP routing may use (None if there is none). *)
Definition metric (s : st) (l : nat) (m : option Z) : Prop :=
  match mstate_of (h_ls s l) with
  | Pending c => m = Some c
  | Current (Some c) => m = Some c
  | Current None =>
      match m with
      | Some c => exists p, least_cost s (usable s) (lsp_from s l) p (lsp_to s l) /\ c = route_cost s p
      | None => forall p, ~ route s (usable s) (lsp_from s l) p (lsp_to s l)
      end
  end.
Definition metric_le (a b : option Z) : Prop :=
  match a, b with Some x, Some y => x <= y | None, None => True | _, _ => False end.

Definition routed_lsp (s : st) (l : nat) : Prop := exists p c b, l_path (h_ls s l) = PRouted p c b.
(** routed LSPs between the ends of demand [d] whose metric is least *)
Definition preferred (s : st) (d l : nat) : Prop :=
  lsp_of s d l /\ routed_lsp s l /\
  exists m, metric s l m /\
    forall l', lsp_of s d l' -> routed_lsp s l' -> exists m', metric s l' m' /\ metric_le m m'.

(** How often a path crosses interface [i]; an LSP stands for its own path. *)
Definition item_crossings (s : st) (i : nat) (x : item) : nat :=
  match x with
  | IIf j => if Nat.eqb j i then 1 else 0
  | ILsp l => match l_path (h_ls s l) with PRouted p _ _ => count_occ Nat.eq_dec p i | _ => 0 end
  end.
Definition crossings (s : st) (i : nat) (p : list item) : nat := list_sum (map (item_crossings s i) p).
(** path_traffic of the entries that cross [i] *)
Definition carried (s : st) (i : nat) (es : list pinfo) : Q :=
  Qsum (map (fun e => inject_Z (Z.of_nat (crossings s i (entry_path e))) * pi_traffic e)%Q es).
(** what demand [d] puts on interface [i] according to its path_detail *)
Definition demand_on (s : st) (d i : nat) : Q :=
  match d_path (h_dm s d), d_detail (h_dm s d) with
  | DPaths _, PDInfo es => carried s i es
  | _, _ => 0%Q
  end.
(** ... and when a PerformanceModel computes it: shares over LSPs are not
    rounded, amounts on IGP paths are rounded to one decimal *)
Definition demand_puts (s : st) (d i : nat) (x : Q) : Prop :=
  match d_path (h_dm s d) with
  | DUnrouted => (x == 0)%Q
  | DPaths ps =>
      (no_lsp_for s d /\ exists es, d_detail (h_dm s d) = PDInfo es /\ map entry_path es = ps /\ rounds 10 (carried s i es) x) \/
      (exists ls, ls <> [] /\ ps = map (fun l => [ILsp l]) ls /\
         (x == Qsum (map (fun l => d_traffic (h_dm s d) / count ls * inject_Z (Z.of_nat (crossings s i [ILsp l]))) ls))%Q)
  end.

(** routed LSPs from [u] to [v] whose metric is least *)
Definition least_metric (s : st) (u v : string) (l : nat) : Prop :=
  (In l (m_lsps s) /\ lsp_from s l = u /\ lsp_to s l = v) /\ routed_lsp s l /\
  exists m, metric s l m /\
    forall l', (In l' (m_lsps s) /\ lsp_from s l' = u /\ lsp_to s l' = v) -> routed_lsp s l' ->
      exists m', metric s l' m' /\ metric_le m m'.
