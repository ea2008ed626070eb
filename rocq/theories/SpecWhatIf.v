(** SpecWhatIf.v - comparing the simulations of two models without LSPs
    (C76-C83). *)
From Verif Require Import Base Graph Objects Sim Api Spec SpecCkt SpecSim SpecFlow SpecOrder SpecFail.

(** A model without LSPs in which no link is half failed; the other conditions
    are those of C01-C08 and C67. *)
Definition plain (k : kind) (s : st) : Prop :=
  m_lsps s = [] /\ well_posed s /\ ends_known s /\ cids_set k s /\ ends_agree k s /\ if_keys_unique s.

(** The same interfaces with the same end nodes and costs, and the same of them
    have bandwidth left when nothing is reserved.  Capacities, failures and
    everything else may differ. *)
Record same_links (s t : st) : Prop := {
  sl_ifs : forall i, In i (m_ifs t) <-> In i (m_ifs s);
  sl_loc : forall i, In i (m_ifs s) -> loc t i = loc s i;
  sl_rem : forall i, In i (m_ifs s) -> rem t i = rem s i;
  sl_cost : forall i, In i (m_ifs s) -> i_cost (h_if t i) = i_cost (h_if s i);
  sl_open : forall i, In i (m_ifs s) -> (available (unreserved t) i <-> available (unreserved s) i) }.

(** Demand [d] has the same ends (and traffic) in both models. *)
Definition same_ends (s t : st) (d : nat) : Prop := dmd_from t d = dmd_from s d /\ dmd_to t d = dmd_to s d.
Definition same_demand (s t : st) (d : nat) : Prop := same_ends s t d /\ d_traffic (h_dm t d) = d_traffic (h_dm s d).

(** [t] is [s] with more (or as many) interfaces down. *)
Record degraded (s t : st) : Prop := {
  dg_links : same_links s t;
  dg_down : forall i, In i (m_ifs s) -> i_failed (h_if s i) = true -> i_failed (h_if t i) = true;
  dg_dms : forall d, In d (m_dms t) <-> In d (m_dms s);
  dg_dm : forall d, In d (m_dms s) -> same_demand s t d }.

(** [t] is [s] with the demands [D] added. *)
Record extended (s t : st) (D : list nat) : Prop := {
  ex_links : same_links s t;
  ex_fail : same_failures s t;
  ex_dms : m_dms t = (m_dms s ++ D)%list;
  ex_dm : forall d, In d (m_dms s) -> same_demand s t d }.

(** [t] is [s] with every demand's traffic multiplied by [c]. *)
Record scaled (c : Q) (s t : st) : Prop := {
  sc_links : same_links s t;
  sc_fail : same_failures s t;
  sc_dms : m_dms t = m_dms s;
  sc_dm : forall d, In d (m_dms s) -> same_ends s t d /\ (d_traffic (h_dm t d) == c * d_traffic (h_dm s d))%Q }.

(** The paths of demand [d] of the simulated model [s'] use only interfaces
    that are up in [t]. *)
Definition spared (s' t : st) (d : nat) : Prop :=
  forall ps p i, d_path (h_dm s' d) = DPaths ps -> In p ps -> In (IIf i) p -> i_failed (h_if t i) = false.

(** What demand [d] of a simulated model puts on interface [i] (C08) *)
Definition adds (k : kind) (s' : st) (d i : nat) (x : Q) : Prop :=
  match k with Flex => (x == demand_on s' d i)%Q | Perf => demand_puts s' d i x end.

(** The configuration of a model: everything a user puts in, except what is
    failed.  A PerformanceModel numbers its circuits itself. *)
Record same_config (k : kind) (s t : st) : Prop := {
  cf_sets : same_sets s t;
  cf_nd : forall n, n_name (h_nd t n) = n_name (h_nd s n) /\ n_srlgs (h_nd t n) = n_srlgs (h_nd s n) /\ n_shortcuts (h_nd t n) = n_shortcuts (h_nd s n);
  cf_if : forall i, same_if_data (h_if s i) (h_if t i) /\ (k = Flex -> i_cid (h_if t i) = i_cid (h_if s i));
  cf_dm : forall d, same_dm_data (h_dm s d) (h_dm t d);
  cf_ls : forall l, same_ls_data (h_ls s l) (h_ls t l) }.

(** Calls that simulate, validate, fail or repair something *)
Definition outage_op (s : st) (o : op) : Prop :=
  match o with
  | OpUpdate | OpValidate | OpFailIf _ _ | OpUnfailIf _ _ _ | OpFailNode _ | OpUnfailNode _ | OpFailSrlg _ | OpUnfailSrlg _ => True
  | OpIfFail i | OpIfUnfail i => In i (m_ifs s)
  | _ => False
  end.

(** Of these, the calls that take things down *)
Definition failing_op (s : st) (o : op) : Prop :=
  match o with
  | OpUpdate | OpValidate | OpFailIf _ _ | OpFailNode _ | OpFailSrlg _ => True
  | OpIfFail i => In i (m_ifs s)
  | _ => False
  end.
(** No interface that was down is up. *)
Definition only_down (s t : st) : Prop := forall i, i_failed (h_if s i) = true -> i_failed (h_if t i) = true.

(** A model without LSPs that can be simulated, failed and repaired: well formed
    (C33), with costs of at least 1 and without clashes of "source-dest" texts. *)
Definition sound_net (k : kind) (s : st) : Prop :=
  m_lsps s = [] /\ well_posed s /\ wf_net k s /\ srlg_sound k s /\ consistent k s.

(** How far apart the amounts that a FlexModel and a PerformanceModel compute for
    one demand on one interface can be: half a unit of the first decimal, and half
    a unit of the fourth for every path. *)
Definition slack (s' : st) (d : nat) : Q :=
  match d_path (h_dm s' d) with
  | DPaths ps => ((1 # 20) + inject_Z (Z.of_nat (List.length ps)) * (1 # 20000))%Q
  | DUnrouted => 0%Q
  end.

(** The number shown as an interface's traffic; none when it is "Down" *)
Definition traffic_of (s : st) (i : nat) : Q := match i_traffic (h_if s i) with TNum q => q | TDown => 0%Q end.
(** Traffic on the interfaces that leave node [n], and on those that enter it *)
Definition outgoing (s : st) (n : string) : Q :=
  Qsum (map (fun i => if String.eqb (loc s i) n then traffic_of s i else 0%Q) (m_ifs s)).
Definition incoming (s : st) (n : string) : Q :=
  Qsum (map (fun i => if String.eqb (rem s i) n then traffic_of s i else 0%Q) (m_ifs s)).
(** Traffic of the routed demands that start at [n], that end at it, and of all *)
Definition routed_traffic (s : st) (d : nat) : Q := match d_path (h_dm s d) with DPaths _ => d_traffic (h_dm s d) | DUnrouted => 0%Q end.
Definition sourced (s : st) (n : string) : Q :=
  Qsum (map (fun d => if String.eqb (dmd_from s d) n then routed_traffic s d else 0%Q) (m_dms s)).
Definition sunk (s : st) (n : string) : Q :=
  Qsum (map (fun d => if String.eqb (dmd_to s d) n then routed_traffic s d else 0%Q) (m_dms s)).
Definition routed_total (s : st) : Q := Qsum (map (routed_traffic s) (m_dms s)).

(** Two links between the same nodes, of the same cost and both usable *)
Definition parallel (s : st) (i j : nat) : Prop :=
  In i (m_ifs s) /\ In j (m_ifs s) /\ loc s i = loc s j /\ rem s i = rem s j /\ i_cost (h_if s i) = i_cost (h_if s j) /\ usable s i /\ usable s j.

(** [t] is [s] with every cost multiplied by [c]. *)
Record recosted (c : Z) (s t : st) : Prop := {
  rc_ifs : forall i, In i (m_ifs t) <-> In i (m_ifs s);
  rc_loc : forall i, In i (m_ifs s) -> loc t i = loc s i;
  rc_rem : forall i, In i (m_ifs s) -> rem t i = rem s i;
  rc_cost : forall i, In i (m_ifs s) -> i_cost (h_if t i) = (c * i_cost (h_if s i))%Z;
  rc_open : forall i, In i (m_ifs s) -> (available (unreserved t) i <-> available (unreserved s) i);
  rc_fail : same_failures s t;
  rc_dms : m_dms t = m_dms s;
  rc_dm : forall d, In d (m_dms s) -> same_demand s t d }.
