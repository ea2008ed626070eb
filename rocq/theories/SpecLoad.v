(** SpecLoad.v - what a model file says, in terms of its lines. *)
From Verif Require Import Base Spec.

Definition tab_char : ascii := "009"%char.
(** Fields separated by tabs: none of the fields contains a tab. *)
Definition tsv (fs : list string) (line : string) : Prop :=
  fs <> [] /\ line = String.concat (String tab_char "") fs /\
  forall f, In f fs -> ~ In tab_char (list_ascii_of_string f).

(** The lines below the first line equal to [name] and its column header. *)
Definition below (name : string) (lines rest : list string) : Prop :=
  exists pre more, lines = pre ++ name :: more /\ ~ In name pre /\ rest = tl more.
(** ... up to the first empty line, if there is one. *)
Definition in_table (name : string) (lines body : list string) : Prop :=
  exists rest, below name lines rest /\ ~ In "" body /\ (rest = body \/ exists more, rest = body ++ "" :: more).

Section Rows.
Variable k : kind.
Variable py_int : string -> option Z.
Variable py_float : string -> option Q.

Record if_row := mkIfRow {
  ir_node : string; ir_remote : string; ir_name : string; ir_cost : Z; ir_cap : Z;
  ir_cid : cid; ir_rsvp : bool; ir_pct : Q }.
Definition ir_key (r : if_row) : string * string := (ir_name r, ir_node r).

(** The optional columns: rsvp_enabled and percent_reservable_bandwidth. *)
Definition rsvp_columns (fs : list string) (r : if_row) : Prop :=
  (fs = [] /\ ir_rsvp r = true /\ ir_pct r = 100%Q) \/
  exists v, (ir_rsvp r = true <-> In v ["T"; "True"; "true"]) /\
    ((fs = [v] /\ ir_pct r = 100%Q) \/ exists q, fs = [v; q] /\ py_float q = Some (ir_pct r)).

Definition if_row_of (line : string) (r : if_row) : Prop :=
  exists cost cap fs, py_int cost = Some (ir_cost r) /\ (1 <= ir_cost r)%Z /\ py_int cap = Some (ir_cap r) /\ (0 < ir_cap r)%Z /\
  rsvp_columns fs r /\
  match k with
  | Flex => exists c, ir_cid r = CStr c /\ tsv ([ir_node r; ir_remote r; ir_name r; cost; cap; c] ++ fs) line
  | Perf => ir_cid r = CNone /\ tsv ([ir_node r; ir_remote r; ir_name r; cost; cap] ++ fs) line
  end.

Record nd_row := mkNdRow { nr_name : string; nr_lon : Z; nr_lat : Z; nr_shortcuts : bool }.
(** A column that may be missing or not a number. *)
Definition number_or_0 (t : option string) (z : Z) : Prop :=
  match t with
  | Some x => match py_int x with Some n => z = n | None => z = 0%Z end
  | None => z = 0%Z
  end.
Definition nd_row_of (line : string) (r : nd_row) : Prop :=
  exists fs, tsv fs line /\ nth_error fs 0 = Some (nr_name r) /\
    number_or_0 (nth_error fs 1) (nr_lon r) /\ number_or_0 (nth_error fs 2) (nr_lat r) /\
    ((nth_error fs 3 = None /\ nr_shortcuts r = false) \/ (nth_error fs 3 = Some "True" /\ nr_shortcuts r = true) \/
     (nth_error fs 3 = Some "False" /\ nr_shortcuts r = false)).

Record dm_row := mkDmRow { dr_src : string; dr_dst : string; dr_traffic : Z; dr_name : string }.
Definition dr_key (r : dm_row) : string * string * string := (dr_src r, dr_dst r, dr_name r).
Definition dm_row_of (line : string) (r : dm_row) : Prop :=
  exists fs t name, tsv fs line /\ nth_error fs 0 = Some (dr_src r) /\ nth_error fs 1 = Some (dr_dst r) /\
    nth_error fs 2 = Some t /\ py_int t = Some (dr_traffic r) /\ (0 <= dr_traffic r)%Z /\
    nth_error fs 3 = Some name /\ ((name = "" /\ dr_name r = "none") \/ (name <> "" /\ dr_name r = name)).

Record ls_row := mkLsRow { lr_src : string; lr_dst : string; lr_name : string; lr_bw : option Q; lr_metric : option Z }.
Definition lr_key (r : ls_row) : string * string * string := (lr_src r, lr_dst r, lr_name r).
(** A column that is ignored when missing or unreadable. *)
Definition readable {A} (read : string -> option A) (t : option string) : option A :=
  match t with Some x => read x | None => None end.
Definition ls_row_of (line : string) (r : ls_row) : Prop :=
  exists fs, tsv fs line /\ nth_error fs 0 = Some (lr_src r) /\ nth_error fs 1 = Some (lr_dst r) /\ nth_error fs 2 = Some (lr_name r) /\
    lr_bw r = readable py_float (nth_error fs 3) /\ lr_metric r = readable py_int (nth_error fs 4).

(** The node names a file mentions. *)
Definition mentioned (irs : list if_row) (nrs : list nd_row) (x : string) : Prop :=
  (exists r, In r irs /\ (x = ir_node r \/ x = ir_remote r)) \/ (exists r, In r nrs /\ x = nr_name r).

(** What an acceptable file says. *)
Record says (lines : list string) (irs : list if_row) (nrs : list nd_row) (drs : list dm_row) (lrs : list ls_row) : Prop := {
  sy_ifs : exists l, in_table "INTERFACES_TABLE" lines l /\ Forall2 if_row_of l irs;
  sy_twice : k = Flex -> forall r, In r irs ->
    exists a r1 b r2 c, irs = a ++ r1 :: b ++ r2 :: c /\ ir_cid r1 = ir_cid r /\ ir_cid r2 = ir_cid r /\
      forall x, In x (a ++ b ++ c) -> ir_cid x <> ir_cid r;
  sy_nds : exists l, in_table "NODES_TABLE" lines l /\ Forall2 nd_row_of l nrs;
  sy_dms : exists l, in_table "DEMANDS_TABLE" lines l /\ Forall2 dm_row_of l drs;
  sy_dms_known : forall r, In r drs -> mentioned irs nrs (dr_src r) /\ mentioned irs nrs (dr_dst r);
  sy_ls : (~ In "RSVP_LSP_TABLE" lines /\ lrs = []) \/ exists l, below "RSVP_LSP_TABLE" lines l /\ Forall2 ls_row_of l lrs;
  sy_ls_known : forall r, In r lrs -> mentioned irs nrs (lr_src r) /\ mentioned irs nrs (lr_dst r) }.

(** [r] is the first element of [l] with its key. *)
Definition first_with {A K} (key : A -> K) (l : list A) (r : A) : Prop :=
  exists pre post, l = pre ++ r :: post /\ forall x, In x pre -> key x <> key r.
(** [r] is the last element of [l] with its key. *)
Definition last_with {A K} (key : A -> K) (l : list A) (r : A) : Prop :=
  exists pre post, l = pre ++ r :: post /\ forall x, In x post -> key x <> key r.

(** Interface [i] is the one a row describes, never simulated. *)
Definition if_is (s : st) (i : nat) (r : if_row) : Prop :=
  i_name (h_if s i) = ir_name r /\ i_cost (h_if s i) = ir_cost r /\ i_cap (h_if s i) = inject_Z (ir_cap r) /\
  loc s i = ir_node r /\ rem s i = ir_remote r /\ i_cid (h_if s i) = ir_cid r /\ i_rsvp (h_if s i) = ir_rsvp r /\ i_pct (h_if s i) = ir_pct r /\
  i_traffic (h_if s i) = TNum 0 /\ i_failed (h_if s i) = false /\ i_res (h_if s i) = 0%Q /\ i_srlgs (h_if s i) = [] /\ i_inckt (h_if s i) = false.
Definition nd_is (s : st) (n : nat) (r : nd_row) : Prop :=
  nd_name s n = nr_name r /\ n_lon (h_nd s n) = inject_Z (nr_lon r) /\ n_lat (h_nd s n) = inject_Z (nr_lat r) /\
  n_shortcuts (h_nd s n) = nr_shortcuts r /\ n_failed (h_nd s n) = false /\ n_srlgs (h_nd s n) = [].
Definition dm_is (s : st) (d : nat) (r : dm_row) : Prop :=
  dmd_from s d = dr_src r /\ dmd_to s d = dr_dst r /\ d_traffic (h_dm s d) = inject_Z (dr_traffic r) /\ d_name (h_dm s d) = dr_name r /\
  d_path (h_dm s d) = DUnrouted /\ d_detail (h_dm s d) = PDInitial.
Definition ls_is (s : st) (l : nat) (r : ls_row) : Prop :=
  lsp_from s l = lr_src r /\ lsp_to s l = lr_dst r /\ l_name (h_ls s l) = lr_name r /\
  l_cfg (h_ls s l) = lr_bw r /\ l_imm (h_ls s l) = lr_metric r /\ l_mm (h_ls s l) = None /\
  l_path (h_ls s l) = PInit /\ l_res (h_ls s l) = RInit /\ l_setup (h_ls s l) = RInit.

(** The model a file describes: one object for the first line with each key; a
    node for every name mentioned, placed by the last NODES_TABLE line about it. *)
Record described (s : st) (irs : list if_row) (nrs : list nd_row) (drs : list dm_row) (lrs : list ls_row) : Prop := {
  ds_keys : keys_unique s;
  ds_ifs : forall i, In i (m_ifs s) -> exists r, if_is s i r /\ first_with ir_key irs r;
  ds_ifs_all : forall r, first_with ir_key irs r -> exists i, In i (m_ifs s) /\ if_is s i r;
  ds_nds : forall n, In n (m_nds s) -> mentioned irs nrs (nd_name s n) /\
    exists r, nd_is s n r /\ (last_with nr_name nrs r \/
      r = mkNdRow (nd_name s n) 0 0 false /\ forall x, In x nrs -> nr_name x <> nd_name s n);
  ds_nds_all : forall x, mentioned irs nrs x -> exists n, In n (m_nds s) /\ nd_name s n = x;
  ds_dms : forall d, In d (m_dms s) -> exists r, dm_is s d r /\ first_with dr_key drs r;
  ds_dms_all : forall r, first_with dr_key drs r -> exists d, In d (m_dms s) /\ dm_is s d r;
  ds_ls : forall l, In l (m_lsps s) -> exists r, ls_is s l r /\ first_with lr_key lrs r;
  ds_ls_all : forall r, first_with lr_key lrs r -> exists l, In l (m_lsps s) /\ ls_is s l r;
  ds_refs : (forall i, In i (m_ifs s) -> In (i_node (h_if s i)) (m_nds s) /\ (In (i_rem (h_if s i)) (m_nds s) \/ rem s i = loc s i)) /\
    (forall d, In d (m_dms s) -> In (d_src (h_dm s d)) (m_nds s) /\ In (d_dst (h_dm s d)) (m_nds s)) /\
    (forall l, In l (m_lsps s) -> In (l_src (h_ls s l)) (m_nds s) /\ In (l_dst (h_ls s l)) (m_nds s));
  ds_empty : m_srs s = [] /\ m_ckts s = [] /\ m_groups s = [] }.
End Rows.
