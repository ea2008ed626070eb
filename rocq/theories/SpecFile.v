(** SpecFile.v - model files that can be simulated, in terms of what their lines say
    (C97, C98). *)
From Verif Require Import Base Spec SpecLoad SpecSig.

(** Two files that say the same: up to the order of lines, and to further interface,
    demand and LSP lines with names that came before (these are disregarded), and
    earlier lines about a node (the last one counts). *)
Record same_rows (irs irs' : list if_row) (nrs nrs' : list nd_row) (drs drs' : list dm_row) (lrs lrs' : list ls_row) : Prop := {
  sr_ifs : forall r, first_with ir_key irs r <-> first_with ir_key irs' r;
  sr_nds : forall r, last_with nr_name nrs r <-> last_with nr_name nrs' r;
  sr_names : forall x, mentioned irs nrs x <-> mentioned irs' nrs' x;
  sr_dms : forall r, first_with dr_key drs r <-> first_with dr_key drs' r;
  sr_lsps : forall r, first_with lr_key lrs r <-> first_with lr_key lrs' r }.

(** The bandwidth an LSP line asks for: its own, or an equal share of the demands with
    its ends. *)
Definition row_traffic (drs : list dm_row) (u v : string) : Q :=
  Qsum (map (fun r => inject_Z (dr_traffic r)) (filter (fun r => String.eqb (dr_src r) u && String.eqb (dr_dst r) v) drs)).
Definition row_count (lrs : list ls_row) (u v : string) : nat :=
  List.length (filter (fun r => String.eqb (lr_src r) u && String.eqb (lr_dst r) v) lrs).
Definition row_wanted (drs : list dm_row) (lrs : list ls_row) (r : ls_row) : Q :=
  match lr_bw r with
  | Some q => q
  | None => (row_traffic drs (lr_src r) (lr_dst r) / inject_Z (Z.of_nat (row_count lrs (lr_src r) (lr_dst r))))%Q
  end.

(** A file of a usual network: every line has a name of its own; every link is there in
    both directions, with the same capacity and RSVP setting (and circuit id), and does
    not lead back to its node; a PerformanceModel has no parallel links; percentages are
    percentages; demands and LSPs lead from one node to another one, and no two of their
    "source-dest" texts clash; configured bandwidths and metrics are not negative, and
    bandwidths asked for are multiples of 0.1; every interface open to RSVP has room
    for all LSPs; a PerformanceModel file enables no IGP shortcuts, and in a FlexModel
    file that does, no "source-dest" text of an LSP is that of other nodes. *)
Record usual_file (k : kind) (irs : list if_row) (nrs : list nd_row) (drs : list dm_row) (lrs : list ls_row) : Prop := {
  uf_ifs : NoDup (map ir_key irs);
  uf_dms : NoDup (map dr_key drs);
  uf_lsps : NoDup (map lr_key lrs);
  uf_links : forall r, In r irs -> ir_node r <> ir_remote r /\ exists r', In r' irs /\ ir_node r' = ir_remote r /\ ir_remote r' = ir_node r /\
               ir_cid r' = ir_cid r /\ ir_cap r' = ir_cap r /\ ir_rsvp r' = ir_rsvp r;
  uf_single : k = Perf -> NoDup (map (fun r => ends_text (ir_node r) (ir_remote r)) irs);
  uf_pct : forall r, In r irs -> (0 <= ir_pct r <= 100)%Q;
  uf_dm : forall r, In r drs -> dr_src r <> dr_dst r;
  uf_ls : forall r, In r lrs -> lr_src r <> lr_dst r;
  uf_texts : forall a a' b b', In a (map lr_src lrs ++ map dr_src drs) -> In a' (map lr_src lrs ++ map dr_src drs) ->
               In b (map lr_dst lrs ++ map dr_dst drs) -> In b' (map lr_dst lrs ++ map dr_dst drs) ->
               ends_text a b = ends_text a' b' -> a = a' /\ b = b';
  uf_bw : forall r q, In r lrs -> lr_bw r = Some q -> (0 <= q)%Q;
  uf_metric : forall r m, In r lrs -> lr_metric r = Some m -> (0 <= m)%Z;
  uf_tenths : forall r, In r lrs -> tenths (row_wanted drs lrs r);
  uf_room : forall r, In r irs -> ir_rsvp r = true -> (Qsum (map (row_wanted drs lrs) lrs) <= inject_Z (ir_cap r) * ir_pct r / 100)%Q;
  uf_plain : k = Perf -> forall r, In r nrs -> nr_shortcuts r = false;
  uf_short : (exists r, In r nrs /\ nr_shortcuts r = true) -> forall a b a' b', mentioned irs nrs a -> mentioned irs nrs b ->
               In a' (map lr_src lrs) -> In b' (map lr_dst lrs) -> ends_text a b = ends_text a' b' -> a = a' /\ b = b' }.
