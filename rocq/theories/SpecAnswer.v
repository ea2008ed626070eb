(** SpecAnswer.v - what a model file says about the results of a simulation, in terms
    of its lines (C103). *)
From Verif Require Import Base Spec SpecSim SpecLoad SpecFile SpecText.
From Coq Require Import Permutation.

(** Ways through the network: interface lines open to RSVP, end to end *)
Inductive line_route (irs : list if_row) : string -> list if_row -> string -> Prop :=
| line_nil n : line_route irs n [] n
| line_cons r p v : In r irs -> ir_rsvp r = true -> line_route irs (ir_remote r) p v -> line_route irs (ir_node r) (r :: p) v.
Fixpoint line_cost (p : list if_row) : Z := match p with [] => 0 | r :: t => ir_cost r + line_cost t end.
(** ... of least cost; ... and with fewest lines among these *)
Definition line_least (irs : list if_row) (u : string) (p : list if_row) (v : string) : Prop :=
  line_route irs u p v /\ forall q, line_route irs u q v -> line_cost p <= line_cost q.
Definition line_best (irs : list if_row) (u : string) (p : list if_row) (v : string) : Prop :=
  line_least irs u p v /\ forall q, line_least irs u q v -> (List.length p <= List.length q)%nat.

(** A path of the simulated model and the lines of its interfaces *)
Definition along (s : st) (p : list nat) (rows : list if_row) : Prop := map (if_key s) p = map ir_key rows.

(** The simulated model has the objects of the lines, and no others. *)
Record lines_objects (s : st) (irs : list if_row) (drs : list dm_row) (lrs : list ls_row) : Prop := {
  lo_ifs : Permutation (map (if_key s) (m_ifs s)) (map ir_key irs);
  lo_dms : Permutation (map (dmd_key s) (m_dms s)) (map dr_key drs);
  lo_lsps : Permutation (map (lsp_key s) (m_lsps s)) (map lr_key lrs) }.

(** An LSP takes a best way and reserves what its line asks for, if there is a way. *)
Definition lsp_answer (s : st) (irs : list if_row) (drs : list dm_row) (lrs : list ls_row) (l : nat) (r : ls_row) : Prop :=
  match l_path (h_ls s l) with
  | PRouted p c _ => exists rows q, along s p rows /\ line_best irs (lr_src r) rows (lr_dst r) /\ c = line_cost rows /\
                                   l_res (h_ls s l) = RNum q /\ (q == row_wanted drs lrs r)%Q
  | PUnrouted => l_res (h_ls s l) = RUnrouted /\ forall rows, ~ line_route irs (lr_src r) rows (lr_dst r)
  | _ => False
  end.

(** The metric of an LSP: the one of its line (0 counts as none), or the cost of the
    least-cost ways *)
Definition line_metric (irs : list if_row) (x : ls_row) (m : Z) : Prop :=
  (lr_metric x = Some m /\ m <> 0%Z) \/
  ((lr_metric x = None \/ lr_metric x = Some 0%Z) /\ exists rows, line_least irs (lr_src x) rows (lr_dst x) /\ m = line_cost rows).
Definition beside (r : dm_row) (x : ls_row) : Prop := lr_src x = dr_src r /\ lr_dst x = dr_dst r.
(** The LSPs a demand rides: those of least metric with its ends *)
Definition line_preferred (irs : list if_row) (lrs : list ls_row) (r : dm_row) (x : ls_row) : Prop :=
  beside r x /\ exists m, line_metric irs x m /\ forall y m', In y lrs -> beside r y -> line_metric irs y m' -> m <= m'.

(** A demand rides these LSPs; without an LSP line with its ends it takes all least-cost ways. *)
Definition demand_answer (s : st) (irs : list if_row) (lrs : list ls_row) (d : nat) (r : dm_row) : Prop :=
  match d_path (h_dm s d) with
  | DUnrouted => forall rows, ~ line_route irs (dr_src r) rows (dr_dst r)
  | DPaths ps =>
      ((exists x, In x lrs /\ beside r x) /\
       exists ls, ps = map (fun l => [ILsp l]) ls /\ ls <> [] /\ NoDup ls /\ (forall l, In l ls -> In l (m_lsps s)) /\
         forall l x, In l (m_lsps s) -> In x lrs -> lsp_key s l = lr_key x -> (In l ls <-> line_preferred irs lrs r x)) \/
      ((forall x, In x lrs -> ~ beside r x) /\
       exists L, ps = map if_path L /\ L <> [] /\ NoDup L /\
         (forall p, In p L -> exists rows, along s p rows /\ line_least irs (dr_src r) rows (dr_dst r)) /\
         (forall rows, line_least irs (dr_src r) rows (dr_dst r) -> exists p, In p L /\ along s p rows))
  end.

(** The ways [L] that carry the traffic of a demand line.  With an LSP line with its ends
    it has to be one best way. *)
Definition carriers (irs : list if_row) (lrs : list ls_row) (r : dm_row) (L : list (list if_row)) : Prop :=
  NoDup L /\
  (forall x, In x lrs -> beside r x -> (List.length L <= 1)%nat /\ forall p, In p L <-> line_best irs (dr_src r) p (dr_dst r)) /\
  ((forall x, In x lrs -> ~ beside r x) -> forall p, In p L <-> line_least irs (dr_src r) p (dr_dst r)).

(** The traffic is divided evenly at every node over the interfaces that lead on, along
    the ways [L]. *)
Definition same_line (r x : if_row) : bool := String.eqb (ir_name x) (ir_name r) && String.eqb (ir_node x) (ir_node r).
Definition on_way (r : if_row) (p : list if_row) : bool := existsb (same_line r) p.
Definition lead_on (irs : list if_row) (L : list (list if_row)) (n : string) : list if_row :=
  filter (fun r => String.eqb (ir_node r) n && existsb (on_way r) L) irs.
Fixpoint portion (irs : list if_row) (L : list (list if_row)) (p : list if_row) : Q :=
  match p with [] => 1 | r :: t => portion irs L t / inject_Z (Z.of_nat (List.length (lead_on irs L (ir_node r)))) end%Q.
(** The portion of the traffic that crosses the interface of line [r] *)
Definition crossing (irs : list if_row) (L : list (list if_row)) (r : if_row) : Q :=
  Qsum (map (portion irs L) (filter (on_way r) L)).
Definition line_traffic (irs : list if_row) (drs : list dm_row) (ways : dm_row -> list (list if_row)) (r : if_row) : Q :=
  Qsum (map (fun d => inject_Z (dr_traffic d) * crossing irs (ways d) r)%Q drs).

(** The answers of a simulation of the model of a file.  With parallel ways the amounts
    of a PerformanceModel are rounded, so they are compared only without; demands are
    compared when no line enables IGP shortcuts. *)
Record answers (k : kind) (s : st) (irs : list if_row) (nrs : list nd_row) (drs : list dm_row) (lrs : list ls_row) : Prop := {
  an_objects : lines_objects s irs drs lrs;
  an_lsps : forall l r, In l (m_lsps s) -> In r lrs -> lsp_key s l = lr_key r -> lsp_answer s irs drs lrs l r;
  an_demands : (forall n, In n nrs -> nr_shortcuts n = false) ->
    forall d r, In d (m_dms s) -> In r drs -> dmd_key s d = dr_key r -> demand_answer s irs lrs d r;
  an_traffic : (forall n, In n nrs -> nr_shortcuts n = false) ->
    forall ways, (forall d, In d drs -> carriers irs lrs d (ways d) /\ (k = Perf -> (List.length (ways d) <= 1)%nat)) ->
    forall i r, In i (m_ifs s) -> In r irs -> if_key s i = ir_key r ->
      exists q, i_traffic (h_if s i) = TNum q /\ (q == line_traffic irs drs ways r)%Q }.

(** The bytes of a file in the documented layout, whose lines say [irs], [nrs], [drs] and
    [lrs]; in a FlexModel file every circuit has two lines, and demands and LSPs name
    nodes of the file. *)
Definition documented (k : kind) (py_int : string -> option Z) (py_float : string -> option Q) (b : string)
    (irs : list if_row) (nrs : list nd_row) (drs : list dm_row) (lrs : list ls_row) : Prop :=
  (exists ifl ndl dml lsl lines t, laid_out ifl ndl dml lsl lines /\ wrote lines t /\ utf8 t /\
     (b = String.append signature t \/ (b = t /\ forall x, t <> String.append signature x)) /\
     Forall2 (if_row_of k py_int py_float) ifl irs /\ Forall2 (nd_row_of py_int) ndl nrs /\ Forall2 (dm_row_of py_int) dml drs /\
     match lsl with Some l => Forall2 (ls_row_of py_int py_float) l lrs | None => lrs = [] end) /\
  (k = Flex -> forall r, In r irs -> exists a r1 b r2 c, irs = (a ++ r1 :: b ++ r2 :: c)%list /\ ir_cid r1 = ir_cid r /\ ir_cid r2 = ir_cid r /\
     forall x, In x (a ++ b ++ c)%list -> ir_cid x <> ir_cid r) /\
  (forall r, In r drs -> mentioned irs nrs (dr_src r) /\ mentioned irs nrs (dr_dst r)) /\
  (forall r, In r lrs -> mentioned irs nrs (lr_src r) /\ mentioned irs nrs (lr_dst r)).
