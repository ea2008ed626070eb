(** FloatSim.v - the simulation of Sim.v with a rounding function [R] applied to the
    result of every arithmetic operation, in the order of the code.  With [R := fl] this
    is Python's float arithmetic.  Definitions of Sim.v without arithmetic are used as
    they are; the others have the same names here and the same citations. *)
From Verif Require Import Base Graph Objects Sim.

Section Rounded.
Variable R : Q -> Q.

(** sum(l), and repeated += starting from 0 *)
Definition Rsum (l : list Q) : Q := fold_left (fun a x => R (a + x)%Q) l 0%Q.

(** Interface.reserved_bandwidth getter (interface.py 109-113); round(x, 1) of a float is
    the float nearest to the decimal *)
Definition reserved_bw (s : st) (i : nat) : Q := R (round1 (i_res (h_if s i))).

(** Interface.reservable_bandwidth (interface.py 94-106) *)
Definition reservable_bw (s : st) (i : nat) : Q :=
  let r := h_if s i in
  if i_rsvp r then R (round1 (R (R (i_cap r * R (i_pct r / 100)) - reserved_bw s i)))%Q else (-(1))%Q.

(** interface.reserved_bandwidth += x (getter 109-113, setter 116-128) *)
Definition add_reserved (i : nat) (x : Q) : M unit :=
  modify (fun s => upd_if i (if_res (R (reserved_bw s i + x)%Q)) s).


(** _make_weighted_network_graph_mdg (flex_model.py 960-1030) and
    _make_weighted_network_graph (performance_model.py 507-577) *)
Definition considered (s : st) (include_failed : bool) (bw : Q) (rsvp_required : bool) (i : nat) : bool :=
  (include_failed || negb (i_failed (h_if s i)))
  && Qleb bw (reservable_bw s i)
  && (negb rsvp_required || i_rsvp (h_if s i)).


Definition make_graph (k : kind) (s : st) (include_failed : bool) (bw : Q) (rsvp_required : bool) : graph :=
  mkG (nx_edges k (map (edge_of s) (filter (considered s include_failed bw rsvp_required) (m_ifs s))))
      (node_names s).


(** _make_weighted_network_graph_routed_lsp (flex_model.py 1670-1730,
    performance_model.py 914-972); [cur] is lsp.path["interfaces"], [resv] is
    lsp.reserved_bandwidth. *)
Definition eff_reservable (s : st) (cur : list nat) (resv : Q) (i : nat) : Q :=
  if mem_if s i cur then R (reservable_bw s i + resv)%Q else reservable_bw s i.


Definition eligible_routed (s : st) (cur : list nat) (resv bw : Q) (i : nat) : bool :=
  negb (i_failed (h_if s i)) && i_rsvp (h_if s i) && Qleb bw (eff_reservable s cur resv i).


Definition make_graph_routed (k : kind) (s : st) (cur : list nat) (resv bw : Q) : graph :=
  mkG (nx_edges k (map (edge_of s) (filter (eligible_routed s cur resv bw) (m_ifs s))))
      (node_names s).


(** FlexModel._convert_nx_path_to_model_path (flex_model.py 1470-1512) followed
    by normalization (1422) *)
Definition flex_model_paths (s : st) (bw : Q) (p : list string) : list (list nat) :=
  product (map (fun uv => filter (fun i => Qleb bw (reservable_bw s i))
                                 (ifaces_between s (fst uv) (snd uv))) (hops p)).


(** FlexModel._convert_nx_path_to_model_path_routed_lsp (flex_model.py
    1514-1570): each eligible parallel interface of a hop is appended as a
    separate singleton hop; then normalization (1466). *)
Definition flex_routed_ok (s : st) (cur : list nat) (resv bw : Q) (i : nat) : bool :=
  (mem_if s i cur && Qleb bw (R (reservable_bw s i + resv)%Q)) || Qleb bw (reservable_bw s i).


Definition flex_routed_path (s : st) (cur : list nat) (resv bw : Q) (p : list string) : list nat :=
  flat_map (fun uv => filter (flex_routed_ok s cur resv bw) (ifaces_between s (fst uv) (snd uv)))
           (hops p).


Variable E : env.
Variable k : kind.


(** get_shortest_path (flex_model.py 1381-1424, performance_model.py 794-831);
    every exception of the loop is swallowed. *)
Definition get_shortest_path (s : st) (src dst : string) (bw : Q) : option Z * list (list nat) :=
  let G := make_graph k s false bw false in
  match nx_asp E G src dst with
  | NxPaths ps =>
      (nx_len E G src dst,
       match k with
       | Flex => flat_map (flex_model_paths s bw) ps
       | Perf => map (perf_path s) ps
       end)
  | _ => (None, [])
  end.


(** get_shortest_path_for_routed_lsp (flex_model.py 1426-1468,
    performance_model.py 833-879), the "path" entry *)
Definition paths_for_routed_lsp (s : st) (src dst : string) (cur : list nat) (resv bw : Q)
  : list (list nat) :=
  let G := make_graph_routed k s cur resv bw in
  match nx_asp E G src dst with
  | NxPaths ps =>
      match k with
      | Flex => map (flex_routed_path s cur resv bw) ps
      | Perf => map (perf_path s) ps
      end
  | _ => []
  end.


(** RSVP_LSP.effective_metric (rsvp.py 316-334) *)
Definition effective_metric (l : nat) : M mval :=
  mm <- get_manual_metric l ;;
  match mm with
  | Some _ =>
      modify (fun s => upd_ls l (fun r => ls_mm (l_mm r) None r) s) ;;;
      mm' <- get_manual_metric l ;;
      match mm' with Some z => ret (MInt z) | None => ret MNone end
  | None =>
      s <- gets (fun s => s) ;;
      if says_unrouted (l_path (h_ls s l)) then ret MUnrouted
      else match fst (get_shortest_path s (lsrc s l) (ldst s l) 0) with
           | Some c => ret (MInt c)
           | None => ret MNone
           end
  end.


Definition path_min_reservable (s : st) (p : list nat) : res Q :=
  match Qmin_list (map (reservable_bw s) p) with Some q => Ok q | None => Err ValueError end.


(** _add_lsp_path_data (master_model.py 289-308) *)
Definition add_lsp_path_data (l : nat) (p : list nat) : M unit :=
  b <- reads (fun s => path_min_reservable s p) ;;
  modify (fun s => upd_ls l (ls_path (PRouted p (Zsum (map (fun i => i_cost (h_if s i)) p)) b)) s).


(** _determine_lsp_state_info (flex_model.py 1572-1668, performance_model.py
    372-469), body for one LSP *)
Definition determine_lsp (l : nat) (traff : Q) : M unit :=
  cfg <- gets (fun s => l_cfg (h_ls s l)) ;;
  let want := match cfg with None => traff | Some c => c end in
  modify (upd_ls l (ls_res (RNum want))) ;;;
  set_setup_bw l want ;;;
  setup <- gets (fun s => lsp_setup_value s l) ;;
  G <- gets (fun s => make_graph k s false setup true) ;;
  modify (upd_ls l (ls_path PEmpty)) ;;;
  ends <- gets (fun s => (lsrc s l, ldst s l)) ;;
  match nx_asp E G (fst ends) (snd ends) with
  | NxNoPath => modify (upd_ls l (fun r => ls_res RUnrouted (ls_path PUnrouted r)))
  | NxNodeNotFound => raise NodeNotFound
  | NxPaths ps =>
      cands <- gets (fun s => iface_paths k s G ps) ;;
      withbw <- mfilter (fun p => b <- reads (fun s => path_min_reservable s p) ;;
                                  ret (Qleb setup b)) cands ;;
      match withbw with
      | [] => modify (upd_ls l (fun r => ls_res RUnrouted (ls_path PUnrouted r)))
      | _ =>
          p <- choose_path E withbw ;;
          add_lsp_path_data l p ;;;
          mfor p (fun i => add_reserved i want)
      end
  end.


(** find_rsvp_path_w_bw (rsvp.py 208-251) and
    _find_path_cost_and_headroom_routed_lsp (rsvp.py 63-110) *)
Definition find_rsvp_path_w_bw (l : nat) (bw : Q) : M unit :=
  cur <- reads (fun s => lsp_interfaces s l) ;;
  resv <- reads (fun s => num_bw (l_res (h_ls s l))) ;;
  cands <- gets (fun s => paths_for_routed_lsp s (lsrc s l) (ldst s l) cur resv bw) ;;
  infos <- mmap (fun p =>
      s <- gets (fun s => s) ;;
      match Qmin_list (map (eff_reservable s cur resv) p) with
      | None => raise ValueError
      | Some b => ret (PRouted p (Zsum (map (fun i => i_cost (h_if s i)) p)) b)
      end) cands ;;
  match infos with
  | [] => ret tt
  | [i] => modify (upd_ls l (ls_path i)) ;;;
           modify (upd_ls l (ls_res (RNum bw))) ;;; set_setup_bw l bw
  | _ => i <- random_choice E PUnrouted infos ;;
         modify (upd_ls l (ls_path i)) ;;;
         modify (upd_ls l (ls_res (RNum bw))) ;;; set_setup_bw l bw
  end.


(** _optimize_parallel_lsp_group_res_bw (master_model.py 310-355), loop body *)
Definition optimize_lsp (bw : Q) (l : nat) : M unit :=
  before <- reads (fun s => lsp_interfaces s l) ;;
  rbefore <- reads (fun s => num_bw (l_res (h_ls s l))) ;;
  find_rsvp_path_w_bw l bw ;;;
  rafter <- reads (fun s => num_bw (l_res (h_ls s l))) ;;
  if Qeqb rbefore rafter then ret tt
  else
    mfor before (fun i => add_reserved i (- rbefore)%Q) ;;;
    after <- reads (fun s => lsp_interfaces s l) ;;
    mfor after (fun i => add_reserved i rafter).


Definition group_traffic (s : st) (dgroups : list (string * list nat)) (key : string) : Q :=
  match dict_get key dgroups with
  | Some ds => Rsum (map (fun d => d_traffic (h_dm s d)) ds)
  | None => 0%Q
  end.


(** _route_parallel_lsp_groups (master_model.py 231-287), body for one group *)
Definition route_lsp_group (dgroups : list (string * list nat)) (g : string * list nat) : M unit :=
  let '(key, lsps) := g in
  total <- gets (fun s => group_traffic s dgroups key) ;;
  let each := if Qltb 0 total then R (total / inject_Z (Z.of_nat (List.length lsps)))%Q else 0%Q in
  mfor lsps (fun l => determine_lsp l each) ;;;
  routed <- gets (fun s => filter (fun l => not_unrouted (l_path (h_ls s l))) lsps) ;;
  if negb (Nat.eqb (List.length routed) (List.length lsps)) && negb (Nat.eqb (List.length routed) 0)
  then mfor routed (optimize_lsp (R (total / inject_Z (Z.of_nat (List.length routed)))%Q))
  else ret tt.


(** _route_lsps (master_model.py 208-229) *)
Definition route_lsps : M unit :=
  ifs <- gets m_ifs ;;
  mfor ifs (fun i => modify (upd_if i (if_res 0%Q))) ;;;
  lg <- parallel_lsp_groups E ;;
  dg <- gets (parallel_demand_groups E) ;;
  mfor lg (route_lsp_group dg).


(** The routed LSPs of the group [key] and their minimum-metric members, as
    computed in the try blocks of flex_model.py 446-463 and 549-565 and
    performance_model.py 1267-1283: KeyError and ValueError give []. *)
Definition min_metric_lsps (key : string) : M (list nat) :=
  groups <- parallel_lsp_groups E ;;
  match dict_get key groups with
  | None => ret []
  | Some cands =>
      routed <- gets (fun s => filter (lsp_routed s) cands) ;;
      ms <- mmap effective_metric routed ;;
      match py_min ms with
      | Err ValueError => ret []
      | Err e => raise e
      | Ok m =>
          mfilter (fun l => m' <- effective_metric l ;;
                            r <- gets (fun s => lsp_routed s l) ;;
                            ret (mval_eqb m' m && r)) cands
      end
  end.


(** for destination in destinations: ... break (flex_model.py 440-471) *)
Fixpoint first_lsps (src : string) (dests : list string) : M (list nat) :=
  match dests with
  | [] => ret []
  | d :: tl =>
      ls <- min_metric_lsps (pair_key src d) ;;
      match ls with [] => first_lsps src tl | _ => ret ls end
  end.


(** The loop over the nodes of one node path (flex_model.py 422-471).
    [skip_to] is next_node_to_check[-1]. *)
Fixpoint path_lsps (full : list string) (rest : list string) (skip_to : option string)
  (acc : list (list nat)) : M (list (list nat)) :=
  match rest with
  | [] => ret acc
  | n :: tl =>
      skip <- match skip_to with
              | None => ret false
              | Some t =>
                  match index_of n full, index_of t full with
                  | Some a, Some b => ret (Nat.ltb a b)
                  | _, _ => raise ValueError
                  end
              end ;;
      if skip : bool then path_lsps full tl skip_to acc
      else
        nd <- reads (fun s => get_node s n) ;;
        sc <- gets (fun s => n_shortcuts (h_nd s nd)) ;;
        if sc : bool then
          let dests := match index_of n full with
                       | Some a => rev (skipn (S a) full)
                       | None => []
                       end in
          nm <- gets (fun s => n_name (h_nd s nd)) ;;
          ls <- first_lsps nm dests ;;
          match ls with
          | [] => path_lsps full tl skip_to acc
          | l :: _ =>
              t <- gets (fun s => ldst s l) ;;
              path_lsps full tl (Some t) (acc ++ [ls])
          end
        else path_lsps full tl skip_to acc
  end.


(** Only the value for the last node path survives the loop
    (flex_model.py 416-471). *)
Fixpoint last_path_lsps (nps : list (list string)) (acc : list (list nat)) : M (list (list nat)) :=
  match nps with
  | [] => ret acc
  | np :: tl => x <- path_lsps np np None [] ;; last_path_lsps tl x
  end.


(** path_metric of _inspect_for_lsp_metrics (flex_model.py 501-509): adding None
    or "Unrouted" to an int raises TypeError *)
Fixpoint path_metric (p : list item) : M Z :=
  match p with
  | [] => ret 0%Z
  | IIf i :: tl => c <- gets (fun s => i_cost (h_if s i)) ;; r <- path_metric tl ;; ret (c + r)%Z
  | ILsp l :: tl =>
      m <- effective_metric l ;;
      match m with
      | MInt z => r <- path_metric tl ;; ret (z + r)%Z
      | _ => raise TypeError
      end
  end.


(** _inspect_for_lsp_metrics (flex_model.py 491-519) for two or more paths *)
Definition inspect_metrics (paths : list (list item)) : M (list (list item)) :=
  pms <- mmap (fun p => m <- path_metric p ;; ret (p, m)) paths ;;
  match Zmin_list (map snd pms) with
  | None => ret paths
  | Some lo => ret (map fst (filter (fun pm => Z.eqb (snd pm) lo) pms))
  end.


(** find_igp_shortcuts (flex_model.py 349-401) *)
Definition find_igp_shortcuts (paths : list (list item)) (nps : list (list string)) : M (list (list item)) :=
  flags <- mmap (fun n => nd <- reads (fun s => get_node s n) ;;
                          gets (fun s => n_shortcuts (h_nd s nd))) (List.concat nps) ;;
  if existsb id flags then
    groups <- last_path_lsps nps [] ;;
    ps <- gets (fun s => substitute_lsps s groups paths) ;;
    match ps with
    | [_] => ret ps
    | _ => inspect_metrics ps
    end
  else ret paths.


(** The LSPs of the demand's own group that carry it end to end
    (flex_model.py 304-318, performance_model.py 335-349) *)
Definition e2e_lsps (d : nat) : M (list nat) :=
  groups <- parallel_lsp_groups E ;;
  key <- gets (fun s => pair_key (dsrc s d) (ddst s d)) ;;
  match dict_get key groups with
  | None => ret []
  | Some cands =>
      routed <- gets (fun s => filter (lsp_routed s) cands) ;;
      match routed with
      | [] => ret []
      | _ =>
          ms <- mmap effective_metric routed ;;
          match py_min ms with
          | Err e => raise e
          | Ok m => mfilter (fun l => m' <- effective_metric l ;; ret (mval_eqb m' m)) routed
          end
      end
  end.


Definition route_demand (G : graph) (d : nat) : M unit :=
  modify (upd_dm d (dm_path (DPaths []))) ;;;
  ls <- e2e_lsps d ;;
  match ls with
  | _ :: _ => modify (upd_dm d (dm_path (DPaths (map (fun l => [ILsp l]) ls))))
  | [] =>
      ends <- gets (fun s => (dsrc s d, ddst s d)) ;;
      match nx_asp E G (fst ends) (snd ends) with
      | NxNoPath => modify (upd_dm d (dm_path DUnrouted))
      | NxNodeNotFound => raise NodeNotFound
      | NxPaths nps =>
          ps <- gets (fun s => map (map IIf) (iface_paths k s G nps)) ;;
          ps' <- match k with
                 | Flex => find_igp_shortcuts ps nps
                 | Perf => ret ps
                 end ;;
          modify (upd_dm d (dm_path (DPaths ps')))
      end
  end.


(** interface.traffic += x: TypeError when the traffic is "Down" *)
Definition add_traffic (i : nat) (x : Q) : M unit :=
  t <- gets (fun s => i_traffic (h_if s i)) ;;
  match t with
  | TDown => raise TypeError
  | TNum q => modify (upd_if i (if_traffic (TNum (R (q + x)%Q))))
  end.


(** One entry of shortest_path_info (flex_model.py 702-735, performance_model.py
    1471-1494); max([]) raises ValueError. *)
Definition path_entry (s : st) (items : list item) (traffic : Q) (p : list item) : res pinfo :=
  let sp := splits_along s items 1 p in
  match Zmax_list (map snd sp) with
  | None => Err ValueError
  | Some mx =>
      let t := R (R traffic / R (inject_Z mx))%Q in
      Ok (match k with
          | Flex => mkPinfo (Some p) None (Some sp) t
          | Perf => mkPinfo None (Some p) (Some sp) (R (round4 t))
          end)
  end.


(** traff_per_int[item] before rounding: one addition per path and occurrence
    (flex_model.py 741-744, performance_model.py 1500-1503) *)
Definition item_traffic (s : st) (infos : list pinfo) (it : item) : Q :=
  Rsum (flat_map (fun inf => repeat (pi_traffic inf) (List.length (filter (item_eqb s it) (pinfo_items inf)))) infos).


(** The additions made for one item of an IGP-routed demand
    (flex_model.py 581-591; performance_model.py 1323-1324) *)
Definition add_item_traffic (infos : list pinfo) (it : item) : M unit :=
  match k, it with
  | Flex, IIf i =>
      mfor infos (fun inf =>
        b <- gets (fun s => mem_item s it (pinfo_items inf)) ;;
        if b : bool then add_traffic i (pi_traffic inf) else ret tt)
  | Flex, ILsp l =>
      x <- gets (fun s => R (round1 (item_traffic s infos it))) ;;
      ifs <- reads (fun s => lsp_interfaces s l) ;;
      mfor ifs (fun i => add_traffic i x)
  | Perf, IIf i =>
      x <- gets (fun s => R (round1 (item_traffic s infos it))) ;;
      add_traffic i x
  | Perf, ILsp _ => raise AttributeError
  end.


(** _demand_traffic_per_item and its use (flex_model.py 579-591 and 635-753),
    _demand_traffic_per_int (performance_model.py 1320-1324 and 1354-1513) *)
Definition igp_demand_traffic (d : nat) (paths : list (list item)) : M unit :=
  items <- gets (fun s => item_set s paths) ;;
  t <- gets (fun s => d_traffic (h_dm s d)) ;;
  infos <- reads (fun s => rmap (path_entry s items t) paths) ;;
  modify (upd_dm d (dm_detail (PDInfo infos))) ;;;
  mfor items (add_item_traffic infos).


(** FlexModel._update_int_traffic_for_end_to_end_lsps (flex_model.py 595-633);
    PerformanceModel: performance_model.py 1285-1309 and
    _lsp_routed_demand_path_detail (1328-1352) *)
Definition lsp_demand_traffic (d : nat) (ls : list nat) : M unit :=
  t <- gets (fun s => d_traffic (h_dm s d)) ;;
  let n := Z.of_nat (List.length ls) in
  let each := R (t / inject_Z n)%Q in
  let adds := mfor ls (fun l => ifs <- reads (fun s => lsp_interfaces s l) ;;
                                mfor ifs (fun i => add_traffic i each)) in
  match k with
  | Flex =>
      modify (upd_dm d (dm_detail (PDInfo (map (fun l => mkPinfo (Some [ILsp l]) None None each) ls)))) ;;;
      adds
  | Perf =>
      adds ;;;
      modify (upd_dm d (dm_detail (PDInfo
        (map (fun l => mkPinfo (Some [ILsp l]) None (Some [(ILsp l, n)]) (R (round4 each))) ls))))
  end.


Definition demand_traffic (d : nat) : M unit :=
  p <- gets (fun s => d_path (h_dm s d)) ;;
  match p with
  | DUnrouted => ret tt
  | DPaths paths =>
      key <- gets (fun s => pair_key (dsrc s d) (ddst s d)) ;;
      ls <- min_metric_lsps key ;;
      match ls with
      | [] => igp_demand_traffic d paths
      | _ => lsp_demand_traffic d ls
      end
  end.


(** _update_interface_utilization (flex_model.py 521-593, performance_model.py
    1236-1326) *)
Definition update_interface_utilization : M unit :=
  ifs <- gets m_ifs ;;
  mfor ifs (fun i => modify (upd_if i (fun r => if_traffic (if i_failed r then TDown else TNum 0) r))) ;;;
  ds <- gets m_dms ;;
  mfor ds demand_traffic.


Definition route_demands : M unit :=
  G <- gets (fun s => make_graph k s false 0 false) ;;
  ds <- gets m_dms ;;
  mfor ds (route_demand G) ;;;
  update_interface_utilization.


(** _make_circuits_multidigraph (flex_model.py 1092-1182) and _make_circuits
    (performance_model.py 579-645), called with return_exception=True and
    include_failed_circuits=True *)
Definition make_circuits : M unit :=
  es <- gets (fun s => edge_iter E (g_edges (make_graph k s true 0 false))) ;;
  ifs <- gets m_ifs ;;
  mfor ifs (fun i => modify (upd_if i (if_inckt false))) ;;;
  cs <- pair_edges k (filter (fun e => has_edge es (e_v e) (e_u e)) es) 1 [] ;;
  if existsb (fun e => negb (has_edge es (e_v e) (e_u e))) es
  then raise (ModelException "These interfaces were not matched into a circuit")
  else modify (set_ckts cs).


(** _make_int_info_dict (master_model.py 134-151): reservations per interface
    key, summed over the routed LSPs; KeyError when a path interface is not in
    the model. *)
Definition int_info (s : st) : res (list ((string * string) * Q)) :=
  rbind (rmap (fun l =>
    rbind (lsp_interfaces s l) (fun ifs =>
      rmap (fun i =>
        if existsb (fun j => key2_eqb (ikey s j) (ikey s i)) (m_ifs s) then
          rbind (num_bw (l_res (h_ls s l))) (fun q => Ok (ikey s i, R (round1 q)))
        else Err KeyError) ifs)) (filter (lsp_routed s) (m_lsps s)))
  (fun ls => Ok (List.concat ls)).


Definition info_sum (info : list ((string * string) * Q)) (key : string * string) : Q :=
  Rsum (map snd (filter (fun kq => key2_eqb (fst kq) key) info)).


(** _reserved_bw_error_checks (master_model.py 174-206) *)
Definition res_too_high (s : st) (i : nat) : bool := Qltb (i_cap (h_if s i)) (reserved_bw s i).


Definition res_sum_wrong (s : st) (info : list ((string * string) * Q)) (i : nat) : bool :=
  negb (Qeqb (R (round1 (reserved_bw s i))) (R (round1 (info_sum info (ikey s i))))).


(** validate_model (flex_model.py 121-215, performance_model.py 129-223) *)
Definition validate_model : M unit :=
  make_circuits ;;;
  info <- reads int_info ;;
  ifs <- gets m_ifs ;;
  hi <- gets (fun s => existsb (res_too_high s) ifs) ;;
  su <- gets (fun s => existsb (res_sum_wrong s info) ifs) ;;
  un <- gets unique_interface_truthy ;;
  sc <- gets (fun s => match k with
                       | Flex => false
                       | Perf => existsb (fun n => n_shortcuts (h_nd s n)) (m_nds s)
                       end) ;;
  cs <- gets m_ckts ;;
  caps <- mmap check_circuit cs ;;
  pl <- gets (fun s => match k with Flex => false | Perf => parallel_links s end) ;;
  se <- gets srlg_errors ;;
  dn <- gets dup_node_names ;;
  let errs := when hi VResTooHigh ++ when su VResSum ++ when sc VShortcuts
              ++ when (existsb id caps) VCapacity ++ when pl VParallel
              ++ when se VSrlg ++ when dn VDupNodes in
  match errs with
  | [] => if un : bool then ret tt else raise (ValidationException [])
  | _ => raise (ValidationException errs)
  end.


(** ** update_simulation (flex_model.py 217-283, performance_model.py 251-316).
    The non_failed_interfaces_model built there is only used for its
    demand_objects, which are self.demand_objects. *)
Definition update_simulation : M unit :=
  modify (set_groups []) ;;;
  ifs <- gets m_ifs ;;
  mfor ifs (fun i => modify (upd_if i (fun r => if_traffic (TNum 0) (if_res 0%Q r)))) ;;;
  ls <- gets m_lsps ;;
  mfor ls (fun l => modify (upd_ls l (ls_path PUnrouted))) ;;;
  ds <- gets m_dms ;;
  mfor ds (fun d => modify (upd_dm d (dm_path DUnrouted))) ;;;
  route_lsps ;;;
  route_demands ;;;
  validate_model.


End Rounded.
