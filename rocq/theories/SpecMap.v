(** SpecMap.v - what the weather map should show, said from the objects of the model. *)
From Coq Require Import DecimalString Sorting.Sorted.
From Verif Require Import Base Spec SpecCkt MapTypes.

(** How a circuit_id is shown *)
Definition shown_cid (c : cid) (x : string) : Prop :=
  match c with
  | CNone => x = "None"
  | CInt z => x = NilZero.string_of_int (Z.to_int z)
  | CStr y => x = y
  end.

(** Utilization as the user reads it *)
Definition shown_util (s : st) (i : nat) (u : option Q) : Prop :=
  match i_traffic (h_if s i) with
  | TDown => u = None
  | TNum t => exists q, u = Some q /\ rounds 100 (t / i_cap (h_if s i) * 100) q
  end.

(** The utilization ranges with a colour of their own below 100 percent *)
Definition bands : list (Z * Z * string) :=
  [(0, 24, "royalblue"); (25, 49, "green"); (50, 74, "yellow"); (75, 89, "orangered"); (90, 99, "darkred")].
Definition in_band (q : Q) (lo hi : Z) : Prop := (inject_Z lo <= q)%Q /\ (q <= inject_Z hi)%Q.

(** The text of the node in the middle of a circuit *)
Definition mid_text (s : st) (c : nat * nat) : string := String.append "midpoint-" (ends_text (loc s (fst c)) (loc s (snd c))).
(** [e] is the edge of interface [i] in circuit [c]. *)
Definition edge_for (s : st) (c : nat * nat) (i : nat) (e : jedge) : Prop :=
  je_source e = loc s i /\ je_target e = mid_text s c /\ je_name e = i_name (h_if s i) /\ je_cost e = i_cost (h_if s i) /\
  je_cap e = i_cap (h_if s (fst c)) /\ shown_cid (i_cid (h_if s (fst c))) (je_cid e) /\ shown_util s i (je_util e).
(** A node of the map stands for node [n] of the model, or for the middle of [c]. *)
Definition node_for (s : st) (n : nat) (v : jnode) : Prop :=
  jn_id v = nd_name s n /\ jn_label v = nd_name s n /\ jn_group v = "" /\ jn_failed v = n_failed (h_nd s n) /\ jn_neighbors v = [] /\
  (jn_x v == 5 * n_lon (h_nd s n))%Q /\ (jn_y v == - (5 * n_lat (h_nd s n)))%Q.
Definition mid_for (s : st) (c : nat * nat) (v : jnode) : Prop :=
  let a := h_nd s (i_node (h_if s (fst c))) in let b := h_nd s (i_node (h_if s (snd c))) in
  jn_id v = mid_text s c /\ jn_label v = mid_text s c /\ jn_group v = "midpoint" /\ jn_failed v = false /\
  jn_neighbors v = [loc s (fst c); loc s (snd c)] /\
  (2 * jn_x v == 5 * (n_lon a + n_lon b))%Q /\ (2 * jn_y v == - (5 * (n_lat a + n_lat b)))%Q.

(** [out] is made of one part for every element of [l], in order. *)
Definition made_of {A B} (P : A -> list B -> Prop) (l : list A) (out : list B) : Prop :=
  exists parts, out = List.concat parts /\ Forall2 P l parts.
Definition circuit_parts (s : st) (c : nat * nat) (es : list jedge) : Prop :=
  exists e f, es = [e; f] /\ edge_for s c (fst c) e /\ edge_for s c (snd c) f.
Definition circuit_places (s : st) (c : nat * nat) (vs : list jnode) : Prop :=
  exists m a b, vs = [m; a; b] /\ mid_for s c m /\ node_for s (i_node (h_if s (fst c))) a /\ node_for s (i_node (h_if s (snd c))) b.

(** The colour of a utilization *)
Definition colour_for (u : option Q) (c : string) : Prop :=
  match u with
  | None => c = "dimgrey"
  | Some q => ((100 <= q)%Q /\ c = "darkviolet") \/ exists lo hi, In (lo, hi, c) bands /\ in_band q lo hi
  end.

(** Demands or LSPs: the objects, their ends and their keys *)
Definition objs (s : st) (t : otype) : list nat := match t with TDemand => m_dms s | TLsp => m_lsps s end.
Definition ofrom (s : st) (t : otype) (x : nat) : string := match t with TDemand => dmd_from s x | TLsp => lsp_from s x end.
Definition oto (s : st) (t : otype) (x : nat) : string := match t with TDemand => dmd_to s x | TLsp => lsp_to s x end.
Definition okey (s : st) (t : otype) (x : nat) : string * string * string := match t with TDemand => dmd_key s x | TLsp => lsp_key s x end.
Definition plain_names (s : st) (t : otype) : Prop := forall x, In x (objs s t) -> dash_free (ofrom s t x) /\ dash_free (oto s t x).

(** The dict of parallel objects *)
Definition grouped (s : st) (t : otype) (g : list (string * list nat)) : Prop :=
  NoDup (map fst g) /\
  forall key ls, In (key, ls) g <-> exists a b, key = ends_text a b /\ ls <> [] /\
    ls = filter (fun x => String.eqb (ofrom s t x) a && String.eqb (oto s t x) b) (objs s t).
(** The cached dict of parallel LSPs is empty or up to date. *)
Definition cache_current (s : st) : Prop := m_groups s = [] \/ grouped s TLsp (m_groups s).
(** Two states that differ at most in that cache *)
Definition but_cache (s s' : st) : Prop :=
  h_if s' = h_if s /\ h_nd s' = h_nd s /\ h_sr s' = h_sr s /\ h_dm s' = h_dm s /\ h_ls s' = h_ls s /\
  m_ifs s' = m_ifs s /\ m_nds s' = m_nds s /\ m_dms s' = m_dms s /\ m_lsps s' = m_lsps s /\ m_srs s' = m_srs s /\ m_ckts s' = m_ckts s /\
  s_next s' = s_next s /\ s_rng s' = s_rng s.

(** Lists of names in alphabetical order *)
Definition alphabetical : list string -> Prop := Sorted (fun a b => String.leb a b = true).

(** A path that crosses an interface: directly or inside an LSP *)
Definition path_over (s : st) (p : list item) (i : nat) : Prop :=
  In (IIf i) p \/ exists l ifs c b, In (ILsp l) p /\ l_path (h_ls s l) = PRouted ifs c b /\ In i ifs.
Definition demand_over (s : st) (d i : nat) : Prop :=
  exists ps p, d_path (h_dm s d) = DPaths ps /\ In p ps /\ path_over s p i.
Definition demand_rides (s : st) (d l : nat) : Prop :=
  exists ps p, d_path (h_dm s d) = DPaths ps /\ In p ps /\ In (ILsp l) p.
(** The demand is routed over interfaces of the model and routed LSPs. *)
Definition sound_paths (s : st) (d : nat) : Prop :=
  exists ps, d_path (h_dm s d) = DPaths ps /\ forall p x, In p ps -> In x p ->
    match x with
    | IIf i => In i (m_ifs s)
    | ILsp l => exists ifs c b, l_path (h_ls s l) = PRouted ifs c b /\ forall i, In i ifs -> In i (m_ifs s)
    end.

(** An edge entry selects an edge by the text of circuit_id and the source. *)
Definition picked (c src : string) (e : jedge) : Prop := je_cid e = c /\ je_source e = src.
(** At every node the texts of the circuit_ids tell the interfaces apart. *)
Definition cid_texts_apart (s : st) : Prop :=
  forall i j x, In i (m_ifs s) -> In j (m_ifs s) -> loc s i = loc s j ->
    shown_cid (i_cid (h_if s i)) x -> shown_cid (i_cid (h_if s j)) x -> i = j.

(** ** Highlighting *)

(** The marks for an interface that a demand or an LSP crosses: its own edge, the
    edge of the same circuit_id at the remote node, and both nodes *)
Definition demand_mark (s : st) (i : nat) (en : entry) : Prop :=
  (exists x, shown_cid (i_cid (h_if s i)) x /\ (en = OnEdge x (loc s i) DemandOut \/ en = OnEdge x (rem s i) DemandIn)) \/
  en = OnNode (loc s i) DemandNode \/ en = OnNode (rem s i) DemandNode.
Definition lsp_mark (s : st) (i : nat) (en : entry) : Prop :=
  (exists x, shown_cid (i_cid (h_if s i)) x /\ (en = OnEdge x (loc s i) LspOut \/ en = OnEdge x (rem s i) LspIn)) \/
  en = OnNode (loc s i) LspNode \/ en = OnNode (rem s i) LspNode.
(** The demand [d] has the ends of the selection [k]. *)
Definition same_ends (s : st) (k : string * string * string) (d : nat) : Prop :=
  dmd_from s d = fst (fst k) /\ dmd_to s d = snd (fst k).
Definition wanted (s : st) (colours : list string) (dm : option sel) (ifc : option seli) (lp : option sel) (en : entry) : Prop :=
  (exists c, In c colours /\ en = OnColour c Opaque) \/
  (exists k d i, dm = Some (mkSel k true) /\ In d (m_dms s) /\ same_ends s k d /\ demand_over s d i /\ demand_mark s i en) \/
  (exists k l ifs c b i, lp = Some (mkSel k true) /\ In l (m_lsps s) /\ lsp_key s l = k /\ l_path (h_ls s l) = PRouted ifs c b /\
     In i ifs /\ lsp_mark s i en) \/
  (exists v x, ifc = Some v /\ shown_cid (si_cid v) x /\ en = OnEdge x (si_source v) Chosen).

(** The circuits of the model pair up its interfaces. *)
Definition paired (s : st) : Prop :=
  (forall a b, In (a, b) (m_ckts s) -> In a (m_ifs s) /\ In b (m_ifs s) /\ loc s a = rem s b /\ rem s a = loc s b /\
     i_cid (h_if s a) = i_cid (h_if s b)) /\
  (forall c c' x, In c (m_ckts s) -> In c' (m_ckts s) -> end_of c x -> end_of c' x -> c = c') /\
  (forall i, In i (m_ifs s) -> exists c, In c (m_ckts s) /\ end_of c i).
(** [j] is the interface at the other end of [i]'s circuit. *)
Definition other_end (s : st) (i j : nat) : Prop := In (i, j) (m_ckts s) \/ In (j, i) (m_ckts s).

(** The options for the objects [l], or the text for none *)
Definition said {A} (txt : string) (os : list (choice A)) (l : list A) : Prop :=
  match l with [] => os = [Text txt] | _ => os = Clear :: map Obj l end.

(** The stylesheet entries [es] give the edge [e] the style [m]. *)
Definition marked (es : list entry) (m : mark) (e : jedge) : Prop := exists x src, In (OnEdge x src m) es /\ picked x src e.
(** The selected demand, or one with the same ends, crosses [i]. *)
Definition chosen_demand_over (s : st) (dm : option sel) (i : nat) : Prop :=
  exists k d, dm = Some (mkSel k true) /\ In d (m_dms s) /\ same_ends s k d /\ demand_over s d i.
Definition chosen_lsp_over (s : st) (lp : option sel) (i : nat) : Prop :=
  exists k l ifs c b, lp = Some (mkSel k true) /\ In l (m_lsps s) /\ lsp_key s l = k /\ l_path (h_ls s l) = PRouted ifs c b /\ In i ifs.
Definition chosen_interface (s : st) (ifc : option seli) (i : nat) : Prop :=
  exists v x, ifc = Some v /\ si_source v = loc s i /\ shown_cid (si_cid v) x /\ shown_cid (i_cid (h_if s i)) x.
(** The selections of a user: the flag "routed" tells the truth, demands with the
    selected ends are routed. *)
Definition good_choice (s : st) (dm lp : option sel) : Prop :=
  (forall k, dm = Some (mkSel k true) -> (exists d, In d (m_dms s) /\ same_ends s k d) /\
     forall d, In d (m_dms s) -> same_ends s k d -> sound_paths s d) /\
  (forall k, lp = Some (mkSel k true) -> exists l ifs c b, In l (m_lsps s) /\ lsp_key s l = k /\ l_path (h_ls s l) = PRouted ifs c b /\
     forall i, In i ifs -> In i (m_ifs s)).
