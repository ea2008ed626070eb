(** SpecCkt.v - definitions used to state what validate_model checks. *)
From Verif Require Import Base Spec.

Definition end_of (c : nat * nat) (x : nat) : Prop := x = fst c \/ x = snd c.

(** In a FlexModel every interface has a circuit_id. *)
Definition cids_set (k : kind) (s : st) : Prop := k = Flex -> forall i, In i (m_ifs s) -> i_cid (h_if s i) <> CNone.

(** The LSPs of the model are unrouted, or routed over interfaces of the model
    (told apart by name and node) with a numeric reservation. *)
Definition lsps_sane (s : st) : Prop :=
  forall l, In l (m_lsps s) ->
    match l_path (h_ls s l) with
    | PRouted ifs _ _ => (forall j, In j ifs -> In (if_key s j) (map (if_key s) (m_ifs s))) /\
                         exists q, l_res (h_ls s l) = RNum q
    | PEmpty => False
    | _ => True
    end.

(** The sum over the routed LSPs of the rounded reservation, once for every
    time that an interface with the name and node of [i] is on the LSP's path. *)
Definition same_key (s : st) (i j : nat) : bool :=
  String.eqb (i_name (h_if s i)) (i_name (h_if s j)) && String.eqb (loc s i) (loc s j).
Definition lsp_amount (rd : Q -> Q) (s : st) (i l : nat) : Q :=
  match l_path (h_ls s l), l_res (h_ls s l) with
  | PRouted ifs _ _, RNum q => (inject_Z (Z.of_nat (List.length (filter (same_key s i) ifs))) * rd q)%Q
  | _, _ => 0%Q
  end.
Fixpoint lsp_total (rd : Q -> Q) (s : st) (i : nat) (ls : list nat) : Q :=
  match ls with [] => 0%Q | l :: tl => (lsp_amount rd s i l + lsp_total rd s i tl)%Q end.

(** When each of the checks that validate_model reports fails; [ckts] are the
    circuits and [rd] is rounding to one decimal. *)
Definition check_fails (rd : Q -> Q) (k : kind) (s : st) (ckts : list (nat * nat)) (v : vcheck) : Prop :=
  match v with
  | VResTooHigh => exists i, In i (m_ifs s) /\ (i_cap (h_if s i) < rd (i_res (h_if s i)))%Q
  | VResSum => exists i, In i (m_ifs s) /\ ~ (rd (i_res (h_if s i)) == rd (lsp_total rd s i (m_lsps s)))%Q
  | VShortcuts => k = Perf /\ exists n, In n (m_nds s) /\ n_shortcuts (h_nd s n) = true
  | VCapacity => exists a b, In (a, b) ckts /\ ~ (i_cap (h_if s a) == i_cap (h_if s b))%Q
  | VParallel => k = Perf /\ ~ NoDup (map (fun i => ends_text (loc s i) (rem s i)) (m_ifs s))
  | VSrlg => False
  | VDupNodes => ~ NoDup (map (nd_name s) (m_nds s))
  end.

(** A name without '-' *)
Fixpoint dash_free (x : string) : Prop :=
  match x with EmptyString => True | String c tl => c <> "-"%char /\ dash_free tl end.

(** The same model with other interface names. *)
Definition rename_ifs (f : nat -> string) (s : st) : st :=
  mkSt (fun i => if_name (f i) (h_if s i)) (h_nd s) (h_sr s) (h_dm s) (h_ls s) (m_ifs s) (m_nds s) (m_dms s) (m_lsps s)
       (m_srs s) (m_ckts s) (m_groups s) (s_next s) (s_rng s).
