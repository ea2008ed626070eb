(** SpecMetric.v - manual_metric as a small automaton (used to state C42).  An
    LSP is either still waiting to take over its configured metric, or has a
    current value (None: not set). *)
From Verif Require Import Base.

Inductive mstate := Pending (m : Z) | Current (v : option Z).
Inductive maction := MRead | MAssign (v : Z).
Inductive mout := OutValue (v : option Z) | OutDone | OutModelExn | OutOther.

Definition mstate_of (r : lsp) : mstate :=
  match l_imm r with
  | Some m => if (m =? 0)%Z then Current (l_mm r) else Pending m
  | None => Current (l_mm r)
  end.

Definition mstep (m : mstate) (a : maction) : mstate * mout :=
  match m, a with
  | Pending c, MRead => if (0 <? c)%Z then (Current (Some c), OutValue (Some c)) else (Pending c, OutModelExn)
  | Pending c, MAssign _ => if (0 <? c)%Z then (Current (Some c), OutDone) else (Pending c, OutDone)
  | Current v, MRead => (Current v, OutValue v)
  | Current v, MAssign w =>
      if (0 <? w)%Z then (Current (Some w), OutDone)
      else if (w =? -1)%Z then (Current None, OutDone)
      else (Current v, OutModelExn)
  end.

Fixpoint mrun (m : mstate) (l : list maction) : mstate * list mout :=
  match l with
  | [] => (m, [])
  | a :: tl => let '(m1, o) := mstep m a in let '(m2, os) := mrun m1 tl in (m2, o :: os)
  end.

(** Of the whole state at most the metric of LSP [l] differs. *)
Definition only_metric (s s' : st) (l : nat) : Prop :=
  h_if s' = h_if s /\ h_nd s' = h_nd s /\ h_sr s' = h_sr s /\ h_dm s' = h_dm s /\
  m_ifs s' = m_ifs s /\ m_nds s' = m_nds s /\ m_dms s' = m_dms s /\ m_lsps s' = m_lsps s /\ m_srs s' = m_srs s /\
  m_ckts s' = m_ckts s /\ m_groups s' = m_groups s /\
  (forall x, x <> l -> h_ls s' x = h_ls s x) /\
  h_ls s' l = ls_mm (l_mm (h_ls s' l)) (l_imm (h_ls s' l)) (h_ls s l).

(** one of the paths of demand [d] uses an LSP *)
Definition rides_an_lsp (s : st) (d : nat) : Prop :=
  exists ps p l, d_path (h_dm s d) = DPaths ps /\ In p ps /\ In (ILsp l) p.
