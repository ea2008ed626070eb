(** SpecCap.v - changes of interface capacities in models with LSPs (C117). *)
From Verif Require Import Base Graph Objects Sim Api Spec SpecCkt SpecSim SpecFlow SpecOrder SpecWhatIf SpecSig SpecTotal SpecMore.

(** [t] is [s] with other capacities; demands and LSPs are the same. *)
Record recapped (s t : st) : Prop := {
  ra_ifs : forall i, In i (m_ifs t) <-> In i (m_ifs s);
  ra_if : forall i, In i (m_ifs s) -> loc t i = loc s i /\ rem t i = rem s i /\ i_cost (h_if t i) = i_cost (h_if s i) /\
                                      i_failed (h_if t i) = i_failed (h_if s i) /\ i_rsvp (h_if t i) = i_rsvp (h_if s i);
  ra_dms : m_dms t = m_dms s;
  ra_dm : forall d, In d (m_dms s) -> same_demand s t d;
  ra_lsps : m_lsps t = m_lsps s;
  ra_ls : forall l, In l (m_lsps s) -> lsp_from t l = lsp_from s l /\ lsp_to t l = lsp_to s l /\ l_cfg (h_ls t l) = l_cfg (h_ls s l) /\ same_metric_read s t l }.
(** Interfaces [i] and [j] are the two ends of a link, and no other interface is an other end of one of them. *)
Definition two_ends (k : kind) (s : st) (i j : nat) : Prop :=
  In i (m_ifs s) /\ In j (m_ifs s) /\ is_reverse k s i j /\
  forall x, In x (m_ifs s) -> (is_reverse k s i x -> x = j) /\ (is_reverse k s j x -> x = i).
(** With capacity [c], interface [i] has room for all LSPs. *)
Definition fits_all (s : st) (i : nat) (c : Q) : Prop :=
  tenths c /\ (0 < c)%Q /\ (Qsum (map (fun l => wanted s l (equal_share s l)) (m_lsps s)) <= c * i_pct (h_if s i) / 100)%Q.
