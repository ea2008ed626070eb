(** SpecBalance.v - traffic balance in models with LSPs (C90). *)
From Verif Require Import Base Spec SpecSim SpecFlow SpecWhatIf.

(** The path of every routed LSP leads from its source to its destination over
    interfaces that are up. *)
Definition lsps_whole (s : st) : Prop :=
  forall l p c b, In l (m_lsps s) -> l_path (h_ls s l) = PRouted p c b -> route s (fun i => i_failed (h_if s i) = false) (lsp_from s l) p (lsp_to s l).

(** What demand [d] puts on the interfaces that leave node [n], and on those that
    enter it, [f] being what it puts on each interface *)
Definition leaves_node (s : st) (f : nat -> Q) (n : string) : Q := Qsum (map (fun i => if String.eqb (loc s i) n then f i else 0%Q) (m_ifs s)).
Definition enters_node (s : st) (f : nat -> Q) (n : string) : Q := Qsum (map (fun i => if String.eqb (rem s i) n then f i else 0%Q) (m_ifs s)).
Definition at_node (m n : string) (x : Q) : Q := if String.eqb m n then x else 0%Q.

(** Demand [d] rides LSPs. *)
Definition rides_lsps (s : st) (d : nat) : Prop := exists l, lsp_of s d l /\ routed_lsp s l.
