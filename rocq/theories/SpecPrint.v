(** SpecPrint.v - how a printed table is read (C112). *)
From Verif Require Import Base Print Spec.

(** The words of a line: the longest pieces without blanks *)
Fixpoint words_after (w : string) (s : string) : list string :=
  match s with
  | EmptyString => if String.eqb w "" then [] else [w]
  | String a r => if Ascii.eqb a " " then (if String.eqb w "" then [] else [w]) ++ words_after "" r
                  else words_after (String.append w (String a "")) r
  end.
Definition words (s : string) : list string := words_after "" s.

(** A name that is one word *)
Fixpoint no_blank (s : string) : Prop := match s with EmptyString => True | String a r => a <> " "%char /\ no_blank r end.
Definition one_word (s : string) : Prop := s <> "" /\ no_blank s.

(** The text [c] is in [line] at column [n]. *)
Definition at_column (line : string) (n : nat) (c : string) : Prop :=
  exists p r, line = String.append p (String.append c r) /\ String.length p = n.

Definition failed_word (b : bool) : string := if b then "True" else "False".
(** All names of nodes, all names of nodes and interfaces *)
Definition node_words (P : string -> Prop) (s : st) : Prop := forall n, In n (m_nds s) -> P (nd_name s n).
Definition iface_words (P : string -> Prop) (s : st) : Prop := forall i, In i (m_ifs s) -> P (loc s i) /\ P (i_name (h_if s i)) /\ P (rem s i).

(** Reading the list of demands: the key, the number said, and the paths that follow *)
Record entry := mkEntry { en_key : string * string * string; en_said : option nat; en_paths : list (list item) }.
Fixpoint read_demands (l : list shown) : option nat * list (list item) * list entry :=
  match l with
  | [] => (None, [], [])
  | x :: r => let '(n, ps, es) := read_demands r in
      match x with
      | SKey a b c => (None, [], mkEntry (a, b, c) n ps :: es)
      | SCount m => (Some m, ps, es)
      | SPath p => (n, p :: ps, es)
      | SLetter _ | SBlank => (n, ps, es)
      end
  end.
