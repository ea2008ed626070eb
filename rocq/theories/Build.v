(** Build.v - helpers to write concrete model states for examples and
    counterexamples. *)
From Verif Require Import Base Graph Objects Sim Api.

Definition nseq (n : nat) : list nat := seq 0 n.

(** A state whose objects are given by lists; reference = position. *)
Definition net (nds : list node) (ifs : list iface) (dms : list demand) (lsps : list lsp) (srs : list srlg) : st :=
  mkSt (fun i => nth i ifs dummy_if) (fun i => nth i nds dummy_node) (fun i => nth i srs (mkSrlg "" false))
       (fun i => nth i dms dummy_demand) (fun i => nth i lsps dummy_lsp)
       (nseq (List.length ifs)) (nseq (List.length nds)) (nseq (List.length dms))
       (nseq (List.length lsps)) (nseq (List.length srs)) [] [] 100 0.

Definition nd (name : string) : node := mkNode name false 0 0 [] false.
Definition nd_sc (name : string) : node := mkNode name false 0 0 [] true.
(** interface: name, cost, capacity, local and remote node, circuit id *)
Definition itf (name : string) (cost : Z) (cap : Q) (a b : nat) (c : Z) : iface :=
  mkIface name cost cap a b (CInt c) (TNum 0) false 0 [] true 100 false.
Definition dmd (a b : nat) (t : Q) (name : string) : demand := mkDemand a b t name DUnrouted PDInitial.
Definition lsp_ (a b : nat) (name : string) : lsp := mkLsp a b name PInit RInit RInit None None None.

(** The executable environment with random.choice always taking the first. *)
Definition E0 : env := env_impl (fun _ => O).
