(** * Vocabulary: walks in a graph, dependencies, dimensionless products *)
From Coq Require Import List Bool Arith ZArith String QArith Qcanon.
From Verif Require Import PyBase M_Pint.
Import ListNotations.
Local Open Scope list_scope.

(** ** walks *)
Definition edge (g : graph) (a b : nat) : Prop := exists l, neighbours a g = Some l /\ In b l.
Inductive walk (g : graph) : nat -> nat -> list nat -> Prop :=
| walk_here a : walk g a a [a]
| walk_step a b c p : edge g a b -> walk g b c p -> walk g a c (a :: p).

(** ** dependencies *)
Definition node (d : deps) (x : nat) : Prop := In x (map fst d) \/ In x (flat_map snd d).
(** nodes that all depend on each other *)
Definition knot (d : deps) (c : list nat) : Prop := c <> [] /\ forall k, In k c -> exists v i, In (k, v) d /\ In i v /\ In i c.
Definition in_layer (r : list (list nat)) (n : nat) (x : nat) : Prop := exists l, nth_error r n = Some l /\ In x l.

(** ** products of powers *)
Local Open Scope Qc_scope.
Fixpoint total (l : list Qc) : Qc := match l with [] => 0 | x :: r => x + total r end.
(** the power of dimension [d] in the product of the quantities to the powers [x] *)
Definition power_of (quantities : list (string * dict Qc)) (x : string -> Qc) (d : string) : Qc := total (map (fun q => x (fst q) * dimension_of d (snd q)) quantities).
Definition dimensionless (quantities : list (string * dict Qc)) (x : string -> Qc) : Prop := forall d, power_of quantities x d = 0.
(** the exponents of a group *)
Definition exponent (g : dict Qc) (name : string) : Qc := match dget name g with Some v => v | None => 0 end.
(** a combination of groups *)
Definition combined (gs : list (dict Qc)) (c : list Qc) (name : string) : Qc := total (map (fun gc => snd gc * exponent (fst gc) name) (combine gs c)).
