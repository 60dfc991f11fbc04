(** * Vocabulary for the particle swarm *)
From Coq Require Import Reals List Bool.
From Verif Require Import PyBase M_Swarm.
Import ListNotations.
Local Open Scope R_scope.
Local Open Scope list_scope.

(** a point inside the bounds *)
Inductive inside : vec -> vec -> vec -> Prop :=
| inside_nil : inside [] [] []
| inside_cons l u x lb ub xs : l <= x <= u -> inside lb ub xs -> inside (l :: lb) (u :: ub) (x :: xs).
(** bounds as the assertions at the start require *)
Definition good_bounds (lb ub : vec) : Prop := Forall2 Rlt lb ub.
(** random vectors: one entry in [0,1] for each dimension *)
Definition unit_vec (n : nat) (r : vec) : Prop := List.length r = n /\ Forall (fun x => 0 <= x <= 1) r.
(** one pair per particle, in each iteration *)
Definition good_random (n m : nat) (l : list (vec * vec)) : Prop :=
  List.length l = m /\ Forall (fun p => unit_vec n (fst p) /\ unit_vec n (snd p)) l.
