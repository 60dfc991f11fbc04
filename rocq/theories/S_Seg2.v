(** * Vocabulary for the further segments *)
From Coq Require Import Reals List Arith.
From Verif Require Import M_Rot M_Mission M_Segments M_Seg2.
Import ListNotations.
Local Open Scope R_scope.

(** the last of [n] control points *)
Definition final (n : nat) : nat := (n - 1)%nat.
(** the dimensionless clock runs from 0 to 1 and the integral over nothing is 0 *)
Definition clock (n : nat) (nu : numerics) : Prop := (2 <= n)%nat /\ nd_x nu 0%nat = 0 /\ nd_x nu (final n) = 1 /\ forall j, nd_I nu 0%nat j = 0.
(** evenly spaced points *)
Definition even (n : nat) (nu : numerics) : Prop := forall i, (i < n)%nat -> nd_x nu i = INR i / INR (n - 1).
(** the whole integral of a constant is the constant *)
Definition whole (n : nat) (nu : numerics) : Prop := Sum n (nd_I nu (final n)) = 1.
(** time between two points *)
Definition passed (c : conds) (i j : nat) : R := time c j - time c i.
(** integral of a rate over the time of the segment, up to point [i] *)
Definition integral (n : nat) (nu : numerics) (f : col) (i : nat) : R := mulv n (t_I nu) f i.
(** angle over the ground, in radians, flown per second along the meridian and along a parallel *)
Definition angular (an : analyses) (c : conds) (j : nat) : R := speed c j / (alt c j + an_radius an) * cos (vy (rot c j) - alpha c j).
