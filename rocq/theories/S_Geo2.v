(** * Vocabulary for airfoils, fuselages, tails, nacelles and origins *)
From Coq Require Import Reals List ZArith Lia Lra.
From Verif Require Import PyBase.
Import ListNotations.
Local Open Scope R_scope.

(** ** the NACA four-digit family *)
Definition digit (d : Z) : Prop := (0 <= d <= 9)%Z.
(** two parabolas with their common vertex at the point of greatest camber *)
Definition mean_line (m p x : R) : R := if Rle_dec p x then m * (1 - ((x - p) / (1 - p)) ^ 2) else m * (1 - ((p - x) / p) ^ 2).
(** the family's half thickness *)
Definition family (t x : R) : R := 5 * t * (2969 / 10000 * sqrt x - 1260 / 10000 * x - 3516 / 10000 * x ^ 2 + 2843 / 10000 * x ^ 3 - 1015 / 10000 * x ^ 4).
(** strictly down to index [k] and strictly up from there *)
Definition down_then_up (l : list R) (k : nat) : Prop :=
  (forall i j, (i < j)%nat -> (j <= k)%nat -> nth j l 0 < nth i l 0) /\ (forall i j, (k <= i)%nat -> (i < j)%nat -> (j < length l)%nat -> nth i l 0 < nth j l 0).

(** ** volumes: [V] is what is swept by sections of area [A y] from 0 to [h] *)
Definition swept_volume (A : R -> R) (h V : R) : Prop := exists F, (forall y, derivable_pt_lim F y (A y)) /\ V = F h - F 0.
(** between 10% and 60% of a chord [c]: a trapezium whose sides are the thickness, measured across the mean line of slopes [sf], [sr] *)
Definition box_area (t sf sr c : R) : R := (2 * (c * family t (1 / 10) / sqrt (1 + sf ^ 2)) + 2 * (c * family t (6 / 10) / sqrt (1 + sr ^ 2))) / 2 * (c / 2).
Definition chord_at (root tip h y : R) : R := root + (tip - root) * (y / h).

(** ** origins *)
(** the engines of a network as the code lays them out: sides alternate, and an odd one out goes on the centreline *)
Definition laid_out (p : R * R * R) (n i : nat) : R * R * R :=
  let '(x, y, z) := p in (x, if Nat.odd i then - y else if Nat.eqb (S i) n then 0 else y, z).
