(** * Maximum lift, field lengths, payload-range: specification vocabulary *)
From Coq Require Import Reals List Bool String.
From Verif Require Import PyBase M_Opt M_Noise M_Field.
Import ListNotations.
Local Open Scope R_scope.

Fixpoint sum_of {A} (f : A -> R) (l : list A) : R := match l with [] => 0 | x :: r => f x + sum_of f r end.
(** the wings with devices for high lift *)
Definition lifting (ws : list hwing) : list hwing := filter w_high_lift ws.
(** sweep angles for which the wing still points sideways *)
Definition sideways (a : R) : Prop := - (PI / 2) < a < PI / 2.
(** a field and a vehicle for which lengths make sense *)
Definition usable (f : field) : Prop :=
  0 < f_g f /\ 0 < f_rho f /\ 0 < f_sref f /\ 0 < f_clmax f /\ 0 < ratio_or (12 / 10) (f_ratio f) /\ 0 < ratio_or (123 / 100) (f_ratio f).
(** thrust is positive and does not grow with speed *)
Definition fading (thrust : R -> R) : Prop := (forall v, 0 < thrust v) /\ forall v v', v <= v' -> thrust v' <= thrust v.
(** the first constant at least zero, the others too, and one of the others positive *)
Definition growing_constants (cs : list R) : Prop := (forall c, In c cs -> 0 <= c) /\ exists c r, cs = c :: r /\ exists x, In x r /\ 0 < x.
(** strictly increasing between two values *)
Definition grows_on (f : R -> R) (a b : R) : Prop := forall x y, a <= x -> x < y -> y <= b -> f x < f y.
(** every chord lies above the function *)
Definition convex_on (f : R -> R) (a b : R) : Prop :=
  forall x y t, a <= x -> x <= y -> y <= b -> 0 <= t <= 1 -> f (x + t * (y - x)) <= f x + t * (f y - f x).
