(** * Vocabulary for optimisation problems *)
From Coq Require Import Reals String List Bool.
From Verif Require Import PyBase M_Opt.
Import ListNotations.
Local Open Scope R_scope.
Local Open Scope list_scope.

(** the physical meaning of a constraint row: the value of the named output (SI) is beyond
    bound times units *)
Definition satisfied (c : constraint) (value : string -> R) : Prop :=
  (c_sense c = ">"%string -> value (c_name c) >= c_bound c * c_units c) /\
  (c_sense c = "<"%string -> value (c_name c) <= c_bound c * c_units c) /\
  (c_sense c = "="%string -> value (c_name c) = c_bound c * c_units c).
Definition known_sense (c : constraint) : Prop :=
  c_sense c = ">"%string \/ c_sense c = "<"%string \/ c_sense c = "="%string.
(** a solver accepts a value under the limits it was given *)
Definition accepts (v : R) (l : limits) : Prop :=
  match l with Upper u => v <= u | Lower b => v >= b | Equal e => v = e | NoLimit => True end.

(** dot product, and an affine function of the inputs *)
Fixpoint dot (a x : list R) : R :=
  match a, x with
  | c :: a', y :: x' => c * y + dot a' x'
  | _, _ => 0
  end.
Definition affine (b : R) (a : list R) (f : list R -> R) : Prop :=
  forall x, List.length x = List.length a -> f x = b + dot a x.
