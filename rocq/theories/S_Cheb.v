(** * What discretised calculus should do: specification vocabulary *)
From Coq Require Import Reals.
From Verif Require Import M_Mission M_Cheb.
Local Open Scope R_scope.

(** the polynomial a 0 + a 1 x + ... + a (n-1) x^(n-1) *)
Definition poly (a : nat -> R) (n : nat) (x : R) : R := Sum n (fun k => a k * x ^ k).

(** [B] is the inverse of the n by n matrix [A] *)
Definition product (n : nat) (A B : mat) : mat := fun i j => Sum n (fun k => A i k * B k j).
Definition identity : mat := fun i j => if Nat.eqb i j then 1 else 0.
Definition inverse (n : nat) (A B : mat) : Prop :=
  forall i j, (i < n)%nat -> (j < n)%nat ->
    product n A B i j = identity i j /\ product n B A i j = identity i j.
(** numpy.linalg.inv, without rounding: it finds the inverse of every matrix that has one, and
    returns nothing but inverses *)
Definition inverts (inv : inverter) : Prop :=
  forall n A, match inv n A with
              | Some B => inverse n A B
              | None => forall B, ~ inverse n A B
              end.

(** the matrix [D] differentiates [f], sampled at the nodes [x], exactly *)
Definition differentiates (N : nat) (x : col) (D : mat) (f : R -> R) : Prop :=
  forall i d, (i < N)%nat -> derivable_pt_lim f (x i) d -> mulv N D (fun j => f (x j)) i = d.
(** the matrix [J] integrates [f] from zero exactly *)
Definition integrates (N : nat) (x : col) (J : mat) (f : R -> R) : Prop :=
  forall i F, (i < N)%nat -> (forall t, derivable_pt_lim F t (f t)) ->
    mulv N J (fun j => f (x j)) i = F (x i) - F 0.
