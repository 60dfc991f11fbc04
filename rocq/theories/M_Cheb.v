(** * Model of the discretisation of time

    Source: /repo/trunk/SUAVE/Methods/Utilities/Chebyshev/chebyshev_data.py 13-90
            /repo/trunk/SUAVE/Methods/Utilities/Chebyshev/linear_data.py 13-91

    Simplifications: numbers are reals; numpy.linalg.inv is a parameter, [None] when it raises
    LinAlgError; only the default integration=True is modelled.  With one control point line 52
    divides zero by zero; the model is only meant for N = 0 (which raises) and N >= 2. *)
From Coq Require Import Reals List ZArith.
From Verif Require Import M_Mission.
Local Open Scope R_scope.

(** chebyshev_data.py 52: 0.5*(1 - cos(pi*arange(0,N)/(N-1))) *)
Definition cheb_nodes (N : nat) : col := fun i => 1 / 2 * (1 - cos (PI * INR i / INR (N - 1))).
(** linear_data.py 53: linspace(0,1,N) *)
Definition lin_nodes (N : nat) : col := fun i => INR i / INR (N - 1).

(** 58-59 (59-60 of linear_data.py): [2] + [1]*(N-2) + [2], with alternating signs *)
Definition weights (N : nat) : col := fun i =>
  (if (Nat.eqb i 0 || Nat.eqb i (N - 1))%bool then 2 else 1) * (-1) ^ i.
(** 60-71 (61-72): cs.T / dA *)
Definition raw_D (N : nat) (x : col) : mat := fun i j =>
  weights N i * (1 / weights N j) / (x i - x j + (if Nat.eqb i j then 1 else 0)).
(** 74 (75): D - diag(sum(D.T, axis=0)) *)
Definition diff_matrix (N : nat) (x : col) : mat := fun i j =>
  raw_D N x i j - (if Nat.eqb i j then Sum N (fun k => raw_D N x i k) else 0).
(** 80 (81): D[1:,1:] *)
Definition tail_of_matrix (D : mat) : mat := fun i j => D (S i) (S j).
(** 83-84 (84-85): a zero row, then a zero column, in front *)
Definition pad (J : mat) : mat := fun i j =>
  match i, j with S a, S b => J a b | _, _ => 0 end.

(** numpy.linalg.inv of an n by n matrix *)
Notation inverter := (nat -> mat -> option mat).

(** what both functions do with their nodes; N = 0 raises RuntimeError (46) *)
Definition discretize (inv : inverter) (nodes : nat -> col) (N : nat) : option (col * mat * mat) :=
  if Nat.eqb N 0 then None
  else
    let x := nodes N in
    let D := diff_matrix N x in
    match inv (N - 1)%nat (tail_of_matrix D) with
    | Some J => Some (x, D, pad J)
    | None => None
    end.
Definition chebyshev_data (inv : inverter) : nat -> option (col * mat * mat) := discretize inv cheb_nodes.
Definition linear_data (inv : inverter) : nat -> option (col * mat * mat) := discretize inv lin_nodes.
