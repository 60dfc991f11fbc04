(** * Model of the three-dimensional frame transformations

    Source: /repo/trunk/SUAVE/Methods/Geometry/Three_Dimensional/angles_to_dcms.py 10-179
            /repo/trunk/SUAVE/Methods/Geometry/Three_Dimensional/orientation_product.py 19-49
            /repo/trunk/SUAVE/Methods/Geometry/Three_Dimensional/orientation_transpose.py 19-43

    Simplifications: numbers are reals.  The arrays hold one vector or matrix per control point
    and every function here treats the points independently, so one point is modelled.  The
    complex-step branch of new_tensor (174-175) is left out. *)
From Coq Require Import Reals List.
From Verif Require Import M_Opt.
Import ListNotations.
Local Open Scope R_scope.
Local Open Scope list_scope.

(** a row of an (n,3) array *)
Record v3 := V3 { vx : R; vy : R; vz : R }.
(** an element of an (n,3,3) array, by rows *)
Record m3 := M3 { row0 : v3; row1 : v3; row2 : v3 }.

(** the component read by [rotations[:,dim]] (angles_to_dcms 38) *)
Definition component (dim : nat) (v : v3) : R :=
  match dim with 0%nat => vx v | 1%nat => vy v | _ => vz v end.

(** orientation_product 44-45: einsum('aij,aj->ai') *)
Definition vdot (a b : v3) : R := vx a * vx b + vy a * vy b + vz a * vz b.
Definition mapply (T : m3) (v : v3) : v3 :=
  V3 (vdot (row0 T) v) (vdot (row1 T) v) (vdot (row2 T) v).
(** orientation_transpose 41 *)
Definition mtranspose (T : m3) : m3 :=
  M3 (V3 (vx (row0 T)) (vx (row1 T)) (vx (row2 T)))
     (V3 (vy (row0 T)) (vy (row1 T)) (vy (row2 T)))
     (V3 (vz (row0 T)) (vz (row1 T)) (vz (row2 T))).
(** orientation_product 42-43: einsum('aij,ajk->aik') *)
Definition mprod (A B : m3) : m3 :=
  let cols := mtranspose B in
  M3 (V3 (vdot (row0 A) (row0 cols)) (vdot (row0 A) (row1 cols)) (vdot (row0 A) (row2 cols)))
     (V3 (vdot (row1 A) (row0 cols)) (vdot (row1 A) (row1 cols)) (vdot (row1 A) (row2 cols)))
     (V3 (vdot (row2 A) (row0 cols)) (vdot (row2 A) (row1 cols)) (vdot (row2 A) (row2 cols))).

(** new_tensor 150-179 *)
Definition eye3 : m3 := M3 (V3 1 0 0) (V3 0 1 0) (V3 0 0 1).
(** T0 45-77, T1 80-112, T2 115-147 *)
Definition T0 (a : R) : m3 := M3 (V3 1 0 0) (V3 0 (cos a) (sin a)) (V3 0 (- sin a) (cos a)).
Definition T1 (a : R) : m3 := M3 (V3 (cos a) 0 (- sin a)) (V3 0 1 0) (V3 (sin a) 0 (cos a)).
Definition T2 (a : R) : m3 := M3 (V3 (cos a) (sin a) 0) (V3 (- sin a) (cos a) 0) (V3 0 0 1).
(** the table Ts (31); any other index raises KeyError, modelled by [None] *)
Definition Ts (dim : nat) : option (R -> m3) :=
  match dim with 0%nat => Some T0 | 1%nat => Some T1 | 2%nat => Some T2 | _ => None end.

(** angles_to_dcms 37-42: the loop over the reversed sequence *)
Fixpoint dcm_loop (rotations : v3) (dims : list nat) (transform : m3) : option m3 :=
  match dims with
  | [] => Some transform
  | dim :: rest =>
      match Ts dim with
      | Some T => dcm_loop rotations rest (mprod transform (T (component dim rotations)))
      | None => None
      end
  end.
Definition angles_to_dcms (rotations : v3) (sequence : list nat) : option m3 :=
  dcm_loop rotations (rev sequence) eye3.

(** the default sequence (2,1,0), used by every caller in the mission code *)
Definition dcm_210 (rotations : v3) : m3 :=
  mprod (mprod (mprod eye3 (T0 (vx rotations))) (T1 (vy rotations))) (T2 (vz rotations)).

(** numpy.arctan2 (without signed zeros: arctan2(0, x) for x < 0 is taken as +pi, which is what
    +0.0 gives) *)
Definition arctan2 (y x : R) : R :=
  if Rltb 0 x then atan (y / x)
  else if Rltb x 0 then (if Rltb y 0 then atan (y / x) - PI else atan (y / x) + PI)
  else if Rltb 0 y then PI / 2 else if Rltb y 0 then - (PI / 2) else 0.
