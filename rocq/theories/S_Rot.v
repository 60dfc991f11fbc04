(** * Rotations of three-dimensional space: specification vocabulary *)
From Coq Require Import Reals List.
From Verif Require Import M_Rot.
Import ListNotations.
Local Open Scope R_scope.

Definition cross (a b : v3) : v3 :=
  V3 (vy a * vz b - vz a * vy b) (vz a * vx b - vx a * vz b) (vx a * vy b - vy a * vx b).
Definition norm (a : v3) : R := sqrt (vdot a a).
Definition scaled (k : R) (a : v3) : v3 := V3 (k * vx a) (k * vy a) (k * vz a).
Definition plus (a b : v3) : v3 := V3 (vx a + vx b) (vy a + vy b) (vz a + vz b).

(** a linear map that keeps lengths and angles and does not mirror *)
Record rotation (f : v3 -> v3) : Prop := {
  rot_plus : forall a b, f (plus a b) = plus (f a) (f b);
  rot_scaled : forall k a, f (scaled k a) = scaled k (f a);
  rot_inner : forall a b, vdot (f a) (f b) = vdot a b;
  rot_cross : forall a b, f (cross a b) = cross (f a) (f b)
}.
(** [g] undoes [f] and [f] undoes [g] *)
Definition inverse (f g : v3 -> v3) : Prop := (forall a, g (f a) = a) /\ (forall a, f (g a) = a).

Definition e_x : v3 := V3 1 0 0.
Definition e_y : v3 := V3 0 1 0.
Definition e_z : v3 := V3 0 0 1.
