(** * Atmosphere: specification vocabulary *)
From Coq Require Import Reals List Sorted.
From Verif Require Import M_Atmo.
Import ListNotations.
Local Open Scope R_scope.
Local Open Scope list_scope.

(** a table of at least two breaks at increasing altitudes, with positive entries *)
Record sensible (a : atmosphere) : Prop := {
  sn_two : exists x y rest, a_breaks a = x :: y :: rest;
  sn_up : StronglySorted (fun x y => bz x < bz y) (a_breaks a);
  sn_T : Forall (fun x => 0 < bT x) (a_breaks a);
  sn_p : Forall (fun x => 0 < bp x) (a_breaks a);
  sn_g : 0 < a_g a; sn_rad : 0 < a_rad a; sn_R : 0 < a_R a }.
(** neighbouring breaks *)
Definition layer (a : atmosphere) (lo hi : brk) : Prop :=
  exists before behind, a_breaks a = before ++ lo :: hi :: behind.
(** the straight line between two breaks *)
Definition between (lo hi : brk) (z : R) : R :=
  bT lo + (z - bz lo) / (bz hi - bz lo) * (bT hi - bT lo).
(** the values for one altitude *)
Definition value_at (a : atmosphere) (delta : R) (vg : bool) (h : R) : values :=
  match compute_values a delta vg [h] with v :: _ => v | [] => Values 0 0 0 0 0 0 0 0 end.
Definition constant_value (a : atmosphere) (T h : R) : values :=
  match constant_values a T [h] with v :: _ => v | [] => Values 0 0 0 0 0 0 0 0 end.
(** the altitude above the surface of a point at geopotential altitude [z] *)
Definition altitude_of (a : atmosphere) (z : R) : R := z / (1 - z / a_rad a).
(** [h] is strictly inside the layer *)
Definition strictly_inside (a : atmosphere) (lo hi : brk) (h : R) : Prop :=
  - a_rad a < h /\ bz lo < geopotential (a_rad a) h < bz hi.
