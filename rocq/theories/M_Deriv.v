(** * Aerodynamic derivatives by finite differences: model

    Source: /repo/trunk/SUAVE/Methods/Flight_Dynamics/Static_Stability/compute_aero_derivatives.py (AD), for one control point.
    The evaluation of a segment (`process.iterate.conditions`) is an arbitrary function [E] of what the code perturbs; the results kept in the segment are [b].
    Quotients are [quo]: None where numpy makes nan or inf. *)
From Coq Require Import Reals List.
From Verif Require Import M_Opt M_Cryo.
Import ListNotations.
Local Open Scope R_scope.

(** what is perturbed: pitch, heading, throttle, inertial velocity, deflections of the control surfaces *)
Record flight := Flight { f_pitch : R; f_psi : R; f_thr : R; f_x : R; f_y : R; f_z : R; f_defl : list R }.
(** results: angle of attack, side slip, free-stream speed, and any coefficient by its number *)
Record outs := Outs { o_alpha : R; o_beta : R; o_V : R; o_coef : nat -> R }.
(** AD 66 *)
Definition h : R := 1 / 10000.
Definition with_pitch (s : flight) (p : R) : flight := Flight p (f_psi s) (f_thr s) (f_x s) (f_y s) (f_z s) (f_defl s).
Definition with_psi (s : flight) (p : R) : flight := Flight (f_pitch s) p (f_thr s) (f_x s) (f_y s) (f_z s) (f_defl s).
Definition with_throttle (s : flight) (p : R) : flight := Flight (f_pitch s) (f_psi s) p (f_x s) (f_y s) (f_z s) (f_defl s).
Definition with_defl (s : flight) (i : nat) (d : R) : flight := Flight (f_pitch s) (f_psi s) (f_thr s) (f_x s) (f_y s) (f_z s) (set_nth i d (f_defl s)).

(** AD 70-93 *)
Definition by_alpha (E : flight -> outs) (s : flight) (b : outs) (k : nat) : option R :=
  let q := E (with_pitch s (f_pitch s * (1 + h))) in quo (o_coef q k - o_coef b k) (o_alpha q - o_alpha b).
(** AD 107-149 *)
Definition by_beta (E : flight -> outs) (s : flight) (b : outs) (k : nat) : option R :=
  let q := E (with_psi s (f_psi s + h)) in quo (o_coef q k - o_coef b k) (o_beta q - o_beta b).
(** AD 161-179 *)
Definition by_throttle (E : flight -> outs) (s : flight) (b : outs) (k : nat) : option R :=
  let t := f_thr s * (1 + h) in let q := E (with_throttle s t) in quo (o_coef q k - o_coef b k) (t - f_thr s).
(** AD 193-226, for the [i]-th control surface; 206-210: with surrogates the differences of the moments ([moment]) are zero *)
Definition by_defl (surrogate moment : bool) (E : flight -> outs) (s : flight) (b : outs) (i k : nat) : option R :=
  let d := nth i (f_defl s) 0 in let q := E (with_defl s i (d + 1 / 10)) in
  quo (if (surrogate && moment)%bool then 0 else o_coef q k - o_coef b k) (d + 1 / 10 - d).
(** AD 244-251; cosine and sine of arctan2(z, x), which is 0 where both are *)
Definition faster (s : flight) : flight :=
  let v := sqrt (f_x s ^ 2 + f_y s ^ 2 + f_z s ^ 2) * (1 + h) in
  let r := sqrt (f_x s ^ 2 + f_z s ^ 2) in
  let c := if Req_EM_T r 0 then 1 else f_x s / r in
  let sn := if Req_EM_T r 0 then 0 else f_z s / r in
  Flight (f_pitch s) (f_psi s) (f_thr s) (v * c) (f_y s) (v * sn) (f_defl s).
(** AD 257-261: the speed (one column) less the velocity vector (three): three columns *)
Definition by_speed (E : flight -> outs) (s : flight) (b : outs) (k : nat) : list (option R) :=
  let q := E (faster s) in map (fun v => quo (o_coef q k - o_coef b k) (o_V q - v)) [f_x s; f_y s; f_z s].
