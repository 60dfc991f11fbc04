(** Model of the certification noise levels (Methods/Noise/Certification). *)
From Coq Require Import Reals List Bool ZArith.
From Verif Require Import PyBase M_Opt M_Noise M_Mesh2.
Import ListNotations.
Local Open Scope R_scope.

(** [np.ceil(time[-1]/0.5 + 1)] (sideline_noise.py 42, flyover_noise.py 41,
    approach_noise.py 41) *)
Definition n_points (t_end : R) : Z := ceilZ (t_end / (1 / 2) + 1).
(** [int(np.minimum(200, np.abs(n_points)))] (sideline_noise.py 44, flyover_noise.py 43,
    approach_noise.py 43) *)
Definition control_points (t_end : R) : nat := Z.to_nat (Z.min 200 (Z.abs (n_points t_end))).
(** [np.sign(n_points) == -1] (sideline_noise.py 43 and 70) *)
Definition negative (t_end : R) : bool := Z.eqb (Z.sgn (n_points t_end)) (-1).

(** What an evaluation of the mission leaves in a segment: the time of the last
    control point and the places, as (height, distance). *)
Record flown : Type := mk_flown { w_end : R; w_track : list (R * R) }.

(** sideline_noise.py 61-65: [coef * 304.8 ** (degree-idx)], added up; the
    coefficients are the cubic's, highest first *)
Definition cubic : Type := (R * R * R * R)%type.
Definition x_mic (c : cubic) : R :=
  let '(c0, c1, c2, c3) := c in
  let h := 3048 / 10 in
  0 + c0 * h ^ 3 + c1 * h ^ 2 + c2 * h ^ 1 + c3 * h ^ 0.

Section Certification.
(** Flying the mission with a number of control points in the segment of
    interest (and the cutback of the take-off, whose number stays the same);
    the fit ([np.polyfit]); the level of a segment flown ([compute_noise]), with
    the microphone's place for the sideline. *)
Variable fly : nat -> flown.
Variable fly_cutback : nat -> flown.
Variable fit : list (R * R) -> cubic.
Variable level_side : R -> flown -> R.
Variable level_climb level_cutback level_approach : flown -> R.

(** sideline_noise.py 40-75: the number of control points left behind and the
    level.  A negative number of points looks for [missions] in the segment,
    which has none (71). *)
Definition sideline (n : nat) : nat * result R :=
  let f := fly n in
  (control_points (w_end f),
   if negative (w_end f) then Err AttributeError
   else Ok (level_side (x_mic (fit (w_track f))) f)).
(** flyover_noise.py 75 *)
Definition together (a b : R) : R := 10 * log10 (p10 (a / 10) + p10 (b / 10)).
(** flyover_noise.py 39-77 *)
Definition flyover (n : nat) : nat * result R :=
  let f := fly n in
  let g := fly_cutback n in
  (control_points (w_end f),
   if negative (w_end f) then Err AttributeError
   else Ok (together (level_climb f) (level_cutback g))).
(** approach_noise.py 39-58: the sign is kept but not looked at *)
Definition approach (n : nat) : nat * result R :=
  let f := fly n in (control_points (w_end f), Ok (level_approach f)).

(** Calls one after the other, each finding the number of control points that
    the previous one left in the mission. *)
Fixpoint calls (one : nat -> nat * result R) (k n : nat) : list (result R) :=
  match k with
  | O => []
  | S j => let (n', r) := one n in r :: calls one j n'
  end.
End Certification.
