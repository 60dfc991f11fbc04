(** * Static stability: specification vocabulary *)
From Coq Require Import Reals List Bool.
From Verif Require Import PyBase M_Stab.
Import ListNotations.
Local Open Scope R_scope.

Definition steep (a : R) : Prop := - (PI / 2) < a < PI / 2.
(** slope, seen from above, of the line joining the points at a given fraction of the chord of two sections [h] apart *)
Definition line_slope (le h c0 c1 frac : R) : R := ((le * h + frac * c1) - frac * c0) / h.
Fixpoint sum (f : surface -> R) (l : list surface) : R := match l with [] => 0 | s :: r => f s + sum f r end.
(** lift-curve slope of all surfaces that are not vertical, on the reference area *)
Definition lift_slope (sref : R) (l : list surface) : R :=
  sum (fun s => s_area s / sref * s_cla s * s_eta s * (1 - s_ep s)) (filter (fun s => negb (s_vertical s)) l).
(** USAF Datcom 5.3.1.1: sidewash and dynamic-pressure factor of a fin of area [sv] on an aircraft with main wing of area [sref],
    sweep [sweep], aspect ratio [ar], whose quarter chord is [zw] below the centre line of a fuselage [d] deep *)
Definition sidewash (sv sref sweep zw d ar : R) : R := 724 / 1000 + 306 / 100 * (sv / sref) / (1 + cos sweep) + 4 / 10 * (zw / d) + 9 / 1000 * ar.
