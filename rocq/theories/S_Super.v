(** * Vocabulary: supersonic drag *)
From Coq Require Import Reals List Bool Arith.
From Verif Require Import PyBase M_Opt M_Util M_Drag M_Super.
Import ListNotations.
Local Open Scope R_scope.
Local Open Scope list_scope.

(** what a wing adds below the drag rise: the drag rise of the subsonic analysis, or that of crest-critical Mach number 0.95 without sweep when it is marked for high Mach numbers *)
Definition rise_of (S M : R) (w : swing) (cl : R) : R :=
  (if z_high w then drag_rise (95 / 100) 0 M else drag_rise (crest_critical (z_tc w) (z_sweep w) (if z_main w then cl else 0)) (z_sweep w) M) * (z_area w / S).
Fixpoint rises (S M : R) (ws : list swing) (cls : list R) : R :=
  match ws, cls with w :: ws, cl :: cls => rise_of S M w cl + rises S M ws cls | _, _ => 0 end.
(** drag of the Sears-Haack body of the vehicle's length and cross section, times 3/4 *)
Definition bluntness (v : body) : R := 9 / 2 * PI * (v_section v / v_length v) ^ 2 / v_area v.
Definition ordered (s : rules) : Prop := r_low s < r_peak s < r_high s.
Definition sound_wing (w : swing) : Prop := 0 <= z_area w /\ 0 <= cos (z_sweep w).
(** half span over length, and how full the planform is *)
Definition slender (v : body) : R := v_span v / 2 / v_chordwise v.
Definition fullness (v : body) : R := 2 * slender v / v_ar v.
Definition sound_body (v : body) : Prop := 0 < v_span v /\ 0 < v_chordwise v /\ 0 < v_ar v /\ 0 < v_area v /\ 0 <= z_area (v_wing v) /\ z_main (v_wing v) = true.
(** Mach cone parameter *)
Definition cone (v : body) (M : R) : R := sqrt (M ^ 2 - 1) * slender v.
Definition lift_drag (v : body) (i : instant) : R :=
  if Rltb (i_M i) (101 / 100) then 0 else i_CL i ^ 2 * (1 + fullness v) * fw (cone v (i_M i)) / (2 * PI * slender v) * (z_area (v_wing v) / v_area v).
