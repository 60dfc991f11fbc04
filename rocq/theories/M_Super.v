(** * Supersonic drag

    Sources under /repo/trunk/SUAVE/Methods/Aerodynamics/Supersonic_Zero/Drag:
      CT = compressibility_drag_total.py, WL = wave_drag_lift.py, WR = wave_drag_volume_raymer.py, SH = wave_drag_volume_sears_haack.py,
      PF = parasite_drag_fuselage.py, PN = parasite_drag_nacelle.py, MD = miscellaneous_drag_aircraft.py
    Numbers are reals; powers are 0 for arguments that are not positive (numpy: 0 at 0, nan below).  NotImplementedError is GenericException. *)
From Coq Require Import Reals List Bool Arith String.
From Verif Require Import PyBase M_Opt M_Util M_Drag.
Import ListNotations.
Local Open Scope R_scope.
Local Open Scope list_scope.

(** what is read of a wing: whether marked for high Mach numbers, whether a Main_Wing, thickness, sweep, area *)
Record swing := { z_high : bool; z_main : bool; z_tc : R; z_sweep : R; z_area : R }.
(** main wing and vehicle: span, length and aspect ratio, whether a Main_Wing; leading edge sweep in degrees; length, cross section and reference area *)
Record body := { v_wing : swing; v_span : R; v_chordwise : R; v_ar : R; v_le : R; v_length : R; v_section : R; v_area : R; v_all : list swing }.
Inductive wave := Raymer | Sears_Haack | Other.
(** CT 64-68, 70-78 *)
Record rules := { r_low : R; r_high : R; r_peak : R; r_factor : R; r_scaling : R; r_wave : wave; r_fixed : bool }.
(** one flight condition: Mach number, lift coefficient, and that of each wing *)
Record instant := { i_M : R; i_CL : R; i_cl : list R }.

(** CT 197-285 *)
Definition drag_div (Sref : R) (M : R) (w : swing) (cl : R) : R :=
  let mcc := if z_high w then 95 / 100 else crest_critical (z_tc w) (z_sweep w) (if z_main w then cl else 0) in
  let dc := 19 / 10000 * pw (M / mcc) (14641 / 1000) in
  (if z_high w then dc else dc * cos (z_sweep w) ^ 3) * z_area w / Sref.
(** CT 97-98, 127-128 *)
Definition divergence_total (v : body) (cls : list R) (M : R) : R := fold_left Rplus (map2 (drag_div (v_area v) M) (v_all v) cls) 0.
(** WR 53-75 *)
Definition raymer (v : body) (scaling M : R) : R :=
  let Dq := 9 * PI / 2 * (v_section v / v_length v) * (v_section v / v_length v) in
  let fast := if Rltb M (12 / 10) then 0 else scaling * (1 - 2 / 10 * pw (M - 12 / 10) (57 / 100) * (1 - PI * pw (v_le v) (77 / 100) / 100)) * Dq in
  let h := blend (12 / 10) (13 / 10) M in
  (scaling * Dq * h + fast * (1 - h)) / v_area v.
(** SH 33-50 *)
Definition sears_haack (v : body) (scaling : R) : R :=
  let d := sqrt (v_section v / PI) * 2 in 3 / 2 * PI * PI * (d / v_length v) * (d / v_length v) * v_section v / v_area v * scaling.
(** CT 70-78, WR 40-46 *)
Definition mains (v : body) : nat := List.length (filter z_main (v_all v)).
Definition wave_volume (s : rules) (v : body) : result (R -> R) :=
  match r_wave s with
  | Raymer => if r_fixed s then (if Nat.ltb 1 (mains v) then Err GenericException else Ok (raymer v (r_scaling s))) else Err GenericException
  | Sears_Haack => if r_fixed s then Ok (fun _ => sears_haack v (r_scaling s)) else Err GenericException
  | Other => Err GenericException
  end.
(** CT 91-136 for one condition *)
Definition parabola (peak top a M : R) : R := a * (M - peak) * (M - peak) + top.
Definition volume_drag (s : rules) (v : body) (wave : R -> R) (cls : list R) (M : R) : R :=
  let low := divergence_total v cls (r_low s) in let high := wave (r_low s) in let top := high * r_factor s in
  let a1 := (low - top) / (r_low s - r_peak s) / (r_low s - r_peak s) in
  let a2 := (high - top) / (r_high s - r_peak s) / (r_high s - r_peak s) in
  if Rltb M (r_peak s) then
    let h := blend (r_low s) (r_peak s - (r_peak s - r_low s) * 3 / 4) M in divergence_total v cls M * h + parabola (r_peak s) top a1 M * (1 - h)
  else
    let h := blend (r_peak s) (r_high s) M in parabola (r_peak s) top a2 M * h + wave M * (1 - h).
(** WL 71-96 *)
Definition fw (x : R) : R :=
  if Rltb (178 / 1000) x then 4935 / 10000 - 2382 / 10000 * x + 16306 / 10000 * x ^ 2 - 86 / 100 * x ^ 3 + 2232 / 10000 * x ^ 4 - 365 / 10000 * x ^ 5 - 5 / 10 else 0.
(** WL 44-69 *)
Definition supersonic (i : instant) : bool := negb (Rltb (i_M i) (101 / 100)).
Definition wave_drag_lift (v : body) (i : instant) : R :=
  if supersonic i then
    let s := v_span v / 2 in let l := v_chordwise v in let p := 2 / v_ar v * s / l in let beta := sqrt (i_M i ^ 2 - 1) in
    let Kw := (1 + 1 / p) * fw (beta * s / l) / (2 * beta ^ 2 * (s / l) ^ 2) in
    let CL := if z_main (v_wing v) then i_CL i else 0 in CL ^ 2 * (beta ^ 2 / PI * p * (s / l) * Kw)
  else 0.
(** CT 182-194: the supersonic places are filled from the front of the list of all conditions *)
Fixpoint spread (l : list instant) (from : list R) : list R :=
  match l with [] => [] | i :: r => if supersonic i then hd 0 from :: spread r (tl from) else 0 :: spread r from end.
Definition lift_wave_drag (v : body) (l : list instant) : list R := map (fun c => c * z_area (v_wing v) / v_area v) (spread l (map (wave_drag_lift v) l)).
(** CT 131-152: total, volume and lift part at each condition *)
Definition compressibility_total (s : rules) (v : body) (l : list instant) : result (list (R * R * R)) :=
  bind (wave_volume s v) (fun wave =>
  Ok (map2 (fun i c => let vol := volume_drag s v wave (i_cl i) (i_M i) in let lift := c * (1 - blend (r_peak s) (r_high s) (i_M i)) in (vol + lift, vol, lift)) l (lift_wave_drag v l))).

(** ** parasite drag *)
(** PF 80-106; [low] and [high]: where the blend begins and ends *)
Definition slow_speed_up (d_d M : R) : R :=
  let D := sqrt (1 - (1 - M ^ 2) * d_d ^ 2) in let a := 2 * (1 - M ^ 2) * d_d ^ 2 * (arctanh D - D) / D ^ 3 in a / ((2 - a) * sqrt (1 - M ^ 2)).
Definition fast_speed_up (d_d : R) : R := let D := sqrt (1 - d_d ^ 2) in let a := 2 * d_d ^ 2 * (arctanh D - D) / D ^ 3 in a / (2 - a).
Definition blended_speed_up (low high d_d M : R) : R :=
  let h := blend low high M in (if Rltb M high then slow_speed_up d_d M else 0) * h + (if Rltb low M then fast_speed_up d_d else 0) * (1 - h).
Definition super_fuselage (C low high : R) (fl : flow) (f : fuselage) : entry :=
  let c := compressible_turbulent_flat_plate (fl_re fl * fu_len f) (fl_M fl) (fl_T fl) in
  let k := (1 + C * blended_speed_up low high (fu_diam f / fu_len f) (fl_M fl)) ^ 2 in
  Entry (fu_wet f) (fu_front f) (k * f_cf c * fu_wet f / fu_front f) (f_cf c) (f_comp c) (f_reyn c) k.
(** PN 52-104 *)
Definition super_nacelle (s : rules) (fl : flow) (n : nacelle) : entry :=
  let c := compressible_turbulent_flat_plate (fl_re fl * na_len n) (fl_M fl) (fl_T fl) in
  let h := blend (r_low s) (r_high s) (fl_M fl) in
  let k := (1 + 35 / 100 / (na_len n / na_diam n)) * h + 1 * (1 - h) in
  Entry (na_wet n) (nacelle_ref n) (k * f_cf c * na_wet n / nacelle_ref n) (f_cf c) (f_comp c) (f_reyn c) k.
(** MD 47-111: nacelle bases and upsweep *)
Definition super_misc (area : R) (l : list nacelle) : R :=
  0 + fold_left (fun t n => t + 5 / 10 / 12 * PI * na_diam n * (2 / 10) / area) l 0 + 6 / 1000 / area + 0.
