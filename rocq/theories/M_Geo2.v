(** * Airfoils, fuselages, tails, nacelles and origins
    G2 = trunk/SUAVE/Methods/Geometry/Two_Dimensional, G3 = trunk/SUAVE/Methods/Geometry/Three_Dimensional
    NA = G2/Cross_Section/Airfoil/compute_naca_4series.py, IV = G3/estimate_naca_4_series_internal_volume.py,
    FP = G2/Planform/fuselage_planform.py, RS = G2/Planform/rescale_non_dimensional.py,
    TF = G2/Cross_Section/Propulsion/compute_turbofan_geometry.py
    Exact real numbers, no inf or nan. *)
From Coq Require Import Reals List Arith ZArith Bool.
From Verif Require Import PyBase M_Opt M_Drag M_Noise M_Wing.
Import ListNotations.
Local Open Scope R_scope.

(** ** NA *)
(** NA 52-53 *)
Definition bunch (te x : R) : R := 1 - (te + 1) * x * pw (1 - x) te - pw (1 - x) (te + 1).
Definition bunched (te : option R) (x : R) : R := match te with Some t => bunch t x | None => x end.
(** NA 56-59 *)
Definition half_thickness (t x : R) : R :=
  (2969 / 10000 * sqrt x - 126 / 1000 * x - 3516 / 10000 * x ^ 2 + 2843 / 10000 * x ^ 3 - 1015 / 10000 * x ^ 4) * t / (2 / 10).
(** NA 60-71 at one point; the branch of 65-66 takes the second arm at every point *)
Definition camber_line (m p x : R) : R :=
  if Rltb x p then m / p ^ 2 * (2 * p * x - x ^ 2) else m / (1 - p) ^ 2 * ((1 - 2 * p) + 2 * p * x - x ^ 2).
(** NA 86-94 *)
Record foil := Foil { fo_max : R; fo_x : list R; fo_y : list R; fo_xu : list R; fo_xl : list R; fo_yu : list R; fo_yl : list R; fo_camber : R; fo_tc : R }.
Definition minl (l : list R) : R := match l with [] => 0 | x :: r => fold_left Rmin r x end.
(** NA 13-96; [digits] are those of the name (43; other characters raise ValueError). 70: a division of
    python numbers, so a zero [p] raises even when no point lies before it. 83: max of nothing raises *)
Definition naca (digits : list Z) (npoints : nat) (te : option R) : result foil :=
  match digits with
  | d0 :: d1 :: d2 :: d3 :: _ =>
      let m := IZR d0 / 100 in let p := IZR d1 / 10 in let t := IZR d2 / 10 + IZR d3 / 100 in
      let half := ((npoints + 1) / 2)%nat in
      let xu := map (bunched te) (linspace 0 1 (half + if Nat.even npoints then 1 else 0)) in
      let xl := map (bunched te) (linspace 0 1 half) in
      if (negb (Z.eqb d0 0) && Z.eqb d1 0)%bool then Err ZeroDivisionError else
      let yu := tl (map (fun x => camber_line m p x + half_thickness t x) xu) in
      let yl := rev (map (fun x => camber_line m p x - half_thickness t x) xl) in
      let x := rev xl ++ tl xu in
      match x with
      | [] => Err ValueError
      | _ => Ok (Foil t x (yl ++ yu) xu xl (0 :: yu) (rev yl) m (t / (maxl x - minl x)))
      end
  | _ => Err IndexError
  end.

(** ** IV *)
Record swept := Swept { v_tc : R; v_root : R; v_tip : R; v_span : R }.
(** IV 52, 54; 53, 55 *)
Definition front_camber (m p c : R) : R := m * (1 / 10 * c / p ^ 2) * (2 * p - 1 / 10).
Definition rear_camber (m p c : R) : R := m * ((c - 6 / 10 * c) / (1 - p) ^ 2) * (1 + 6 / 10 - 2 * p).
(** IV 57-61 *)
Definition front_angle (m p : R) : R := atan (2 * m / p ^ 2 * (p - 1 / 10)).
Definition rear_angle (m p : R) : R := atan (2 * m / (1 - p) ^ 2 * (p - 6 / 10)).
(** IV 65-69 *)
Definition spar_half (t c x : R) : R :=
  5 * t * c * (2969 / 10000 * sqrt x - 126 / 1000 * x - 3516 / 10000 * x ^ 2 + 2843 / 10000 * x ^ 3 - 1015 / 10000 * x ^ 4).
(** IV 46-101; divisions of python numbers at 52, 53 and 83 *)
Definition internal_volume (w : swept) (m p : R) : result R :=
  if Req_EM_T p 0 then Err ZeroDivisionError else if Req_EM_T p 1 then Err ZeroDivisionError else if Req_EM_T (v_span w) 0 then Err ZeroDivisionError else
  let rc := v_root w in let tc := v_tip w in let span := v_span w in
  let fr := front_camber m p rc in let rr := rear_camber m p rc in let ft := front_camber m p tc in let rt := rear_camber m p tc in
  let cf := cos (front_angle m p) in let cr := cos (rear_angle m p) in
  let tfr := spar_half (v_tc w) rc (1 / 10) in let trr := spar_half (v_tc w) rc (6 / 10) in
  let tft := spar_half (v_tc w) tc (1 / 10) in let trt := spar_half (v_tc w) tc (6 / 10) in
  let yu_fr := fr + tfr * cf in let yl_fr := fr - tfr * cf in let yu_rr := rr + trr * cr in let yl_rr := rr - trr * cr in
  let yu_ft := ft + tft * cf in let yl_ft := ft - tft * cf in let yu_rt := rt + trt * cr in let yl_rt := rt - trt * cr in
  let su_f := (yu_fr - yu_ft) / (span / 2) in let sl_f := (yl_fr - yl_ft) / (span / 2) in
  let su_r := (yu_rr - yu_rt) / (span / 2) in let sl_r := (yl_rr - yl_rt) / (span / 2) in
  let yu_fm := span / 4 * su_f + yu_ft in let yl_fm := span / 4 * su_f + yl_ft in
  let yu_rm := span / 4 * su_r + yu_rt in let yl_rm := span / 4 * sl_r + yl_rt in
  let slope := (rc - tc) / (span / 2) in let mid := slope * (span / 4) + tc in
  let Aroot := ((yu_fr - yl_fr) + (yu_rr - yl_rr)) * (rc * (6 / 10 - 1 / 10)) / 2 in
  let Atip := ((yu_ft - yl_ft) + (yu_rt - yl_rt)) * (tc * (6 / 10 - 1 / 10)) / 2 in
  let Amid := ((yu_fm - yl_fm) + (yu_rm - yl_rm)) * (mid * (6 / 10 - 1 / 10)) / 2 in
  Ok (2 * (span / 12) * (Aroot + 4 * Amid + Atip)).

(** ** FP *)
(** np.round: to the nearest integer, halves to even *)
Definition np_round (x : R) : Z :=
  let f := Int_part x in
  if Rltb (x - IZR f) (1 / 2) then f else if Rltb (1 / 2) (x - IZR f) then (f + 1)%Z else if Z.even f then f else (f + 1)%Z.
(** FP 61-70: what is read; 117-124: what is written *)
Record fuse := Fuse { fu_seats : R; fu_pitch : R; fu_abreast : R; fu_nose_f : R; fu_tail_f : R; fu_fore : R; fu_aft : R; fu_width : R; fu_height : R; fu_total : R;
  fu_nose : R; fu_tail : R; fu_cabin : R; fu_wetted : R; fu_front : R; fu_deff : R }.
(** FP 85-92 *)
Definition at_least_one (x bound : R) : R := if Rltb bound x then x else 1.
(** FP 72-96: nose, tail, cabin, total, seats *)
Definition fuse_lengths (f : fuse) : result (R * R * R * R * R) :=
  let nose := fu_nose_f f * fu_width f in let tail := fu_tail_f f * fu_width f in
  if Req_EM_T (fu_total f) 0 then
    if Req_EM_T (fu_abreast f) 0 then Err ZeroDivisionError else
    let cabin := fu_seats f * fu_pitch f / fu_abreast f + fu_fore f + fu_aft f in
    Ok (nose, tail, cabin, cabin + nose + tail, fu_seats f)
  else
    if Req_EM_T (fu_pitch f) 0 then Err ZeroDivisionError else
    let cabin := at_least_one (fu_total f - nose - tail) 1 in
    let seats := IZR (np_round (cabin * fu_abreast f / fu_pitch f)) in
    Ok (at_least_one nose 0, at_least_one tail 0, cabin, at_least_one (fu_total f) 0, if Rltb 0 seats then seats else 0).
(** FP 102-106, 113 *)
Definition oval (a b : R) : R := (a - b) / (a + b).
Definition circumference (a b : R) : R := PI * (a + b) * (1 + 3 * oval a b ^ 2 / (10 + sqrt (4 - 3 * oval a b ^ 2))).
Definition effective (a b : R) : R := (a + b) * (64 - 3 * oval a b ^ 4) / (64 - 16 * oval a b ^ 2).
(** FP 25-126; a width and a height of opposite signs, where the root of 106 may be nan, are left out *)
Definition fuselage_planform (f : fuse) : result fuse :=
  bind (fuse_lengths f) (fun l => let '(nose, tail, cabin, total, seats) := l in
  let a := fu_width f / 2 in let b := fu_height f / 2 in
  if Req_EM_T (a + b) 0 then Err ZeroDivisionError else
  Ok (Fuse seats (fu_pitch f) (fu_abreast f) (fu_nose_f f) (fu_tail_f f) (fu_fore f) (fu_aft f) (fu_width f) (fu_height f) total
    nose tail cabin (0 + circumference a b * cabin + 75 / 100 * PI * effective a b * (nose + tail)) (PI * a * b) (effective a b))).

(** ** RS *)
Definition point := (R * R * R)%type.
Definition scaled (k : R) (p : point) : point := let '(x, y, z) := p in (x * k, y * k, z * k).
Record net := Net { ne_engines : nat; ne_origin : list point; ne_plain : list point }.
(** [cr_bodies]: the origins and non-dimensional origins of the wings, then of the fuselages; [cr_fuselage], [cr_main]:
    the total length of the components named 'fuselage' and 'main_wing' *)
Record craft := Craft { cr_fuselage : option R; cr_main : option R; cr_bodies : list (list point * list point); cr_nets : list net }.
(** RS 49-55, 103-109: any failure falls through to the next *)
Definition length_scale (v : craft) : R := match cr_fuselage v with Some l => l | None => match cr_main v with Some l => l | None => 1 end end.
Fixpoint mapr {A B} (f : A -> result B) (l : list A) : result (list B) :=
  match l with [] => Ok [] | a :: t => bind (f a) (fun b => bind (mapr f t) (fun bs => Ok (b :: bs))) end.
Definition item {A} (l : list A) (i : nat) : result A := match nth_error l i with Some x => Ok x | None => Err IndexError end.
(** RS 57-77; after an error the vehicle is left half changed, which is not modelled *)
Definition non_dimensional (v : craft) : result craft :=
  let k := length_scale v in
  bind (mapr (fun n => bind (mapr (fun i => bind (item (ne_origin n) i) (fun p => Ok (scaled (/ k) p))) (seq 0 (ne_engines n))) (fun l => Ok (Net (ne_engines n) (ne_origin n) l))) (cr_nets v)) (fun ns =>
  Ok (Craft (cr_fuselage v) (cr_main v) (map (fun b => (fst b, map (scaled (/ k)) (fst b))) (cr_bodies v)) ns)).
(** RS 131-139: engine [i] of [n] *)
Definition engine_origin (k : R) (n : nat) (l : list point) (i : nat) : result point :=
  bind (item l 0) (fun p => let '(x, y, z) := scaled k p in
    Ok (x, if Nat.even i then (if Nat.eqb i (n - 1) then 0 else y) else - y, z)).
(** RS 111-143 *)
Definition dimensional (v : craft) : result craft :=
  let k := length_scale v in
  bind (mapr (fun n => bind (mapr (engine_origin k (ne_engines n) (ne_plain n)) (seq 0 (ne_engines n))) (fun l => Ok (Net (ne_engines n) l (ne_plain n)))) (cr_nets v)) (fun ns =>
  Ok (Craft (cr_fuselage v) (cr_main v) (map (fun b => (map (scaled k) (snd b), snd b)) (cr_bodies v)) ns)).

(** ** tails, tanks and nacelles *)
(** G2/Planform/horizontal_tail_planform_raymer.py 39-40: [mac], [sref] of the wing *)
Definition with_area (s : R) (w : wing) : wing := Wing s (w_taper w) (w_sweep w) (w_ar w) (w_tc w) (w_dihedral w) (w_vertical w) (w_symmetric w) (w_flap w).
Definition horizontal_tail (tail : wing) (mac sref l c : R) : wing * planform := let t := with_area (mac * c * sref / l) tail in (t, wing_planform t).
(** G2/Planform/vertical_tail_planform_raymer.py 44-46 *)
Definition vertical_tail (tail : wing) (span sref l c : R) : wing * planform := let t := with_area (span * c * sref / l) tail in (t, wing_planform t).
(** G2/Planform/wing_fuel_volume.py 34-42 *)
Definition fuel_volume (sref ar tc : R) : R := 90 / 100 * tc * pw sref (3 / 2) * Rpower ar (- (1 / 2)) * (55 / 100).
(** TF 45-60; thrust in newtons; diameter, length, inlet diameter, wetted area *)
Definition lbf : R := 45359237 / 100000000 * (980665 / 100000).
Definition turbofan (thrust : R) : R * R * R * R :=
  let s := thrust / lbf in
  let d := 254 / 10000 * (10827 / 10000 * pw s (4134 / 10000)) in
  let l := 24077 / 10000 * pw s (3876 / 10000) * (254 / 10000) in
  (d, l, d / sqrt (21 / 10), 11 / 10 * PI * d * l).
