(** * Rotors and propellers: blade elements, their wake and the propeller design

    Sources under /repo/trunk/SUAVE:
      Components/Energy/Converters/Rotor.py 208-585 (spin), 588-688 (frames)
      Methods/Aerodynamics/Common/Fidelity_Zero/Lift/BET_calculations.py 9-151
      Methods/Propulsion/Rotor_Wake/Fidelity_Zero/fidelity_zero_wake_convergence.py 65-192
      Methods/Propulsion/Rotor_Wake/Fidelity_Zero/compute_wake_contraction_matrix.py 15-64
      Methods/Propulsion/Rotor_Wake/Fidelity_Zero/compute_fidelity_zero_induced_velocity.py 15-95
      Methods/Propulsion/propeller_design.py 30-286
    Numbers are reals.  The arrays are modelled for one control point (all operations are made for each control point alone, except where said).
    The root finder (fsolve) is not modelled: its result, an angle for every blade element, is an input. *)
From Coq Require Import Reals List Bool Arith.
From Verif Require Import PyBase M_Opt M_Drag M_Rot M_Noise M_Evtol.
Import ListNotations.
Local Open Scope R_scope.
Local Open Scope list_scope.

(** numbers as numpy divides them *)
Inductive num := Fin (x : R) | PInf | NInf | NaN.
Definition quot (a b : R) : num :=
  if Req_EM_T b 0 then (if Rltb 0 a then PInf else if Rltb a 0 then NInf else NaN) else Fin (a / b).
(** x[x<0] = 0. *)
Definition clamped (x : num) : num := match x with Fin v => if Rltb v 0 then Fin 0 else Fin v | NInf => Fin 0 | _ => x end.

(** ** stations *)
(** Rotor.py 270-274; fewer than two stations have no difference *)
Definition deltar (r : list R) : result (list R) :=
  let d := diffs r in
  match d with
  | [] => Err IndexError
  | d0 :: d' => Ok (d0 / 2 :: map2 (fun a b => a / 2 + b / 2) (removelast d) d' ++ [last d 0 / 2])
  end.
(** 289 *)
Definition azimuths (na : nat) : list R := removelast (linspace 0 (2 * PI) (S na)).
(** np.mean, np.average *)
Definition mean (l : list R) : R := total l / INR (length l).
(** shapes: np.repeat of an array of n entries without an axis, with a tuple of k repeats; broadcasting of the last dimension; an in-place sum
    keeps its own shape.  294-298: [sweep] has one entry per station; psi_2d is (., nr, na) *)
Definition repeat_shape (n k : nat) : result unit := if Nat.eqb k 1 || Nat.eqb k n then Ok tt else Err ValueError.
Definition broadcast (a b : nat) : result nat := if Nat.eqb a b then Ok a else if Nat.eqb a 1 then Ok b else if Nat.eqb b 1 then Ok a else Err ValueError.
Definition in_place (into from : nat) : result unit := if Nat.eqb from into || Nat.eqb from 1 then Ok tt else Err ValueError.
Definition swept (sweep : list R) (na : nat) : result bool :=
  if existsb (fun s => if Req_EM_T s 0 then false else true) sweep then
    bind (repeat_shape (length sweep) 2) (fun _ => bind (broadcast (1 + na) na) (fun w => bind (in_place na w) (fun _ => Ok true)))
  else Ok false.

(** ** blade sections: BET_calculations.py *)
Inductive section :=
| Formula (tc : R)                                        (* no polars: tc is the thickness to chord ratio *)
| Polars (airfoils : list ((R -> R -> R) * (R -> R -> R))) (loc : nat).   (* lift and drag of Reynolds number and incidence; the station's airfoil *)
(** 86-90 *)
Definition stall_lift (tc Re : R) : R :=
  let t := tc * 100 in
  let m := - (9 / 10000) * (t * t * t) + 217 / 10000 * (t * t) - 442 / 10000 * t + 7005 / 10000 in
  (if Rltb m (7 / 10) then 7 / 10 else m) * pw (Re / (9 * 1000000)) (1 / 10).
(** 100-101 *)
Definition karman_tsien (Ma cl : R) : R :=
  if Rltb Ma 1 && Rltb 0 cl then cl / (sqrt (1 - Ma * Ma) + Ma * Ma / (1 + sqrt (1 - Ma * Ma)) * cl / 2) else cl.
(** 93-104 *)
Definition formula_lift (tc alpha Ma Re : R) : R :=
  let cl := 2 * PI * alpha in
  let cap := stall_lift tc Re in
  let cl := if Rltb cap cl then cap else cl in
  let cl := if Rltb alpha (PI / 2) then cl else 0 in
  karman_tsien Ma cl.
(** 107-108, propeller_design.py 169 *)
Definition drag_poly (cl : R) : R :=
  108 / 1000 * (cl * cl * cl * cl) - 2612 / 10000 * (cl * cl * cl) + 181 / 1000 * (cl * cl) - 139 / 10000 * cl + 278 / 10000.
Definition formula_drag (cl alpha Re : R) : R := if Rltb alpha (PI / 2) then drag_poly cl * pw (50000 / Re) (2 / 10) else 2.
(** 112 *)
Definition nonzero (cl : R) : R := if Req_EM_T cl 0 then 1 / 1000000 else cl.
(** 53-112: lift, drag *)
Definition section_coefficients (s : section) (alpha Ma Re : R) : R * R :=
  match s with
  | Formula tc => let cl := formula_lift tc alpha Ma Re in (nonzero cl, formula_drag cl alpha Re)
  | Polars l loc => match nth_error l loc with Some (f, g) => (nonzero (f Re alpha), g Re alpha) | None => (nonzero 0, 0) end
  end.
(** 143-149, with the default exponents *)
Definition inflow_ratio (r Rt Wa Wt : R) : R := let l := r * Wa / (Rt * Wt) in if Rltb 0 l then l else / 10 ^ 12.
Definition tip_loss (r Rt Wa Wt B : R) : R := 2 * acos (exp (- (B / 2 * (Rt / r - 1) / inflow_ratio r Rt Wa Wt))) / PI.
(** Rotor.py 422-426, propeller_design.py 173-177 *)
Definition heating (Ma : R) : R := 1 + 35 / 1000 * (Ma * Ma) + 45 / 100 * (1 + 178 / 100 * (Ma * Ma) - 1).
Definition compressible_drag (cd Ma T : R) : R :=
  let t := heating Ma in
  1 / t * pw (1 / (pw t (5 / 2) * (t * T + 1104 / 10) / (T + 1104 / 10))) (2 / 10) * cd.

(** ** wake: fidelity_zero_wake_convergence.py *)
Record air := { a_rho : R; a_nu : R; a_sound : R; a_temp : R }.
Record station := { s_r : R; s_c : R; s_twist : R; s_section : section }.
Record rotor := { x_blades : R; x_tip : R; x_hub : R; x_stations : list station; x_na : nat }.
(** 124-125, 187-188 *)
Definition axial_flow (U Ua psi : R) : R := / 2 * Ua + / 2 * U * sin psi.
Definition tangential_flow (U Ut psi : R) : R := / 2 * Ut + / 2 * U * cos psi.
(** 189-190 *)
Definition va_vt (U Ua Ut psi : R) : R * R := (axial_flow U Ua psi - Ua, Ut - tangential_flow U Ut psi).
Definition speed (Wa Wt : R) : R := sqrt (Wa * Wa + Wt * Wt).
(** lift and drag coefficients of a station: BET 53-56 and the section *)
Definition coefficients (k : air) (s : station) (pitch Wa Wt : R) : R * R :=
  let W := speed Wa Wt in
  section_coefficients (s_section s) (s_twist s + pitch - arctan2 Wa Wt) (W / a_sound k) (W * s_c s / a_nu k).
(** 132-136 *)
Definition residual (k : air) (x : rotor) (s : station) (pitch U Ua Ut psi : R) : R :=
  let Wa := axial_flow U Ua psi in let Wt := tangential_flow U Ut psi in
  let vt := Ut - Wt in
  let cl := fst (coefficients k s pitch Wa Wt) in
  let l := inflow_ratio (s_r s) (x_tip x) Wa Wt in
  let q := 4 * l * x_tip x / (PI * x_blades x * s_r s) in
  vt * (4 * PI * s_r s / x_blades x) * tip_loss (s_r s) (x_tip x) Wa Wt (x_blades x) * sqrt (1 + q * q) - / 2 * speed Wa Wt * s_c s * cl.

(** ** one blade element: Rotor.py 402-435, 463-464 *)
Record element := { e_Wa : R; e_Wt : R; e_F : R; e_gamma : R; e_cl : R; e_cd : R; e_thrust : R; e_torque : R; e_va : R; e_vt : R }.
Definition blade_element (k : air) (x : rotor) (pitch : R) (s : station) (dr Ua Ut va vt : R) : element :=
  let Wa := va + Ua in let Wt := Ut - vt in
  let F := tip_loss (s_r s) (x_tip x) Wa Wt (x_blades x) in
  let cs := coefficients k s pitch Wa Wt in
  let cl := fst cs in
  let gamma := / 2 * speed Wa Wt * s_c s * cl in
  let cd := compressible_drag (snd cs) (speed Wa Wt / a_sound k) (a_temp k) in
  let eps := cd / cl in
  {| e_Wa := Wa; e_Wt := Wt; e_F := F; e_gamma := gamma; e_cl := cl; e_cd := cd;
     e_thrust := a_rho k * (gamma * (Wt - eps * Wa)) * dr; e_torque := a_rho k * (gamma * (Wa + eps * Wt) * s_r s) * dr;
     e_va := F * va; e_vt := F * vt |}.
(** 463-466, 487-492: in-plane force of a station; [es] are its elements around the azimuth *)
Definition in_plane (k : air) (s : station) (omega dr : R) (psi : R) (e : element) : R :=
  let w := / 2 * a_rho k * s_c s in
  w * e_cd e * ((omega * s_r s) * (omega * s_r s)) * dr * sin psi + w * e_cl e * ((omega * s_r s) * (omega * s_r s)) * dr * cos psi.

(** ** spin *)
Record case := { c_air : air; c_omega : R; c_pitch : R; c_throttle : R }.
(** 265-266 *)
Definition axial_speed (v : R) : R := if Req_EM_T v 0 then 1 / 1000000 else v.
(** what both analyses hand to the totals: thrust, torque and in-plane force of one blade *)
Record loads := { l_thrust : R; l_torque : R; l_drag : R }.
(** 371-379, 432-433, 487-492: the analysis without azimuth; [wake] is the angle found for each station *)
Fixpoint axial_elements (c : case) (x : rotor) (V : R) (l : list (station * R)) (wake : list R) : list (station * R * element) :=
  match l, wake with
  | (s, dr) :: l', psi :: wake' =>
      let Ua := V in let Ut := c_omega c * s_r s in
      let U := sqrt (Ua * Ua + Ut * Ut + 0 * 0) in
      let v := va_vt U Ua Ut psi in
      (s, dr, blade_element (c_air c) x (c_pitch c) s dr Ua Ut (fst v) (snd v)) :: axial_elements c x V l' wake'
  | _, _ => []
  end.
Definition axial_loads (c : case) (x : rotor) (es : list (station * R * element)) : loads := {|
  l_thrust := total (map (fun t => e_thrust (snd t)) es);
  l_torque := total (map (fun t => e_torque (snd t)) es);
  l_drag := total (map (fun t => mean (map (fun psi => in_plane (c_air c) (fst (fst t)) (c_omega c) (snd (fst t)) psi (snd t)) (azimuths (x_na x)))) es) |}.
(** 301-379, 438-466: the analysis around the azimuth; [wind] is the velocity in the rotor's axes (its first component after 265-266), [wake]
    gives an angle for every station and azimuth.  306: in-plane velocities of a millimetre per second and less are left out (of one control
    point; the code tests whether any control point has more) *)
Definition crosswind (wind : v3) (psi : R) : R * R :=
  if Rltb (1 / 1000) (Rabs (vy wind)) || Rltb (1 / 1000) (Rabs (vz wind))
  then (- vz wind * sin psi + - vy wind * cos psi, vz wind * cos psi + vy wind * sin psi) else (0, 0).
Definition disc_element (c : case) (x : rotor) (wind : v3) (s : station) (dr : R) (p : R * R) : element :=
  let Ua := vx wind in
  let uv := crosswind wind (fst p) in
  let Ut := c_omega c * s_r s - fst uv in
  let U := sqrt (Ua * Ua + Ut * Ut + snd uv * snd uv) in
  let v := va_vt U Ua Ut (snd p) in
  blade_element (c_air c) x (c_pitch c) s dr Ua Ut (fst v) (snd v).
Fixpoint disc_elements (c : case) (x : rotor) (wind : v3) (l : list (station * R)) (wake : list (list R)) : list (station * R * list (R * element)) :=
  match l, wake with
  | (s, dr) :: l', row :: wake' =>
      (s, dr, map (fun p => (fst p, disc_element c x wind s dr p)) (combine (azimuths (x_na x)) row)) :: disc_elements c x wind l' wake'
  | _, _ => []
  end.
Definition disc_loads (c : case) (es : list (station * R * list (R * element))) : loads := {|
  l_thrust := total (map (fun t => mean (map (fun pe => e_thrust (snd pe)) (snd t))) es);
  l_torque := total (map (fun t => mean (map (fun pe => e_torque (snd pe)) (snd t))) es);
  l_drag := total (map (fun t => mean (map (fun pe => in_plane (c_air c) (fst (fst t)) (c_omega c) (snd (fst t)) (fst pe) (snd pe)) (snd t))) es) |}.
(** 495-525 *)
Record report := { o_thrust : R; o_torque : R; o_power : R; o_drag : R; o_Cq : num; o_Ct : num; o_Cp : num; o_Crd : num; o_etap : num; o_FoM : num;
  o_thrust_per_blade : R; o_torque_per_blade : R; o_tip_mach : R }.
Definition at_rest (omega : R) (x : num) : num := if Req_EM_T omega 0 then Fin 0 else x.
Definition report_of (c : case) (x : rotor) (V : R) (l : loads) : report :=
  let B := x_blades x in let rho := a_rho (c_air c) in let omega := c_omega c in
  let thrust := B * l_thrust l in let torque := B * l_torque l in let drag := B * l_drag l in
  let power := omega * torque in
  let n := omega / (2 * PI) in let D := 2 * x_tip x in
  let Cq := quot torque (rho * (n * n) * (D * D * D * D * D)) in
  let Ct := quot thrust (rho * (n * n) * (D * D * D * D)) in
  let Cp := quot power (rho * (n * n * n) * (D * D * D * D * D)) in
  let Crd := quot drag (rho * (n * n) * (D * D * D * D)) in
  let etap := quot (V * thrust) power in
  let A := PI * (x_tip x * x_tip x - x_hub x * x_hub x) in
  let FoM := if Rltb (thrust / (2 * rho * A)) 0 then NaN else quot (thrust * sqrt (thrust / (2 * rho * A))) power in
  let off := negb (Rltb 0 (c_throttle c)) in
  let z v := if off then 0 else v in
  let still v := if Req_EM_T omega 0 then 0 else v in
  let th := still (if Rltb omega 0 then - z thrust else z thrust) in
  {| o_thrust := th; o_torque := still (z torque); o_power := still (z power); o_drag := still (z drag);
     o_Cq := clamped Cq; o_Ct := at_rest omega (clamped Ct); o_Cp := at_rest omega (clamped Cp); o_Crd := Crd;
     o_etap := at_rest omega etap; o_FoM := FoM; o_thrust_per_blade := th / B; o_torque_per_blade := still (z torque) / B;
     o_tip_mach := omega * x_tip x / a_sound (c_air c) |}.
(** 265-585 of one control point; [v]: the velocity in the rotor's axes *)
Definition spin_axial (c : case) (x : rotor) (v : v3) (wake : list R) : result report :=
  bind (deltar (map s_r (x_stations x))) (fun dr =>
  let V := axial_speed (vx v) in
  Ok (report_of c x V (axial_loads c x (axial_elements c x V (combine (x_stations x) dr) wake)))).
Definition spin_disc (c : case) (x : rotor) (v : v3) (wake : list (list R)) : result report :=
  bind (deltar (map s_r (x_stations x))) (fun dr =>
  let w := V3 (axial_speed (vx v)) (vy v) (vz v) in
  Ok (report_of c x (vx w) (disc_loads c (disc_elements c x w (combine (x_stations x) dr) wake)))).

(** ** frames: Rotor.py 256-262, 529-531, 588-688 *)
(** scipy Rotation.from_rotvec(v).as_matrix(): rotation about v by its length (Rodrigues) *)
Definition rotvec (v : v3) : m3 :=
  let t := sqrt (vdot v v) in
  if Req_EM_T t 0 then eye3 else
  let x := vx v / t in let y := vy v / t in let z := vz v / t in let c := cos t in let s := sin t in let k := 1 - cos t in
  M3 (V3 (c + k * x * x) (k * x * y - s * z) (k * x * z + s * y))
     (V3 (k * x * y + s * z) (c + k * y * y) (k * y * z - s * x))
     (V3 (k * x * z - s * y) (k * y * z + s * x) (c + k * z * z)).
(** 637-652 *)
Definition body_to_prop_vel (angles : v3) (y_axis_rotation : R) : m3 :=
  mprod (mprod (rotvec (V3 0 PI 0)) (rotvec (V3 (vx angles) (vy angles + y_axis_rotation) (vz angles)))) (rotvec (V3 0 PI 0)).
(** 679-683: the inverse of a rotation is its transpose *)
Definition prop_vel_to_body (angles : v3) (y : R) : m3 := mtranspose (body_to_prop_vel angles y).
(** 256-262 *)
Definition rotor_wind (body2inertial : m3) (angles : v3) (y : R) (Vv : v3) : v3 :=
  mapply (mtranspose (body_to_prop_vel angles y)) (mapply (mtranspose body2inertial) Vv).
(** 529-531 *)
Definition thrust_vector (angles : v3) (y thrust : R) : v3 := mapply (mtranspose (mtranspose (body_to_prop_vel angles y))) (V3 thrust 0 0).

(** ** wake behind the disc *)
(** compute_fidelity_zero_induced_velocity.py 69, compute_wake_contraction_matrix.py 44: growth of the induced velocity *)
Definition development (s Rt : R) : R := 1 + s / sqrt (s * s + Rt * Rt).
(** compute_wake_contraction_matrix.py 50-60 of one control point and wake age; [V]: speed, [va]: mean induced velocity at the stations, [Kd] *)
Definition contraction (V Kd a b : R) : R := (2 * V + (b + a)) / (2 * V + Kd * (b + a)).
Fixpoint wake_radii (V Kd rp : R) (l : list (R * R)) : list R :=
  match l with
  | (r0, v0) :: (((r1, v1) :: _) as l') => rp :: wake_radii V Kd (sqrt (rp * rp + (r1 * r1 - r0 * r0) * contraction V Kd v0 v1)) l'
  | _ :: [] => [rp]
  | [] => []
  end.
(** 62 *)
Definition wake_contraction (V s Rt hub : R) (l : list (R * R)) : list R := map2 (fun rp p => rp / fst p) (wake_radii V (development s Rt) hub l) l.

(** interp1d within its range *)
Fixpoint interp (l : list (R * R)) (y : R) : R :=
  match l with
  | (y0, v0) :: (((y1, v1) :: _) as l') => if Rltb y1 y then interp l' y else v0 + (v1 - v0) / (y1 - y0) * (y - y0)
  | (_, v0) :: [] => v0
  | [] => 0
  end.
(** compute_fidelity_zero_induced_velocity.py 50-93: one propeller, one point of the wing; None: the point is outside its slipstream *)
Record slip := { w_x : R; w_y : R; w_tip : R; w_rot : R; w_r : list R; w_va : list R; w_vt : list R }.
Definition spanwise (y : R) (r v : list R) : list (R * R) := rev (combine (map (fun r => y - r) r) v) ++ combine (map (fun r => y + r) r) v.
Definition first (l : list R) : R := hd 0 l.
Definition slipstream (p : slip) (xc yc : R) : option (R * R * R) :=
  let a := first (w_r p) in let b := last (w_r p) 0 in
  if (Rltb (w_y p - b) yc && Rltb yc (w_y p - a)) || (Rltb (w_y p + a) yc && Rltb yc (w_y p + b)) then
    let kd := development (xc - w_x p) (w_tip p) in
    let va := kd * interp (spanwise (w_y p) (w_r p) (w_va p)) yc in
    let vt := interp (spanwise (w_y p) (w_r p) (map (fun v => v * w_rot p) (w_vt p))) yc in
    Some (va, 0, if Rltb yc (w_y p) then - kd * vt else kd * vt)
  else None.
(** 41-95: each propeller writes into the first control point's row.  The outputs used are those of the first propeller when the propellers are
    declared identical (44-49), so the caller passes them so *)
Definition slipstreams (ps : list slip) (ctrl : nat) (xc yc : R) (i : nat) : R * R * R :=
  fold_left (fun v p => match slipstream p xc yc with Some w => if Nat.eqb i 0 then w else v | None => v end) ps (0, 0, 0).

(** ** propeller design: propeller_design.py *)
Record brief := { d_n : nat; d_blades : R; d_tip : R; d_hub : R; d_omega : R; d_speed : R; d_cl : R; d_thrust : option R; d_power : option R;
  d_air : air; d_cd : R -> R; d_alpha : R -> R }.   (* d_cd, d_alpha: section drag and incidence for the design lift at a Reynolds number *)
(** 74-75 *)
Definition d_V (d : brief) : R := if Req_EM_T (d_speed d) 0 then 1 / 1000000 else d_speed d.
(** 104-108 *)
Definition chis (d : brief) : list R := firstn (d_n d) (linspace (d_hub d / d_tip d) 1 (S (d_n d))).
Definition lamda (d : brief) : R := d_V d / (d_omega d * d_tip d).
(** 139-196 at one station *)
Record blade_point := { p_i1 : R; p_i2 : R; p_j1 : R; p_j2 : R; p_chord : R; p_beta : R }.
Definition design_point (d : brief) (zeta chi : R) : blade_point :=
  let V := d_V d in let lam := lamda d in
  let tanphit := lam * (1 + zeta / 2) in
  let phit := atan tanphit in
  let tanphi := tanphit / chi in
  let f := d_blades d / 2 * (1 - chi) / sin phit in
  let F := 2 / PI * acos (exp (- f)) in
  let phi := atan tanphi in
  let G := F * (d_omega d * (chi * d_tip d) / V) * cos phi * sin phi in
  let Wc := 4 * PI * lam * G * V * d_tip d * zeta / (d_cl d * d_blades d) in
  let Ma := Wc / a_sound (d_air d) in let RE := Wc / a_nu (d_air d) in
  let eps := compressible_drag (d_cd d RE) Ma (a_temp (d_air d)) / d_cl d in
  let a := zeta / 2 * (cos phi * cos phi) * (1 - eps * tan phi) in
  let W := V * (1 + a) / sin phi in
  let i1 := 4 * chi * G * (1 - eps * tan phi) in
  let j1 := 4 * chi * G * (1 + eps / tan phi) in
  {| p_i1 := i1; p_i2 := lam * (i1 / (2 * chi)) * (1 + eps / tan phi) * sin phi * cos phi;
     p_j1 := j1; p_j2 := j1 / 2 * (1 - eps * tan phi) * (cos phi * cos phi);
     p_chord := Wc / W; p_beta := d_alpha d RE + phi |}.
(** 196-202 *)
Record sums := { q_i1 : R; q_i2 : R; q_j1 : R; q_j2 : R }.
Definition integrals (d : brief) (zeta : R) : sums :=
  let ps := map (design_point d zeta) (chis d) in
  let dchi := nth 1 (chis d) 0 - nth 0 (chis d) 0 in
  {| q_i1 := total (map (fun p => p_i1 p * dchi) ps); q_i2 := total (map (fun p => p_i2 p * dchi) ps);
     q_j1 := total (map (fun p => p_j1 p * dchi) ps); q_j2 := total (map (fun p => p_j2 p * dchi) ps) |}.
(** 68-72, 89-95: which of the two is given *)
Inductive goal := ForThrust (Tc : R) | ForPower (Pc : R).
Definition goal_of (d : brief) : result goal :=
  let rho := a_rho (d_air d) in let V := d_V d in
  match d_thrust d, d_power d with
  | Some t, None => Ok (ForThrust (2 * t / (rho * (V * V) * PI * (d_tip d * d_tip d))))
  | None, Some p => Ok (ForPower (2 * p / (rho * (V * V * V) * PI * (d_tip d * d_tip d))))
  | _, _ => Err GenericException
  end.
(** 205, 212: a request of zero leaves the next displacement ratio unset *)
Definition set_goal (g : goal) : bool := let v := match g with ForThrust t => t | ForPower p => p end in if Req_EM_T v 0 then false else true.
(** 208-209 *)
Definition capped (q : sums) (Tc : R) : R := let m := q_i2 q * ((q_i1 q / (2 * q_i2 q)) * (q_i1 q / (2 * q_i2 q))) in if Rltb Tc m then Tc else m.
Definition next_zeta (g : goal) (q : sums) : R :=
  match g with
  | ForThrust Tc => let h := q_i1 q / (2 * q_i2 q) in h - sqrt (h * h - capped q Tc / q_i2 q)
  | ForPower Pc => let h := q_j1 q / (q_j2 q * 2) in - h + sqrt (h * h + Pc / q_j2 q)
  end.
(** 196 reads the second station *)
Definition has_two (d : brief) : bool := Nat.leb 2 (length (chis d)).
(** 133-219: [fuel] bounds the number of rounds looked at; None: still running.  The result is the displacement ratio the last round started from *)
Fixpoint design_loop (fuel : nat) (d : brief) (g : goal) (zeta : R) : option R :=
  match fuel with
  | O => None
  | S k => let z := next_zeta g (integrals d zeta) in if Rltb (/ 10 ^ 10) (Rabs (zeta - z)) then design_loop k d g z else Some zeta
  end.
(** 222-286 *)
Record design := { g_thrust : R; g_power : R; g_Ct : R; g_Cp : R; g_torque : R; g_chord : list R; g_beta : list R; g_r : list R; g_solidity : R;
  g_design_thrust : option R; g_design_power : option R }.
Fixpoint trapz (x y : list R) : R :=
  match x, y with a :: ((b :: _) as x'), u :: ((v :: _) as y') => (b - a) * (u + v) / 2 + trapz x' y' | _, _ => 0 end.
Definition propeller_design (fuel : nat) (d : brief) : result (option design) :=
  bind (goal_of d) (fun g =>
  if negb (has_two d) then Err IndexError else
  if set_goal g then
  match design_loop fuel d g (1 / 10) with
  | None => Ok None
  | Some zl =>
      let q := integrals d zl in
      let zeta := next_zeta g q in
      let Tc := q_i1 q * zeta - q_i2 q * (zeta * zeta) in
      let Pc := q_j1 q * zeta + q_j2 q * (zeta * zeta) in
      let rho := a_rho (d_air d) in let V := d_V d in let Rt := d_tip d in
      let thrust := Tc * rho * (V * V) * PI * (Rt * Rt) / 2 in
      let power := Pc * rho * (V * V * V) * PI * (Rt * Rt) / 2 in
      let n := d_omega d / (2 * PI) in let D := 2 * Rt in
      let ps := map (design_point d zl) (chis d) in
      let c := map p_chord ps in let r := map (fun chi => chi * Rt) (chis d) in
      Ok (Some {| g_thrust := thrust; g_power := power;
        g_Ct := thrust / (rho * (n * n) * (D * D * D * D)); g_Cp := power / (rho * (n * n * n) * (D * D * D * D * D));
        g_torque := power / d_omega d; g_chord := c; g_beta := map p_beta ps; g_r := r;
        g_solidity := trapz r (map (fun c => d_blades d * c) c) / (PI * (Rt * Rt));
        g_design_thrust := match d_power d with None => d_thrust d | Some _ => Some thrust end;
        g_design_power := match d_power d with None => Some power | Some p => Some p end |})
  end else Err UnboundLocalError).
