(** * Electric and piston power trains: model

    Sources under /repo/trunk/SUAVE/Components/Energy (Converters, Distributors, Processes, Networks) and
    /repo/trunk/SUAVE/Methods/Propulsion/electric_motor_sizing.py, Methods/Power/Fuel_Cell.
    Numbers are reals and one control point is modelled at a time.  A not-a-number that the code replaces is made explicit. *)
From Coq Require Import Reals List Bool Arith.
From Verif Require Import PyBase M_Opt M_Stab M_Modes.
Import ListNotations.
Local Open Scope R_scope.
Local Open Scope list_scope.

(** ** Converters/Motor.py *)
Record motor := Motor { m_res : R; m_io : R; m_kv : R; m_gear : R; m_gear_eff : R; m_exp : R; m_radius : R }.
(** 101, 155, 200, 253 *)
Definition no_load (m : motor) : R := m_io m + m_exp m * (1 - m_gear_eff m).
(** 103, 157, 202 *)
Definition kv_out (m : motor) : R := m_kv m / m_gear m.
(** 117, 162 *)
Definition motor_torque (m : motor) (v w : R) : R := ((v - w / kv_out m) / m_res m - no_load m) / kv_out m.
(** 112-123: speed and torque.  The square root of a negative number, and 0/0 (when the propeller loads nothing), are
    not-a-number, which line 115 turns into 0 *)
Definition motor_omega (m : motor) (rho cp v : R) : R * R :=
  let Res := m_res m in let io := no_load m in let kv := kv_out m in
  let r5 := m_radius m * m_radius m * m_radius m * m_radius m * m_radius m in
  let p32 := Rpower PI (3 / 2) in
  let inside := - 16 * cp * io * rho * (kv * kv * kv) * r5 * (Res * Res) + 16 * cp * rho * v * (kv * kv * kv) * r5 * Res + PI * PI * PI in
  let den := 8 * cp * (kv * kv) * r5 * Res * rho in
  let w := match half_power inside with
           | None => 0
           | Some s => if zero den then 0 else p32 * (s - p32) / den
           end in
  (w, motor_torque m v w).
(** 206-212: voltage, current, efficiency *)
Definition voltage_current (m : motor) (q w : R) : R * R * R :=
  let v := (q * kv_out m + no_load m) * m_res m + w / kv_out m in
  let i := (v - w / kv_out m) / m_res m in
  (v, i, (1 - no_load m / i) * (1 - i * m_res m / v)).
(** 246-263; [w] is the speed stored by the last call of omega *)
Definition motor_current (m : motor) (v w : R) : R * R :=
  let i := (v - w * m_gear m / m_kv m) / m_res m in
  let i := if Rltb i 0 then 0 else i in
  (i, (1 - no_load m / i) * (1 - i * m_res m / v)).

(** ** Converters/Motor_Lo_Fid.py *)
(** 101-118 *)
Definition lofi_omega (m : motor) (etam v : R) : R * R :=
  let Res := m_res m in let io := no_load m in let kv := kv_out m in
  let inside := Res * Res * io * io - 2 * Res * etam * io * v - 2 * Res * io * v + etam * etam * v * v - 2 * etam * v * v + v * v in
  let inside := if Rltb inside 0 then 0 else inside in
  let w := kv * v / 2 + kv * sqrt inside / 2 - kv * Res * io / 2 + kv * etam * v / 2 in
  let q := motor_torque m v w in
  (if zero v then 0 else w, q).
(** 152-172 *)
Definition lofi_current (m : motor) (etam v : R) : R :=
  let i := (v - fst (lofi_omega m etam v) * m_gear m / m_kv m) / m_res m in if Rltb i 0 then 0 else i.
(** 199-214: output power and current *)
Definition power_lo (etam rated v_rate v : R) : R * R :=
  let p := rated * etam * v / v_rate in (p, if zero p then 0 else p / (etam * v)).

(** ** Converters/Propeller_Lo_Fid.py 97-106: thrust, power, power coefficient *)
Definition lofi_spin (etap radius rho V w q : R) : R * R * R :=
  let power := q * w in
  let n := w / (2 * PI) in
  let D := 2 * radius in
  (etap * power / V, power, power / (rho * (n * n * n) * (D * D * D * D * D))).

(** ** Converters/Gearbox.py 100-107: speed, torque, power *)
Definition gearbox (r1 r2 eta T1 w1 P1 : R) : R * R * R := (w1 * r1 / r2, T1 * r1 / r2 * eta, P1 * eta).

(** ** Distributors/Electronic_Speed_Controller.py *)
(** 66-78 *)
Definition esc_voltage (throttle vin : R) : R :=
  let eta := if Rltb 0 throttle then throttle else 0 in
  let eta := if Rltb eta 1 then eta else 1 in
  eta * vin.
(** 100-107: current and power *)
Definition esc_current (eff throttle vin iout : R) : R * R :=
  let i := iout * throttle / eff in (i, vin * i).

(** ** Converters/Solar_Panel.py 74; Distributors/Solar_Logic.py 118-129 at one point: power and current to the battery *)
Definition panel_power (flux area eff : R) : R := flux * area * eff.
Definition solar_logic (mppt volts pin pav ppay iesc : R) : R * R :=
  let level := pin * mppt - pav - ppay - volts * iesc in (level, level / volts).

(** ** Converters/Internal_Combustion_Engine.py.  [dens h d] is the density at altitude [h] and temperature deviation [d] *)
Record piston := Piston { p_sls : R; p_flat : R; p_psfc : R }.
(** Units['lb/hp/hr'] in kilograms per watt second *)
Definition lb_hp_hr : R := 45359237 / 100000000 / (7456998716 / 10000000) / 3600.
(** 69-93, 148-172 *)
Definition available (dens : R -> R -> R) (p : piston) (h delta : R) : R :=
  let virtual := if Rltb (h - p_flat p) 0 then 0 else h - p_flat p in
  let sigma := dens virtual delta / dens 0 0 in
  if Rltb h (p_flat p) then p_sls p else p_sls p * (sigma - 117 / 1000) / (883 / 1000).
(** 96-111: power, fuel flow, torque *)
Definition piston_power (dens : R -> R -> R) (p : piston) (h delta throttle speed : R) : R * R * R :=
  let out := available dens p h delta * throttle in
  let out := if Rltb out 0 then 0 else out in
  (out, Rmax (out * (p_psfc p * lb_hp_hr)) 0, out / speed).
(** 145, 176-188: throttle and fuel flow *)
Definition piston_throttle (dens : R -> R -> R) (p : piston) (h delta power : R) : R * R :=
  let t := power / available dens p h delta in
  let out := if Rltb power 0 then 0 else power in
  (t, Rmax (out * (p_psfc p * lb_hp_hr)) 0).

(** ** Networks *)
Definition v3 := (R * R * R)%type.
Definition vadd (a b : v3) : v3 := let '(x, y, z) := a in let '(x', y', z') := b in (x + x', y + y', z + z').
Definition vscale (k : R) (a : v3) : v3 := let '(x, y, z) := a in (k * x, k * y, k * z).
Definition norm3 (a : v3) : R := let '(x, y, z) := a in sqrt (x ^ 2 + y ^ 2 + z ^ 2).
(** a propeller as the networks see it: from the speed, its force, torque and power (what spin returns) *)
Definition spinner := R -> v3 * R * R.
(** a motor and propeller with its power coefficient *)
Record unit_ := Unit { u_motor : motor; u_cp : R; u_spin : spinner }.
(** what the loop stores for each unit: motor torque, propeller torque, the column propeller_thrust, speed, current *)
Record column := Column { k_qm : R; k_q : R; k_thrust : R; k_w : R; k_i : R }.
Record totals := Totals { t_F : v3; t_P : R; t_i : R; t_columns : list column; t_last : R }.
(** Networks/Battery_Propeller.py 174-226 (Solar.py 163-210, Lift_Cruise.py 198-247 and 315-366 are the same lines): one pass of the loop *)
Definition over (throttle x : R) : R := if Rltb 1 throttle then x * throttle else x.
Definition overv (throttle : R) (f : v3) : v3 := if Rltb 1 throttle then let '(x, y, z) := f in (x * throttle, y * throttle, z * throttle) else f.
Definition one_unit (rho v throttle factor : R) (t : totals) (u : unit_) : totals :=
  let '(w, qm) := motor_omega (u_motor u) rho (u_cp u) v in
  let '(F, Q, P) := u_spin u w in
  let P := over throttle P in
  let F := overv throttle F in
  let '(i, _) := motor_current (u_motor u) v w in
  let total := vadd (t_F t) (vscale factor F) in
  Totals total (t_P t + P * factor) (t_i t + factor * i) (t_columns t ++ [Column qm Q (norm3 total) w i]) P.
Definition start : totals := Totals (0, 0, 0) 0 0 [] 0.
(** 161-166: the first unit alone with a factor, or the first [num] units; a list that is too short is an IndexError *)
Fixpoint take_units (n : nat) (l : list unit_) : result (list unit_) :=
  match n, l with
  | O, _ => Ok []
  | S n', u :: r => bind (take_units n' r) (fun us => Ok (u :: us))
  | S _, [] => Err IndexError
  end.
Definition run_units (identical : bool) (num : nat) (units : list unit_) (rho v throttle : R) : result totals :=
  bind (take_units (if identical then 1 else num) units) (fun us =>
  Ok (fold_left (one_unit rho v throttle (if identical then INR num else 1)) us start)).
(** 148-281: thrust, current and power of the battery, electronics efficiency (pack_battery_conditions.py 89) *)
Record supply := Supply { s_thrust : v3; s_current : R; s_power : R; s_efficiency : R; s_totals : totals }.
Definition battery_propeller (identical : bool) (num : nat) (units : list unit_) (eff nominal extra rho volts throttle : R) : result supply :=
  bind (run_units identical num units rho (esc_voltage throttle volts) throttle) (fun t =>
  let '(iin, pin) := esc_current eff throttle volts (t_i t) in
  let power := - (pin + extra) in
  Ok (Supply (t_F t) (iin + extra / nominal) power (- t_last t / power) t)).
(** 269-278: charging *)
Definition charging (current voltage : R) (series parallel : nat) : supply :=
  let i := - current * INR parallel in
  let p := - i * (voltage * INR series) in
  Supply (0, 0, 0) i p (- p / p) start.
(** Networks/Lift_Cruise.py 172-446: two groups, each with its own controller *)
Definition lift_cruise (idp idl : bool) (nump numl : nat) (props lifts : list unit_) (effp effl extra rho volts throttle throttle_lift : R) : result supply :=
  bind (run_units idp nump props rho (esc_voltage throttle volts) throttle) (fun p =>
  bind (run_units idl numl lifts rho (esc_voltage throttle_lift volts) throttle_lift) (fun l =>
  let i := fst (esc_current effl throttle_lift volts (t_i l)) + fst (esc_current effp throttle volts (t_i p)) + extra / volts in
  let power := - (i * volts) in
  Ok (Supply (vadd (t_F p) (t_F l)) i power (- (t_last p + t_last l) / power) p))).
(** Networks/Solar.py 129-252 at one point: thrust, and power into the battery *)
Definition solar (identical : bool) (num : nat) (units : list unit_) (eff mppt volts flux area peff pav ppay rho throttle : R) : result (v3 * R) :=
  bind (run_units identical num units rho (esc_voltage throttle volts) throttle) (fun t =>
  let '(iin, _) := esc_current eff throttle volts (t_i t) in
  Ok (t_F t, fst (solar_logic mppt volts (panel_power flux area peff) pav ppay iin))).
(** Networks/Solar_Low_Fidelity.py 118-199: force (along x), power into the battery *)
Definition solar_low (m : motor) (etam etap radius eff mppt volts flux area peff pav ppay rho V throttle num : R) : R * R :=
  let v := esc_voltage throttle volts in
  let '(w, q) := lofi_omega m etam v in
  let '(F, _, _) := lofi_spin etap radius rho V w q in
  let F := over throttle F in
  let iesc := over throttle (fst (esc_current eff throttle volts (lofi_current m etam v)) * num) in
  (num * F, fst (solar_logic mppt volts (panel_power flux area peff) pav ppay iesc)).
(** Networks/Internal_Combustion_Propeller.py 99-156: [rpm] already in radians per second; thrust and fuel flow *)
Record ic_unit := ICUnit { x_engine : piston; x_spin : spinner }.
Fixpoint take_ic (n : nat) (l : list ic_unit) : result (list ic_unit) :=
  match n, l with
  | O, _ => Ok []
  | S n', u :: r => bind (take_ic n' r) (fun us => Ok (u :: us))
  | S _, [] => Err IndexError
  end.
Definition ic_step (dens : R -> R -> R) (h delta throttle speed factor : R) (t : v3 * R) (u : ic_unit) : v3 * R :=
  let '(_, fuel, _) := piston_power dens (x_engine u) h delta throttle speed in
  let '(F, _, _) := x_spin u speed in
  (vadd (fst t) (vscale factor (overv throttle F)), snd t + fuel * factor).
Definition ic_propeller (dens : R -> R -> R) (identical : bool) (num : nat) (us : list ic_unit) (h delta throttle speed : R) : result (v3 * R) :=
  bind (take_ic (if identical then 1 else num) us) (fun us =>
  Ok (fold_left (ic_step dens h delta throttle speed (if identical then INR num else 1)) us ((0, 0, 0), 0))).
(** Networks/Internal_Combustion_Propeller_Constant_Speed.py 109-156; [x_spin] with the pitch command applied; 154 returns F, the
    force of the propeller evaluated last (a NameError, here UnboundLocalError, when there is none) *)
Definition cs_step (dens : R -> R -> R) (h delta rpm factor : R) (t : option v3 * v3 * R) (u : ic_unit) : option v3 * v3 * R :=
  let '(F, _, P) := x_spin u rpm in
  let '(_, total, mdot) := t in
  (Some F, vadd total (vscale factor F), mdot + snd (piston_throttle dens (x_engine u) h delta P) * factor).
Definition ic_constant_speed (dens : R -> R -> R) (identical : bool) (num : nat) (us : list ic_unit) (h delta rpm : R) : result (v3 * R) :=
  bind (take_ic (if identical then 1 else num) us) (fun us =>
  match fold_left (cs_step dens h delta rpm (if identical then INR num else 1)) us (None, (0, 0, 0), 0) with
  | (Some F, _, mdot) => Ok (F, mdot)
  | (None, _, _) => Err UnboundLocalError
  end).

(** ** Processes/Solar_Radiation.py at one point; angles of the body in radians, latitude and longitude in degrees *)
Definition deg : R := PI / 180.
Definition Rfloor (x : R) : R := IZR (up x - 1).
Record sky := Sky { k_day0 : R; k_sec0 : R; k_time : R; k_lat : R; k_lon : R; k_alt : R; k_phi : R; k_theta : R; k_psi : R }.
(** 71-72 *)
Definition day (s : sky) : R := k_day0 s + Rfloor (k_time s / 86400).
Definition tutc (s : sky) : R := k_sec0 s + (k_time s - 86400 * Rfloor (k_time s / 86400)).
(** 84-99 *)
Definition eot (d : R) : R := let B := 360 / 365 * (d - 81) * PI / 180 in 987 / 100 * sin (2 * B) - 753 / 100 * cos B - 15 / 10 * sin B.
Definition hra (s : sky) : R := 15 * (tutc s / 3600 + (4 * k_lon s + eot (day s)) / 60 - 12) * PI / 180.
Definition declination (d : R) : R := - (2344 / 100) * cos (360 / 365 * (d + 10) * PI / 180) * PI / 180.
(** 102: the cosine of the zenith angle, and the angle *)
Definition cos_zenith (s : sky) : R :=
  sin (declination (day s)) * sin (k_lat s * deg) + cos (declination (day s)) * cos (k_lat s * deg) * cos (hra s).
Definition zenith (s : sky) : R := acos (cos_zenith s).
(** 105: the azimuth of the sun; np.arccos is missing *)
Definition azimuth (s : sky) : R :=
  sign (hra s) * Rabs ((cos (zenith s) * sin (k_lat s * deg) - sin (declination (day s))) / (sin (zenith s) * cos (k_lat s * deg))).
(** 75, 108, 111 *)
Definition tilt (s : sky) : R := acos (cos (k_theta s) * cos (k_phi s)).
Definition incidence (s : sky) : R :=
  acos (cos (zenith s) * cos (tilt s) + sin (zenith s) * sin (tilt s) * cos (azimuth s - (k_psi s - PI))).
(** 115-125: the radius is in metres, the thickness 9 in kilometres *)
Definition air_mass (psi alt : R) : R :=
  let r := 6371000 / 9 in
  let c := alt / 9000 in
  if Rltb alt 9000 then sqrt ((r + c) * (r + c) * (cos psi * cos psi) + 2 * r * (1 - c) - c * c + 1) - (r + c) * cos psi else 0.
(** 128: [0 ** 0.678] is 0 *)
Definition direct (am : R) : R := 1367 * Rpower (7 / 10) (if Rltb 0 am then Rpower am (678 / 1000) else 0).
(** 131-144 *)
Definition horizontal (id : R) (s : sky) : R :=
  id * (cos (k_lat s * deg) * cos (declination (day s)) * cos (hra s) + sin (k_lat s * deg) * sin (declination (day s))).
Definition solar_flux (s : sky) : R :=
  let psi := zenith s in
  let I := horizontal (direct (air_mass psi (k_alt s))) s * cos (incidence s) / cos psi in
  let I := if Rltb 9000 (k_alt s) then horizontal 1367 s * cos (incidence s) / cos psi else I in
  let I := if (Rltb psi (- PI / 2) || Rltb (9670995 / 100000 * PI / 180) psi)%bool then 0 else I in
  Rmax 0 I.

(** ** Methods/Propulsion/electric_motor_sizing.py *)
(** Units: revolutions per minute in radians per second *)
Definition rpm : R := 2 * PI / 60.
(** 43-60: resistance, no-load current, mass *)
Definition size_from_kv (kv : R) : R * R * R :=
  let res := 60000 * rpm ^ 2 / kv ^ 2 in (res, 2 / 10 / Rpower res (6 / 10), 50 * rpm / kv).
(** 81-98: resistance, no-load current, speed constant *)
Definition size_from_mass (mass : R) : R * R * R :=
  let kv := 50 * rpm / mass in
  let res := 60000 * rpm ^ 2 / kv ^ 2 in (res, 2 / 10 / Rpower res (6 / 10), kv).
(** 145 and 212-217: the two equations the search solves, for the shaft speed [wp / gear] *)
Definition constraint_1 (kv res v w etam io : R) : R := etam - (1 - io * res / (v - w / kv)) * (w / (v * kv)).
Definition constraint_2 (kv res v w q io : R) : R := ((v - w / kv) / res - io) / kv - q.
Definition sized (kv res : R) (m : motor) (v wp etam q : R) : Prop :=
  let w := wp / m_gear m in
  constraint_1 kv res v w etam (m_io m) = 0 /\ constraint_2 kv res v w q (m_io m) = 0.
Definition with_size (kv res : R) (m : motor) : motor := Motor res (m_io m) kv (m_gear m) (m_gear_eff m) (m_exp m) (m_radius m).

(** ** Methods/Power/Fuel_Cell *)
(** Discharge/zero_fidelity.py 35 (and Turboelectric/Discharge/zero_fidelity.py 33) *)
Definition fuel_rate (power energy eff : R) : R := power / (energy * eff).
Record cell := Cell { c_r : R; c_E : R; c_A : R; c_m : R; c_n : R; c_area : R; c_ideal : R; c_wall : R; c_density : R; c_porosity : R }.
(** Discharge/find_voltage_larminie.py 43-50; [r] in kilo-ohm square centimetres, [i] in milliamperes per square centimetre *)
Definition cell_voltage (c : cell) (i : R) : R := c_E c - c_r c * i - c_A c * ln i - c_m c * exp (c_n c * i).
(** Discharge/find_power_larminie.py 43: [i] mA/cm2 is 10 i A/m2 *)
Definition cell_power (c : cell) (i : R) : R := cell_voltage c i * (10 * i) * c_area c.
(** Discharge/larminie.py 52-54 *)
Definition larminie_rate (c : cell) (power energy i : R) : R := power / (energy * (cell_voltage c i / c_ideal c)).
(** Sizing/initialize_larminie_from_power.py 52-59: number of cells, maximum power, volume, mass *)
Definition Rceil (x : R) : R := - IZR (up (- x) - 1).
Definition size_stack (c : cell) (power i : R) : R * R * R * R :=
  let per := cell_power c i in
  let n := Rceil (power / per) in
  let volume := n * c_area c * c_wall c in
  (n, n * per, volume, volume * c_density c * c_porosity c).
