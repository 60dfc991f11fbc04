(** * Electric ducted fans: the fan, battery and hybrid networks, superconducting turboelectric networks, sizing
    DF = trunk/SUAVE/Components/Energy/Networks/Ducted_Fan.py, BD = Battery_Ducted_Fan.py, SH = Serial_Hybrid_Ducted_Fan.py,
    TE = Turboelectric_HTS_Ducted_Fan.py, TD = Turboelectric_HTS_Dynamo_Ducted_Fan.py (same directory), TH = ../Processes/Thrust.py, GZ = ../Converters/Generator_Zero_Fid.py,
    FS = trunk/SUAVE/Methods/Propulsion/ducted_fan_sizing.py, ST = serial_HTS_turboelectric_sizing.py, SD = serial_HTS_dynamo_turboelectric_sizing.py,
    IP = trunk/SUAVE/Methods/Power/Turboelectric/Sizing/initialize_from_power.py
    One control point at a time; floats are reals; [None] is numpy's inf or nan. *)
From Coq Require Import Reals List Bool.
From Verif Require Import PyBase M_Opt P_Opt M_Elec M_Cryo.
Import ListNotations.
Local Open Scope R_scope.

(** ** The fan *)
(** TH 130-137 *)
Record air := Air { a_gamma : R; a_u0 : R; a_a0 : R; a_M0 : R; a_p0 : R }.
(** TH 144-147: the fan nozzle's exit velocity, static pressure and area ratio *)
Record jet := Jet { j_u : R; j_p : R; j_area : R }.
(** TH 149-157, with FS 119-124: no core flow, all of the flow through the fan *)
Record fan := Fan { f_mdhc : R; f_tref : R; f_pref : R; f_bypass : R; f_n : R }.
(** TH 165-171: the core's share is multiplied by 0 *)
Definition specific (x : air) (j : jet) : R :=
  1 / (a_gamma x * a_M0 x) * (1 * (a_gamma x * a_M0 x * a_M0 x * (j_u j / a_u0 x - 1) + j_area j * (j_p j / a_p0 x - 1))).
(** TH 180, 364: the stagnation temperature and pressure are those of the fan nozzle (FS 121-122) *)
Definition scale (f : fan) (tt pt : R) : R := sqrt (f_tref f / tt) * (pt / f_pref f).
(** TH 180-183 *)
Definition fan_thrust (f : fan) (x : air) (j : jet) (tt pt throttle : R) : R :=
  specific x j * a_a0 x * (1 + f_bypass f) * (f_mdhc f * scale f tt pt) * f_n f * throttle.
(** TH 190: thrust.outputs.power *)
Definition useful_power (f : fan) (x : air) (j : jet) (tt pt throttle : R) : R := fan_thrust f x j tt pt throttle * a_u0 x.
(** DF 140-143, 156: results.power *)
Definition fan_power (f : fan) (x : air) (j : jet) (tt pt throttle : R) : option R :=
  match quo (j_u j) (a_u0 x) with None => None | Some r =>
  match quo 2 (1 + r) with None => None | Some e => quo (useful_power f x j tt pt throttle) e end end.
(** DF 123, TH 177, 187: a fuel to air ratio of 0 gives a consumption of 0, or nan for no thrust; fmax turns nan into 0 *)
Definition fan_fuel (f : fan) (x : air) (j : jet) (tt pt throttle g : R) : R :=
  match quo (0 * g) (specific x j * a_a0 x * (1 + f_bypass f)) with None => 0 | Some s => Rmax (fan_thrust f x j tt pt throttle * s / g) 0 end.
(** TH 316-368: mass flow and the non-dimensional flow for the thrust [total] *)
Definition size_fan (f : fan) (x : air) (j : jet) (tt pt total : R) : fan * R :=
  let m := total / (specific x j * a_a0 x * (1 + f_bypass f) * f_n f * 1) in
  (Fan (m / scale f tt pt) (f_tref f) (f_pref f) (f_bypass f) (f_n f), m).
(** FS 34-45, 163 (ST 64-75, 198 and SD 72-83, 208): [planet] is bound only where no conditions are given *)
Definition sizing_case (conditions : bool) (mach altitude : option R) : result (R * R) :=
  if conditions then Err UnboundLocalError
  else match mach, altitude with Some m, Some h => Ok (m, h) | _, _ => Err NameError end.

(** ** Battery and hybrid *)
(** current and power to the battery (power negative when drawn), the recorded current, the fuel flow *)
Record flows := Flows { b_current : R; b_power : R; b_recorded : R; b_fuel : R }.
(** BD 106-115, SH 110-130: the controller's current and the power at its input *)
Definition drive (v eta_m eta_e throttle p : R) : option (R * R) :=
  match quo p eta_m with None => None | Some mp =>
  match quo mp (esc_voltage throttle v) with None => None | Some iout => if Req_EM_T eta_e 0 then None else Some (esc_current eta_e throttle v iout) end end.
(** BD 106-148 *)
Definition battery_fan (v eta_m eta_e throttle p avionics payload : R) : option flows :=
  match drive v eta_m eta_e throttle p with None => None | Some (i, pin) =>
    Some (Flows (i + (avionics + payload) / v) (- (pin + (avionics + payload))) i 0) end.
(** SH 99-158, GZ 80-87 *)
Definition hybrid_fan (v eta_m eta_e throttle p avionics payload max_power sfc : R) : option flows :=
  match drive v eta_m eta_e throttle p with None => None | Some (i, _) =>
    Some (Flows (i + (avionics + payload) / v - max_power / v) (- (v * i + (avionics + payload)) + max_power) i (max_power * sfc)) end.

(** ** Superconducting turboelectric networks *)
Record hts := Hts { h_n : R; h_fans : R; h_leads : R; h_supplies : R; h_motor : R; h_gear : R; h_esc : R; h_ccs : R;
  h_share : R; h_is_fuel : R; h_energy : R; h_eff : R }.
Record demand := Demand { d_motor : R; d_esc : R; d_rotor : R; d_leads : R; d_ccs : R; d_cooler : R;
  d_load : R; d_cryogen : R; d_each : R; d_fuel : R; d_mass : R }.
(** TE 170-206, TD 180-211: from the loads to the fuel. [cooler] is the cryocooler's power and [hx] the cryogen's flow for a heat load; efficiencies of 0 give inf *)
Definition finish (h : hts) (cooler hx : R -> R) (motor esc rotor leads ccs load : R) : demand :=
  let cool_share := 1 - h_share h in
  let cp := if Req_EM_T cool_share 0 then 0 else cooler (cool_share * load) in
  let cm := if Req_EM_T (h_share h) 0 then 0 else hx (h_share h * load) in
  let each := (motor + esc + rotor + leads + ccs + cp) / h_supplies h in
  let fuel := h_supplies h * fuel_rate each (h_energy h) (h_eff h) in
  Demand motor esc rotor leads ccs cp load cm each fuel (fuel + cm * (1 - h_is_fuel h)).
(** TE 118-206: [p] thrust.outputs.power, [coil], [heat] one rotor's power and heat load, [lp], [lq] one lead's power and heat *)
Definition with_leads (h : hts) (cooler hx : R -> R) (p coil heat lp lq : R) : demand :=
  let motor := p / h_motor h in
  let rotor := coil * h_fans h in
  let ccs := (lp * h_leads h + rotor) / h_ccs h - (lp * h_leads h + rotor) in
  finish h cooler hx motor (motor / h_esc h - motor) rotor (h_n h * (lp * h_leads h)) (h_n h * ccs) (heat * h_n h + h_n h * (lq * h_leads h)).
(** TD 120-211: [e] the dynamo's efficiency at the current (also used for its controller, M_Cryo) *)
Definition with_dynamo (h : hts) (cooler hx : R -> R) (p coil heat e : R) : demand :=
  let motor := p / h_motor h in
  let shaft := if Req_EM_T coil 0 then 0 else coil / e in
  finish h cooler hx motor (motor / h_esc h - motor) (coil * h_fans h) (h_n h * shaft) (h_n h * (shaft / e)) (heat * h_n h + h_n h * (shaft - coil)).

(** ** Sizing *)
Record rated := Rated { r_motor : R; r_esc : R; r_supply : R; r_turbo : R }.
(** ST 169, 225-285: [work] the fan's specific work, [flow] the design mass flow, [rated_cooler] the cryocooler's power for a heat load *)
Definition size_leads (h : hts) (rated_cooler : R -> R) (work flow coil heat lp lq : R) : rated :=
  let shaft := work * flow in
  let motor_in := shaft / (h_motor h * h_gear h) in
  let out := 2 * lp + coil in
  let cool := heat + 2 * lq in
  let cp := if Rltb (h_share h) 1 then rated_cooler cool else 0 in
  Rated shaft motor_in out ((motor_in / h_esc h + (out / h_ccs h + cp)) * h_n h / h_supplies h).
(** SD 177, 236-304 *)
Definition size_dynamo (h : hts) (rated_cooler : R -> R) (work flow coil heat e : R) : rated :=
  let shaft := work * flow in
  let motor_in := shaft / (h_motor h * h_gear h) in
  let d := if Req_EM_T coil 0 then 0 else coil / e in
  let cool := heat + (d - coil) in
  let cp := if Rltb (h_share h) 1 then rated_cooler cool else 0 in
  Rated shaft motor_in (d / e) ((motor_in / h_esc h + (d / e + cp)) * h_n h / h_supplies h).
(** IP 39-55: the mass of a generator *)
Definition generator_mass (power pressure specific_power : R) : R := power / (pressure / 101325) / specific_power.
