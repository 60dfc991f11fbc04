(** * Batteries: model

    Columns of n control points are functions of the row number, as in M_Mission; [mulv n A v]
    is np.dot(A,v).  The branches for "not a number" (Lithium_Ion.py 201-204 and the like) have no
    counterpart over the real numbers. *)
From Coq Require Import Reals List Bool Arith ZArith.
From Verif Require Import M_Opt M_Mission M_Util.
Import ListNotations.
Local Open Scope R_scope.
Local Open Scope list_scope.

(** x[x>1] = 1 then x[x<0] = 0, or the other way round: same numbers *)
Definition clip01 (x : R) : R := let x := if Rltb 1 x then 1 else x in if Rltb x 0 then 0 else x.
Definition clip01' (x : R) : R := let x := if Rltb x 0 then 0 else x in if Rltb 1 x then 1 else x.
(** Units.hr *)
Definition hour : R := 3600.
(** scipy cumtrapz(f, x=t) with the starting value put in front *)
Definition cumtrapz (f t : col) : col := fun i => Sum i (fun k => (t (S k) - t k) * (f k + f (S k)) / 2).

(** ** trunk/SUAVE/Components/Energy/Storages/Batteries/Constant_Mass/Lithium_Ion.py: energy_calc *)
(** 136-149: what is read from the battery, its inputs and the numerics *)
Record li_in := LiIn {
  q_current : col; q_power : col; q_Vmax : R; q_mass : R; q_Cp : R; q_T : col; q_Emax : R; q_E : col;
  q_Q : col; q_Rgrowth : R; q_Egrowth : R; q_I : mat; q_D : mat; q_time : col }.
Record li_out := LiOut {
  o_E : col; o_losses : col; o_T : col; o_load : col; o_SOC : col; o_DOD : col; o_Q : col; o_Voc : col; o_Vul : col;
  o_current : col; o_R : col }.
(** 168 *)
Definition li_resistance (s : R) : R :=
  - (169 / 10000) * s ^ 4 + 418 / 10000 * s ^ 3 - 273 / 10000 * s ^ 2 + 69 / 10000 * s + 43 / 10000.
(** 218 *)
Definition li_voltage (s : R) : R :=
  (- (1031 / 1000) * exp (-35 * s) + 3685 / 1000 + 2156 / 10000 * s - 1178 / 10000 * s ^ 2 + 3201 / 10000 * s ^ 3) / (41 / 10).
(** 183-206 (= NMC 232-255): the energy put in, with the power cut where the battery is full *)
Definition stored (n : nat) (I D : mat) (P E0 : col) (Emax : R) : col :=
  let energy_unmodified := mulv n I P in
  let capacity_available := Emax - E0 0%nat in
  let delta := fun i => let d := energy_unmodified i - capacity_available in if Rltb d 0 then 0 else d in
  let ddelta := mulv n D delta in
  let P := fun i => if Rltb 0 (P i) then P i - ddelta i else P i in
  let E_bat := mulv n I P in
  fun i => E_bat i + E0 0%nat.
(** 151-247 *)
Definition energy_calc (n : nat) (q : li_in) (discharge : bool) : li_out :=
  let I_bat : col := if discharge then q_current q else fun i => - q_current q i in
  let E_max := q_Emax q * q_Egrowth q in
  let SOC_old : col := fun i => clip01 ((mulv n (q_I q) (q_power q) i + q_E q 0%nat) / E_max) in
  let R_0 : col := fun i => let r := li_resistance (SOC_old i) * q_Rgrowth q in if Rltb r 0 then 0 else r in
  let Q_heat_gen : col := fun i => (I_bat i) ^ 2 * R_0 i in
  let P : col := fun i => q_power q i - Rabs (Q_heat_gen i) in
  let dT_dt : col := fun i => Q_heat_gen i / (q_mass q * q_Cp q) in
  let T : col := fun i => q_T q 0%nat + mulv n (q_I q) dT_dt i in
  let E := stored n (q_I q) (q_D q) P (q_E q) E_max in
  let SOC_new : col := fun i => clip01 (E i / E_max) in
  let Q_total : col := fun i => q_Q q 0%nat + cumtrapz (fun k => Rabs (I_bat k)) (q_time q) i / hour in
  let V_oc : col := fun i => let v := li_voltage (SOC_new i) * q_Vmax q in if Rltb (q_Vmax q) v then q_Vmax q else v in
  let V_ul : col := fun i => if discharge then V_oc i - I_bat i * R_0 i else V_oc i + I_bat i * R_0 i in
  LiOut E Q_heat_gen T (fun i => V_ul i * I_bat i) SOC_new (fun i => 1 - SOC_new i) Q_total V_oc V_ul I_bat R_0.

(** ** trunk/SUAVE/Methods/Power/Battery/compute_net_generated_battery_heat.py *)
Record cooling := Cooling {
  c_h : R; c_surface : R; c_diameter : R; c_height : R; c_ambient : col; c_Tpack : col; c_Tcell : col;
  c_cell_mass : R; c_Cp : R; c_eff : R; c_total : nat; c_Nn : R; c_Np : R; c_ST : R; c_SL : R;
  c_K : R; c_Cp_fluid : R; c_flow : R; c_rho : R; c_nu : R; c_Pr : R; c_Pr_w : R -> R; c_int : mat }.
(** 80-83 *)
Definition coolant_speed (c : cooling) : R :=
  let S_D := sqrt (c_ST c ^ 2 + c_SL c ^ 2) in
  if Rltb (2 * (S_D - c_diameter c)) (c_ST c - c_diameter c)
  then c_flow c * (c_ST c / (2 * (S_D - c_diameter c)))
  else c_flow c * (c_ST c / (c_ST c - c_diameter c)).
(** 86-92: "all(Re_max) > 10E2" compares True or False with 1000 *)
Definition all_positive (Re : R) : R := if Req_EM_T Re 0 then 0 else 1.
Definition nusselt_constants (c : cooling) (Re_max : R) : R * R :=
  if Rltb 1000 (all_positive Re_max) then (35 / 100 * Rpower (c_ST c / c_SL c) (2 / 10), 6 / 10) else (51 / 100, 5 / 10).
(** 62-102, without the rows where the wall is at ambient temperature (101) *)
Definition net_heat (c : cooling) (Q : col) : col := fun i =>
  let n_total_module := c_Nn c * c_Np c in
  if Nat.eqb (c_total c) 1 then Q i - c_h c * c_surface c * (c_Tcell c i - c_ambient c i)
  else
    let T := (c_ambient c i + c_Tpack c i) / 2 in
    let Re_max := coolant_speed c * c_diameter c / c_nu c in
    let '(C, m) := nusselt_constants c Re_max in
    let Nu := C * Rpower Re_max m * Rpower (c_Pr c) (36 / 100) * Rpower (c_Pr c / c_Pr_w c T) (25 / 100) in
    let h := Nu * c_K c / c_diameter c in
    let Tw_Ti := T - c_ambient c i in
    let Tw_To := Tw_Ti * exp (- PI * c_diameter c * n_total_module * h / (c_rho c * c_flow c * c_Nn c * c_ST c * c_Cp_fluid c)) in
    let dT_lm := (Tw_Ti - Tw_To) / ln (Tw_Ti / Tw_To) in
    let Q_convec := if Req_EM_T Tw_Ti 0 then 0 else c_eff c * h * PI * c_diameter c * c_height c * n_total_module * dT_lm in
    Q i * n_total_module - Q_convec.
(** 104-108 *)
Definition net_generated_heat (n : nat) (c : cooling) (Q : col) : col := fun i =>
  let dT_dt : col := fun j => net_heat c Q j / (c_cell_mass c * (c_Nn c * c_Np c) * c_Cp c) in
  let T := c_Tpack c 0%nat + mulv n (c_int c) dT_dt i in
  if Rltb T (c_ambient c i) then c_ambient c i else T.

(** ** trunk/SUAVE/Components/Energy/Storages/Batteries/Constant_Mass/Lithium_Ion_LiNiMnCoO2_18650.py *)
Definition clip (lo hi x : R) : R := let x := if Rltb x lo then lo else x in if Rltb hi x then hi else x.
Record nmc_in := NmcIn {
  m_current : col; m_power : col; m_electrode : R; m_Tcell : col; m_Emax : R; m_E : col; m_Q : col;
  m_series : R; m_parallel : R; m_D : mat; m_time : col;
  m_map : R -> R -> R -> R; (* discharge_performance_map.Voltage at (amps, temperature, depth of discharge) *)
  m_cool : cooling          (* what compute_net_generated_battery_heat reads besides the temperatures set here *) }.
(** 191-192: battery.cell_temperature = battery.pack_temperature = T_cell *)
Definition with_temperature (c : cooling) (T : col) : cooling :=
  Cooling (c_h c) (c_surface c) (c_diameter c) (c_height c) (c_ambient c) T T (c_cell_mass c) (c_Cp c) (c_eff c) (c_total c)
    (c_Nn c) (c_Np c) (c_ST c) (c_SL c) (c_K c) (c_Cp_fluid c) (c_flow c) (c_rho c) (c_nu c) (c_Pr c) (c_Pr_w c) (c_int c).
Record nmc_out := NmcOut {
  n_E : col; n_losses : col; n_T : col; n_SOC : col; n_DOD : col; n_Q : col; n_Voc : col; n_Vul : col; n_cell_current : col; n_R : col;
  n_load : col }.
(** 201-202 *)
Definition nmc_entropy (s : R) : R :=
  - (49666 / 100) * s ^ 6 + 17294 / 10 * s ^ 5 + - 2278 * s ^ 4 + 13822 / 10 * s ^ 3 + - (38047 / 100) * s ^ 2 + 46508 / 1000 * s + - (10692 / 1000).
(** 222 *)
Definition nmc_resistance (s : R) : R := 1483 / 100000 * s ^ 2 - 2518 / 100000 * s + 1036 / 10000.
(** 150-289.  compute_NMC_cell_state_variables (LiNiMnCoO2_cell_cycle_model.py 39-51) clips its
    arguments in place, so from line 219 on the cell current is the clipped one. *)
Definition nmc_energy_calc (n : nat) (q : nmc_in) (discharge : bool) : nmc_out :=
  let I_cell : col := fun i => if discharge then m_current q i / m_parallel q else - m_current q i / m_parallel q in
  let SOC_old : col := fun i => clip01' ((mulv n (c_int (m_cool q)) (m_power q) i + m_E q 0%nat) / m_Emax q) in
  let T_cell : col := fun i => clip (27265 / 100) (32265 / 100) (m_Tcell q i) in
  let i_cell : col := fun i => I_cell i / m_electrode q in
  let q_entropy : col := fun i => - T_cell i * nmc_entropy (SOC_old i) * i_cell i / (1 * 96485) in
  let q_joule : col := fun i => (i_cell i) ^ 2 / 139 in
  let Q_heat_gen : col := fun i => (q_joule i + q_entropy i) * c_surface (m_cool q) in
  let T := net_generated_heat n (with_temperature (m_cool q) T_cell) Q_heat_gen in
  let P_loss : col := fun i => INR (c_total (m_cool q)) * Q_heat_gen i in
  let P : col := fun i => m_power q i - Rabs (P_loss i) in
  let I_clipped : col := fun i => clip 0 8 (I_cell i) in
  let V_ul : col := fun i => m_map q (I_clipped i) (clip (27265 / 100) (32265 / 100) (T_cell i)) (1 - clip01' (SOC_old i)) in
  let R_0 : col := fun i => nmc_resistance (SOC_old i) in
  let V_oc : col := fun i => V_ul i + I_clipped i * R_0 i in
  let E := stored n (c_int (m_cool q)) (m_D q) P (m_E q) (m_Emax q) in
  let SOC_new : col := fun i => clip01' (E i / m_Emax q) in
  let Q_total : col := fun i => m_Q q 0%nat + cumtrapz I_clipped (m_time q) i / hour in
  let V_ul : col := fun i => if Rltb (SOC_new i) 0 then 0 else V_ul i in
  NmcOut E P_loss T SOC_new (fun i => 1 - SOC_new i) Q_total (fun i => V_oc i * m_series q) (fun i => V_ul i * m_series q)
    I_clipped (fun i => R_0 i * m_series q) (fun i => V_ul i * m_series q * m_current q i).

(** ** ageing: Lithium_Ion_LiNiMnCoO2_18650.py:439-489 *)
Record health := Health { fade : R; growth : R; day : nat }.
(** what the segment says *)
Record use := Use { u_SOC : list R; u_V : list R; u_Q : R; u_T : list R; u_count_day : bool }.
Definition mean (l : list R) : R := fold_right Rplus 0 l / INR (List.length l).
(** t ** y for t >= 0 and y > 0 *)
Definition power (t y : R) : R := if Req_EM_T t 0 then 0 else Rpower t y.
(** 473-481 *)
Definition aged_fade (n_series : R) (u : use) (t : nat) : R :=
  let V := map (fun v => v / n_series) (u_V u) in
  let delta_DOD := Rabs (hd 0 (u_SOC u) - last (u_SOC u) 0) in
  let rms := sqrt (mean (map (fun v => v ^ 2) V)) in
  let alpha := (7542 / 1000 * mean V - 2375 / 100) * 1000000 * exp (-6976 / mean (u_T u)) in
  let beta := 7348 / 1000000 * (rms - 3667 / 1000) ^ 2 + 76 / 100000 + 4081 / 1000000 * delta_DOD in
  1 - alpha * power (INR t) (75 / 100) - beta * sqrt (u_Q u).
Definition aged_growth (n_series : R) (u : use) (t : nat) : R :=
  let V := map (fun v => v / n_series) (u_V u) in
  let delta_DOD := Rabs (hd 0 (u_SOC u) - last (u_SOC u) 0) in
  let rms := sqrt (mean (map (fun v => v ^ 2) V)) in
  let alpha := (5270 / 1000 * mean V - 1632 / 100) * 100000 * exp (-5986 / mean (u_T u)) in
  let beta := 2153 / 10000000 * (rms - 3725 / 1000) ^ 2 - 1521 / 100000000 + 2798 / 10000000 * delta_DOD in
  1 + alpha * power (INR t) (75 / 100) + beta * u_Q u.
(** 483-487 *)
Definition update_battery_state_of_health (n_series : R) (h : health) (u : use) : health :=
  Health (Rmin (aged_fade n_series u (day h)) (fade h)) (Rmax (aged_growth n_series u (day h)) (growth h))
    (if u_count_day u then S (day h) else day h).

(** ** sizing: trunk/SUAVE/Methods/Power/Battery/Sizing *)
Record sized := Sized {
  s_mass : R; s_specific_energy : R; s_specific_power : R; s_max_energy : R; s_max_power : R }.
(** initialize_from_energy_and_power.py:44-55 *)
Definition initialize_from_energy_and_power (b : sized) (energy power : R) (soft : bool) : sized :=
  let energy_mass := energy / s_specific_energy b in
  let power_mass := power / s_specific_power b in
  let mass := if soft then soft_max energy_mass power_mass else Rmax energy_mass power_mass in
  Sized mass (s_specific_energy b) (s_specific_power b) (s_specific_energy b * mass) (s_specific_power b * mass).
(** Ragone/find_specific_power.py:33-37 *)
Definition find_specific_power (c1 c2 : R) (b : sized) (specific_energy : R) : sized :=
  Sized (s_mass b) specific_energy (c1 * Rpower 10 (c2 * specific_energy)) (s_max_energy b) (s_max_power b).
(** Ragone/find_ragone_properties.py:56-60: the battery afterwards; its mass is returned *)
Definition find_ragone_properties (c1 c2 : R) (specific_energy : R) (b : sized) (energy power : R) : sized :=
  initialize_from_energy_and_power (find_specific_power c1 c2 b specific_energy) energy power false.
(** Ragone/find_ragone_optimum.py:55-62; [fminbound f lb ub] is scipy's *)
Definition find_ragone_optimum (fminbound : (R -> R) -> R -> R -> R) (c1 c2 lb ub : R) (b : sized) (energy power : R) : sized :=
  find_ragone_properties c1 c2 (fminbound (fun e => s_mass (find_ragone_properties c1 c2 e b energy power)) lb ub) b energy power.

(** int(x) of a non-negative number *)
Definition trunc (x : R) : nat := Z.to_nat (Int_part x).
Record cells := Cells {
  k_series : nat; k_parallel : nat; k_total : nat; k_max_energy : R; k_min_energy : R; k_max_power : R; k_initial : R;
  k_charging_voltage : R; k_charging_current : R }.
(** initialize_from_mass.py:33-52.  [cell] is (cell.mass, cell.max_voltage), [None] when cell.mass is
    None; the result [None] is the ZeroDivisionError of line 42 *)
Definition initialize_from_mass (mass max_voltage specific_energy specific_power factor : R) (cell : option (R * R))
    (charge_V charge_A : R) : option cells :=
  let mass := mass / factor in
  let finish n_series n_parallel n_cells :=
    Some (Cells n_series n_parallel n_cells (mass * specific_energy) (mass * specific_energy) (mass * specific_power)
            (mass * specific_energy) (charge_V * INR n_series) (charge_A * INR n_parallel)) in
  match cell with
  | None => finish 1%nat 1%nat 1%nat
  | Some (cell_mass, cell_voltage) =>
      let n_cells := trunc (mass / cell_mass) in
      let n_series := trunc (max_voltage / cell_voltage) in
      if Nat.eqb n_series 0 then None else finish n_series (trunc (INR n_cells / INR n_series)) n_cells
  end.
(** initialize_from_circuit_configuration.py:49-61; Units.Wh/Units.kg = 3600 *)
Record pack := Pack {
  p_mass_total : R; p_spec_energy : R; p_energy : R; p_spec_power : R; p_power : R; p_voltage : R; p_initial : R; p_cells : R;
  p_charge_voltage : R; p_charge_current : R }.
Definition initialize_from_circuit (capacity voltage cell_mass cell_max_voltage charge_V charge_A : R) (series parallel : R) (factor : R) : pack :=
  let assembly := cell_mass * series * parallel in
  let mass := assembly * factor in
  let se := capacity * voltage / cell_mass * 3600 in
  let sp := se / capacity in
  Pack mass se (assembly * se) sp (sp * mass) (cell_max_voltage * series) (assembly * se) (series * parallel)
    (charge_V * series) (charge_A * parallel).
