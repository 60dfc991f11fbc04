(** * Model of the state of a mission segment and of the functions all segments share

    Source: /repo/trunk/SUAVE/Methods/Missions/Segments/Common/Frames.py 24-456
            /repo/trunk/SUAVE/Methods/Missions/Segments/Common/Numerics.py 18-106
            /repo/trunk/SUAVE/Methods/Missions/Segments/Common/Weights.py 19-169
            /repo/trunk/SUAVE/Methods/Missions/Segments/Common/Aerodynamics.py 20-217
            /repo/trunk/SUAVE/Methods/Missions/Segments/Common/Energy.py 15-99
            /repo/trunk/SUAVE/Analyses/Mission/Segments/Conditions/Basic.py 54-88
            /repo/trunk/SUAVE/Analyses/Mission/Segments/Conditions/Aerodynamics.py 60-163

    Simplifications: numbers are reals; an array with one row per control point is a function of
    the row number (only rows below the number of control points are read, and all arrays of a
    segment have that many rows after expand_state, see M_Rows); the atmosphere, planet,
    aerodynamics and energy analyses are arbitrary functions; stability and noise results, which
    nothing else here reads, are left out. *)
From Coq Require Import Reals List Bool ZArith.
From Verif Require Import M_Opt M_Rot.
Import ListNotations.
Local Open Scope R_scope.
Local Open Scope list_scope.

Notation col := (nat -> R).
Notation vcol := (nat -> v3).
Notation mcol := (nat -> m3).
Notation mat := (nat -> nat -> R).

(** numpy's dot on columns of [n] rows *)
Fixpoint Sum (n : nat) (f : nat -> R) : R :=
  match n with O => 0 | S k => Sum k f + f k end.
Definition mulv (n : nat) (A : mat) (v : col) : col := fun i => Sum n (fun j => A i j * v j).

Definition vplus (a b : v3) : v3 := V3 (vx a + vx b) (vy a + vy b) (vz a + vz b).
Definition vminus (a b : v3) : v3 := V3 (vx a - vx b) (vy a - vy b) (vz a - vz b).
Definition with_x (x : R) (v : v3) : v3 := V3 x (vy v) (vz v).
Definition with_y (y : R) (v : v3) : v3 := V3 (vx v) y (vz v).
Definition with_z (z : R) (v : v3) : v3 := V3 (vx v) (vy v) z.

(** propulsion.battery_*, Conditions/Aerodynamics.py 134-144 and Energy.py 40-57 *)
Record battery := Battery {
  b_energy : col;      (* battery_energy *)
  b_pack_temp : col;   (* battery_pack_temperature *)
  b_cell_temp : col;   (* battery_cell_temperature *)
  b_throughput : col;  (* battery_cell_charge_throughput *)
  b_max_initial : R;   (* battery_max_initial_energy *)
  b_max_aged : R;      (* battery_max_aged_energy *)
  b_fade : R;          (* battery_capacity_fade_factor *)
  b_growth : R;        (* battery_resistance_growth_factor *)
  b_day : Z;           (* battery_cycle_day *)
  b_discharge : bool   (* battery_discharge_flag *)
}.

(** The entries of [segment.state.conditions] that the modelled functions read or
   write: trunk/SUAVE/Analyses/Mission/Segments/Conditions/Basic.py:54-88 and
   Aerodynamics.py:60-163.  An array of [n] rows is a function of the row number;
   only rows below the number of control points are ever read. *)
Record conds := Conds {
  time : col; (* frames.inertial.time *)
  pos : vcol; (* frames.inertial.position_vector *)
  vel : vcol; (* frames.inertial.velocity_vector *)
  acc : vcol; (* frames.inertial.acceleration_vector *)
  range : col; (* frames.inertial.aircraft_range *)
  weight_f : vcol; (* frames.inertial.gravity_force_vector *)
  total_f : vcol; (* frames.inertial.total_force_vector *)
  ground_f : vcol; (* frames.inertial.ground_force_vector *)
  rot : vcol; (* frames.body.inertial_rotations *)
  b2i : mcol; (* frames.body.transform_to_inertial *)
  thrust_f : vcol; (* frames.body.thrust_force_vector *)
  wind_rot : vcol; (* frames.wind.body_rotations *)
  w2i : mcol; (* frames.wind.transform_to_inertial *)
  lift_f : vcol; (* frames.wind.lift_force_vector *)
  drag_f : vcol; (* frames.wind.drag_force_vector *)
  lat : col; (* frames.planet.latitude *)
  lon : col; (* frames.planet.longitude *)
  start_time : option R; (* frames.planet.start_time *)
  alt : col; (* freestream.altitude *)
  press : col; (* freestream.pressure *)
  temp : col; (* freestream.temperature *)
  rho : col; (* freestream.density *)
  sound : col; (* freestream.speed_of_sound *)
  visc : col; (* freestream.dynamic_viscosity *)
  speed : col; (* freestream.velocity *)
  mach : col; (* freestream.mach_number *)
  reyn : col; (* freestream.reynolds_number *)
  dynp : col; (* freestream.dynamic_pressure *)
  grav : col; (* freestream.gravity *)
  alpha : col; (* aerodynamics.angle_of_attack *)
  beta : col; (* aerodynamics.side_slip_angle *)
  roll : col; (* aerodynamics.roll_angle *)
  CL : col; (* aerodynamics.lift_coefficient *)
  CD : col; (* aerodynamics.drag_coefficient *)
  throttle : col; (* propulsion.throttle *)
  batt : battery; (* propulsion.battery_* *)
  mass : col; (* weights.total_mass *)
  fuel_mass : col; (* weights.fuel_mass *)
  add_mass : col; (* weights.additional_fuel_mass *)
  mdot : col; (* weights.vehicle_mass_rate *)
  fuel_rate : col; (* weights.vehicle_fuel_rate *)
  add_rate : col; (* weights.vehicle_additional_fuel_rate *)
  has_add : bool (* weights.has_additional_fuel *)
}.

(** Assignment to one entry, e.g. [conditions.frames.inertial.time[:,:] = ...];
   the other entries keep their value. *)
Definition set_time (x : col) (c : conds) : conds :=
  Conds x (pos c) (vel c) (acc c) (range c) (weight_f c) (total_f c) (ground_f c) (rot c) (b2i c) (thrust_f c) (wind_rot c) (w2i c) (lift_f c) (drag_f c) (lat c) (lon c) (start_time c) (alt c) (press c) (temp c) (rho c) (sound c) (visc c) (speed c) (mach c) (reyn c) (dynp c) (grav c) (alpha c) (beta c) (roll c) (CL c) (CD c) (throttle c) (batt c) (mass c) (fuel_mass c) (add_mass c) (mdot c) (fuel_rate c) (add_rate c) (has_add c).
Definition set_pos (x : vcol) (c : conds) : conds :=
  Conds (time c) x (vel c) (acc c) (range c) (weight_f c) (total_f c) (ground_f c) (rot c) (b2i c) (thrust_f c) (wind_rot c) (w2i c) (lift_f c) (drag_f c) (lat c) (lon c) (start_time c) (alt c) (press c) (temp c) (rho c) (sound c) (visc c) (speed c) (mach c) (reyn c) (dynp c) (grav c) (alpha c) (beta c) (roll c) (CL c) (CD c) (throttle c) (batt c) (mass c) (fuel_mass c) (add_mass c) (mdot c) (fuel_rate c) (add_rate c) (has_add c).
Definition set_vel (x : vcol) (c : conds) : conds :=
  Conds (time c) (pos c) x (acc c) (range c) (weight_f c) (total_f c) (ground_f c) (rot c) (b2i c) (thrust_f c) (wind_rot c) (w2i c) (lift_f c) (drag_f c) (lat c) (lon c) (start_time c) (alt c) (press c) (temp c) (rho c) (sound c) (visc c) (speed c) (mach c) (reyn c) (dynp c) (grav c) (alpha c) (beta c) (roll c) (CL c) (CD c) (throttle c) (batt c) (mass c) (fuel_mass c) (add_mass c) (mdot c) (fuel_rate c) (add_rate c) (has_add c).
Definition set_acc (x : vcol) (c : conds) : conds :=
  Conds (time c) (pos c) (vel c) x (range c) (weight_f c) (total_f c) (ground_f c) (rot c) (b2i c) (thrust_f c) (wind_rot c) (w2i c) (lift_f c) (drag_f c) (lat c) (lon c) (start_time c) (alt c) (press c) (temp c) (rho c) (sound c) (visc c) (speed c) (mach c) (reyn c) (dynp c) (grav c) (alpha c) (beta c) (roll c) (CL c) (CD c) (throttle c) (batt c) (mass c) (fuel_mass c) (add_mass c) (mdot c) (fuel_rate c) (add_rate c) (has_add c).
Definition set_range (x : col) (c : conds) : conds :=
  Conds (time c) (pos c) (vel c) (acc c) x (weight_f c) (total_f c) (ground_f c) (rot c) (b2i c) (thrust_f c) (wind_rot c) (w2i c) (lift_f c) (drag_f c) (lat c) (lon c) (start_time c) (alt c) (press c) (temp c) (rho c) (sound c) (visc c) (speed c) (mach c) (reyn c) (dynp c) (grav c) (alpha c) (beta c) (roll c) (CL c) (CD c) (throttle c) (batt c) (mass c) (fuel_mass c) (add_mass c) (mdot c) (fuel_rate c) (add_rate c) (has_add c).
Definition set_weight_f (x : vcol) (c : conds) : conds :=
  Conds (time c) (pos c) (vel c) (acc c) (range c) x (total_f c) (ground_f c) (rot c) (b2i c) (thrust_f c) (wind_rot c) (w2i c) (lift_f c) (drag_f c) (lat c) (lon c) (start_time c) (alt c) (press c) (temp c) (rho c) (sound c) (visc c) (speed c) (mach c) (reyn c) (dynp c) (grav c) (alpha c) (beta c) (roll c) (CL c) (CD c) (throttle c) (batt c) (mass c) (fuel_mass c) (add_mass c) (mdot c) (fuel_rate c) (add_rate c) (has_add c).
Definition set_total_f (x : vcol) (c : conds) : conds :=
  Conds (time c) (pos c) (vel c) (acc c) (range c) (weight_f c) x (ground_f c) (rot c) (b2i c) (thrust_f c) (wind_rot c) (w2i c) (lift_f c) (drag_f c) (lat c) (lon c) (start_time c) (alt c) (press c) (temp c) (rho c) (sound c) (visc c) (speed c) (mach c) (reyn c) (dynp c) (grav c) (alpha c) (beta c) (roll c) (CL c) (CD c) (throttle c) (batt c) (mass c) (fuel_mass c) (add_mass c) (mdot c) (fuel_rate c) (add_rate c) (has_add c).
Definition set_ground_f (x : vcol) (c : conds) : conds :=
  Conds (time c) (pos c) (vel c) (acc c) (range c) (weight_f c) (total_f c) x (rot c) (b2i c) (thrust_f c) (wind_rot c) (w2i c) (lift_f c) (drag_f c) (lat c) (lon c) (start_time c) (alt c) (press c) (temp c) (rho c) (sound c) (visc c) (speed c) (mach c) (reyn c) (dynp c) (grav c) (alpha c) (beta c) (roll c) (CL c) (CD c) (throttle c) (batt c) (mass c) (fuel_mass c) (add_mass c) (mdot c) (fuel_rate c) (add_rate c) (has_add c).
Definition set_rot (x : vcol) (c : conds) : conds :=
  Conds (time c) (pos c) (vel c) (acc c) (range c) (weight_f c) (total_f c) (ground_f c) x (b2i c) (thrust_f c) (wind_rot c) (w2i c) (lift_f c) (drag_f c) (lat c) (lon c) (start_time c) (alt c) (press c) (temp c) (rho c) (sound c) (visc c) (speed c) (mach c) (reyn c) (dynp c) (grav c) (alpha c) (beta c) (roll c) (CL c) (CD c) (throttle c) (batt c) (mass c) (fuel_mass c) (add_mass c) (mdot c) (fuel_rate c) (add_rate c) (has_add c).
Definition set_b2i (x : mcol) (c : conds) : conds :=
  Conds (time c) (pos c) (vel c) (acc c) (range c) (weight_f c) (total_f c) (ground_f c) (rot c) x (thrust_f c) (wind_rot c) (w2i c) (lift_f c) (drag_f c) (lat c) (lon c) (start_time c) (alt c) (press c) (temp c) (rho c) (sound c) (visc c) (speed c) (mach c) (reyn c) (dynp c) (grav c) (alpha c) (beta c) (roll c) (CL c) (CD c) (throttle c) (batt c) (mass c) (fuel_mass c) (add_mass c) (mdot c) (fuel_rate c) (add_rate c) (has_add c).
Definition set_thrust_f (x : vcol) (c : conds) : conds :=
  Conds (time c) (pos c) (vel c) (acc c) (range c) (weight_f c) (total_f c) (ground_f c) (rot c) (b2i c) x (wind_rot c) (w2i c) (lift_f c) (drag_f c) (lat c) (lon c) (start_time c) (alt c) (press c) (temp c) (rho c) (sound c) (visc c) (speed c) (mach c) (reyn c) (dynp c) (grav c) (alpha c) (beta c) (roll c) (CL c) (CD c) (throttle c) (batt c) (mass c) (fuel_mass c) (add_mass c) (mdot c) (fuel_rate c) (add_rate c) (has_add c).
Definition set_wind_rot (x : vcol) (c : conds) : conds :=
  Conds (time c) (pos c) (vel c) (acc c) (range c) (weight_f c) (total_f c) (ground_f c) (rot c) (b2i c) (thrust_f c) x (w2i c) (lift_f c) (drag_f c) (lat c) (lon c) (start_time c) (alt c) (press c) (temp c) (rho c) (sound c) (visc c) (speed c) (mach c) (reyn c) (dynp c) (grav c) (alpha c) (beta c) (roll c) (CL c) (CD c) (throttle c) (batt c) (mass c) (fuel_mass c) (add_mass c) (mdot c) (fuel_rate c) (add_rate c) (has_add c).
Definition set_w2i (x : mcol) (c : conds) : conds :=
  Conds (time c) (pos c) (vel c) (acc c) (range c) (weight_f c) (total_f c) (ground_f c) (rot c) (b2i c) (thrust_f c) (wind_rot c) x (lift_f c) (drag_f c) (lat c) (lon c) (start_time c) (alt c) (press c) (temp c) (rho c) (sound c) (visc c) (speed c) (mach c) (reyn c) (dynp c) (grav c) (alpha c) (beta c) (roll c) (CL c) (CD c) (throttle c) (batt c) (mass c) (fuel_mass c) (add_mass c) (mdot c) (fuel_rate c) (add_rate c) (has_add c).
Definition set_lift_f (x : vcol) (c : conds) : conds :=
  Conds (time c) (pos c) (vel c) (acc c) (range c) (weight_f c) (total_f c) (ground_f c) (rot c) (b2i c) (thrust_f c) (wind_rot c) (w2i c) x (drag_f c) (lat c) (lon c) (start_time c) (alt c) (press c) (temp c) (rho c) (sound c) (visc c) (speed c) (mach c) (reyn c) (dynp c) (grav c) (alpha c) (beta c) (roll c) (CL c) (CD c) (throttle c) (batt c) (mass c) (fuel_mass c) (add_mass c) (mdot c) (fuel_rate c) (add_rate c) (has_add c).
Definition set_drag_f (x : vcol) (c : conds) : conds :=
  Conds (time c) (pos c) (vel c) (acc c) (range c) (weight_f c) (total_f c) (ground_f c) (rot c) (b2i c) (thrust_f c) (wind_rot c) (w2i c) (lift_f c) x (lat c) (lon c) (start_time c) (alt c) (press c) (temp c) (rho c) (sound c) (visc c) (speed c) (mach c) (reyn c) (dynp c) (grav c) (alpha c) (beta c) (roll c) (CL c) (CD c) (throttle c) (batt c) (mass c) (fuel_mass c) (add_mass c) (mdot c) (fuel_rate c) (add_rate c) (has_add c).
Definition set_lat (x : col) (c : conds) : conds :=
  Conds (time c) (pos c) (vel c) (acc c) (range c) (weight_f c) (total_f c) (ground_f c) (rot c) (b2i c) (thrust_f c) (wind_rot c) (w2i c) (lift_f c) (drag_f c) x (lon c) (start_time c) (alt c) (press c) (temp c) (rho c) (sound c) (visc c) (speed c) (mach c) (reyn c) (dynp c) (grav c) (alpha c) (beta c) (roll c) (CL c) (CD c) (throttle c) (batt c) (mass c) (fuel_mass c) (add_mass c) (mdot c) (fuel_rate c) (add_rate c) (has_add c).
Definition set_lon (x : col) (c : conds) : conds :=
  Conds (time c) (pos c) (vel c) (acc c) (range c) (weight_f c) (total_f c) (ground_f c) (rot c) (b2i c) (thrust_f c) (wind_rot c) (w2i c) (lift_f c) (drag_f c) (lat c) x (start_time c) (alt c) (press c) (temp c) (rho c) (sound c) (visc c) (speed c) (mach c) (reyn c) (dynp c) (grav c) (alpha c) (beta c) (roll c) (CL c) (CD c) (throttle c) (batt c) (mass c) (fuel_mass c) (add_mass c) (mdot c) (fuel_rate c) (add_rate c) (has_add c).
Definition set_start_time (x : option R) (c : conds) : conds :=
  Conds (time c) (pos c) (vel c) (acc c) (range c) (weight_f c) (total_f c) (ground_f c) (rot c) (b2i c) (thrust_f c) (wind_rot c) (w2i c) (lift_f c) (drag_f c) (lat c) (lon c) x (alt c) (press c) (temp c) (rho c) (sound c) (visc c) (speed c) (mach c) (reyn c) (dynp c) (grav c) (alpha c) (beta c) (roll c) (CL c) (CD c) (throttle c) (batt c) (mass c) (fuel_mass c) (add_mass c) (mdot c) (fuel_rate c) (add_rate c) (has_add c).
Definition set_alt (x : col) (c : conds) : conds :=
  Conds (time c) (pos c) (vel c) (acc c) (range c) (weight_f c) (total_f c) (ground_f c) (rot c) (b2i c) (thrust_f c) (wind_rot c) (w2i c) (lift_f c) (drag_f c) (lat c) (lon c) (start_time c) x (press c) (temp c) (rho c) (sound c) (visc c) (speed c) (mach c) (reyn c) (dynp c) (grav c) (alpha c) (beta c) (roll c) (CL c) (CD c) (throttle c) (batt c) (mass c) (fuel_mass c) (add_mass c) (mdot c) (fuel_rate c) (add_rate c) (has_add c).
Definition set_press (x : col) (c : conds) : conds :=
  Conds (time c) (pos c) (vel c) (acc c) (range c) (weight_f c) (total_f c) (ground_f c) (rot c) (b2i c) (thrust_f c) (wind_rot c) (w2i c) (lift_f c) (drag_f c) (lat c) (lon c) (start_time c) (alt c) x (temp c) (rho c) (sound c) (visc c) (speed c) (mach c) (reyn c) (dynp c) (grav c) (alpha c) (beta c) (roll c) (CL c) (CD c) (throttle c) (batt c) (mass c) (fuel_mass c) (add_mass c) (mdot c) (fuel_rate c) (add_rate c) (has_add c).
Definition set_temp (x : col) (c : conds) : conds :=
  Conds (time c) (pos c) (vel c) (acc c) (range c) (weight_f c) (total_f c) (ground_f c) (rot c) (b2i c) (thrust_f c) (wind_rot c) (w2i c) (lift_f c) (drag_f c) (lat c) (lon c) (start_time c) (alt c) (press c) x (rho c) (sound c) (visc c) (speed c) (mach c) (reyn c) (dynp c) (grav c) (alpha c) (beta c) (roll c) (CL c) (CD c) (throttle c) (batt c) (mass c) (fuel_mass c) (add_mass c) (mdot c) (fuel_rate c) (add_rate c) (has_add c).
Definition set_rho (x : col) (c : conds) : conds :=
  Conds (time c) (pos c) (vel c) (acc c) (range c) (weight_f c) (total_f c) (ground_f c) (rot c) (b2i c) (thrust_f c) (wind_rot c) (w2i c) (lift_f c) (drag_f c) (lat c) (lon c) (start_time c) (alt c) (press c) (temp c) x (sound c) (visc c) (speed c) (mach c) (reyn c) (dynp c) (grav c) (alpha c) (beta c) (roll c) (CL c) (CD c) (throttle c) (batt c) (mass c) (fuel_mass c) (add_mass c) (mdot c) (fuel_rate c) (add_rate c) (has_add c).
Definition set_sound (x : col) (c : conds) : conds :=
  Conds (time c) (pos c) (vel c) (acc c) (range c) (weight_f c) (total_f c) (ground_f c) (rot c) (b2i c) (thrust_f c) (wind_rot c) (w2i c) (lift_f c) (drag_f c) (lat c) (lon c) (start_time c) (alt c) (press c) (temp c) (rho c) x (visc c) (speed c) (mach c) (reyn c) (dynp c) (grav c) (alpha c) (beta c) (roll c) (CL c) (CD c) (throttle c) (batt c) (mass c) (fuel_mass c) (add_mass c) (mdot c) (fuel_rate c) (add_rate c) (has_add c).
Definition set_visc (x : col) (c : conds) : conds :=
  Conds (time c) (pos c) (vel c) (acc c) (range c) (weight_f c) (total_f c) (ground_f c) (rot c) (b2i c) (thrust_f c) (wind_rot c) (w2i c) (lift_f c) (drag_f c) (lat c) (lon c) (start_time c) (alt c) (press c) (temp c) (rho c) (sound c) x (speed c) (mach c) (reyn c) (dynp c) (grav c) (alpha c) (beta c) (roll c) (CL c) (CD c) (throttle c) (batt c) (mass c) (fuel_mass c) (add_mass c) (mdot c) (fuel_rate c) (add_rate c) (has_add c).
Definition set_speed (x : col) (c : conds) : conds :=
  Conds (time c) (pos c) (vel c) (acc c) (range c) (weight_f c) (total_f c) (ground_f c) (rot c) (b2i c) (thrust_f c) (wind_rot c) (w2i c) (lift_f c) (drag_f c) (lat c) (lon c) (start_time c) (alt c) (press c) (temp c) (rho c) (sound c) (visc c) x (mach c) (reyn c) (dynp c) (grav c) (alpha c) (beta c) (roll c) (CL c) (CD c) (throttle c) (batt c) (mass c) (fuel_mass c) (add_mass c) (mdot c) (fuel_rate c) (add_rate c) (has_add c).
Definition set_mach (x : col) (c : conds) : conds :=
  Conds (time c) (pos c) (vel c) (acc c) (range c) (weight_f c) (total_f c) (ground_f c) (rot c) (b2i c) (thrust_f c) (wind_rot c) (w2i c) (lift_f c) (drag_f c) (lat c) (lon c) (start_time c) (alt c) (press c) (temp c) (rho c) (sound c) (visc c) (speed c) x (reyn c) (dynp c) (grav c) (alpha c) (beta c) (roll c) (CL c) (CD c) (throttle c) (batt c) (mass c) (fuel_mass c) (add_mass c) (mdot c) (fuel_rate c) (add_rate c) (has_add c).
Definition set_reyn (x : col) (c : conds) : conds :=
  Conds (time c) (pos c) (vel c) (acc c) (range c) (weight_f c) (total_f c) (ground_f c) (rot c) (b2i c) (thrust_f c) (wind_rot c) (w2i c) (lift_f c) (drag_f c) (lat c) (lon c) (start_time c) (alt c) (press c) (temp c) (rho c) (sound c) (visc c) (speed c) (mach c) x (dynp c) (grav c) (alpha c) (beta c) (roll c) (CL c) (CD c) (throttle c) (batt c) (mass c) (fuel_mass c) (add_mass c) (mdot c) (fuel_rate c) (add_rate c) (has_add c).
Definition set_dynp (x : col) (c : conds) : conds :=
  Conds (time c) (pos c) (vel c) (acc c) (range c) (weight_f c) (total_f c) (ground_f c) (rot c) (b2i c) (thrust_f c) (wind_rot c) (w2i c) (lift_f c) (drag_f c) (lat c) (lon c) (start_time c) (alt c) (press c) (temp c) (rho c) (sound c) (visc c) (speed c) (mach c) (reyn c) x (grav c) (alpha c) (beta c) (roll c) (CL c) (CD c) (throttle c) (batt c) (mass c) (fuel_mass c) (add_mass c) (mdot c) (fuel_rate c) (add_rate c) (has_add c).
Definition set_grav (x : col) (c : conds) : conds :=
  Conds (time c) (pos c) (vel c) (acc c) (range c) (weight_f c) (total_f c) (ground_f c) (rot c) (b2i c) (thrust_f c) (wind_rot c) (w2i c) (lift_f c) (drag_f c) (lat c) (lon c) (start_time c) (alt c) (press c) (temp c) (rho c) (sound c) (visc c) (speed c) (mach c) (reyn c) (dynp c) x (alpha c) (beta c) (roll c) (CL c) (CD c) (throttle c) (batt c) (mass c) (fuel_mass c) (add_mass c) (mdot c) (fuel_rate c) (add_rate c) (has_add c).
Definition set_alpha (x : col) (c : conds) : conds :=
  Conds (time c) (pos c) (vel c) (acc c) (range c) (weight_f c) (total_f c) (ground_f c) (rot c) (b2i c) (thrust_f c) (wind_rot c) (w2i c) (lift_f c) (drag_f c) (lat c) (lon c) (start_time c) (alt c) (press c) (temp c) (rho c) (sound c) (visc c) (speed c) (mach c) (reyn c) (dynp c) (grav c) x (beta c) (roll c) (CL c) (CD c) (throttle c) (batt c) (mass c) (fuel_mass c) (add_mass c) (mdot c) (fuel_rate c) (add_rate c) (has_add c).
Definition set_beta (x : col) (c : conds) : conds :=
  Conds (time c) (pos c) (vel c) (acc c) (range c) (weight_f c) (total_f c) (ground_f c) (rot c) (b2i c) (thrust_f c) (wind_rot c) (w2i c) (lift_f c) (drag_f c) (lat c) (lon c) (start_time c) (alt c) (press c) (temp c) (rho c) (sound c) (visc c) (speed c) (mach c) (reyn c) (dynp c) (grav c) (alpha c) x (roll c) (CL c) (CD c) (throttle c) (batt c) (mass c) (fuel_mass c) (add_mass c) (mdot c) (fuel_rate c) (add_rate c) (has_add c).
Definition set_roll (x : col) (c : conds) : conds :=
  Conds (time c) (pos c) (vel c) (acc c) (range c) (weight_f c) (total_f c) (ground_f c) (rot c) (b2i c) (thrust_f c) (wind_rot c) (w2i c) (lift_f c) (drag_f c) (lat c) (lon c) (start_time c) (alt c) (press c) (temp c) (rho c) (sound c) (visc c) (speed c) (mach c) (reyn c) (dynp c) (grav c) (alpha c) (beta c) x (CL c) (CD c) (throttle c) (batt c) (mass c) (fuel_mass c) (add_mass c) (mdot c) (fuel_rate c) (add_rate c) (has_add c).
Definition set_CL (x : col) (c : conds) : conds :=
  Conds (time c) (pos c) (vel c) (acc c) (range c) (weight_f c) (total_f c) (ground_f c) (rot c) (b2i c) (thrust_f c) (wind_rot c) (w2i c) (lift_f c) (drag_f c) (lat c) (lon c) (start_time c) (alt c) (press c) (temp c) (rho c) (sound c) (visc c) (speed c) (mach c) (reyn c) (dynp c) (grav c) (alpha c) (beta c) (roll c) x (CD c) (throttle c) (batt c) (mass c) (fuel_mass c) (add_mass c) (mdot c) (fuel_rate c) (add_rate c) (has_add c).
Definition set_CD (x : col) (c : conds) : conds :=
  Conds (time c) (pos c) (vel c) (acc c) (range c) (weight_f c) (total_f c) (ground_f c) (rot c) (b2i c) (thrust_f c) (wind_rot c) (w2i c) (lift_f c) (drag_f c) (lat c) (lon c) (start_time c) (alt c) (press c) (temp c) (rho c) (sound c) (visc c) (speed c) (mach c) (reyn c) (dynp c) (grav c) (alpha c) (beta c) (roll c) (CL c) x (throttle c) (batt c) (mass c) (fuel_mass c) (add_mass c) (mdot c) (fuel_rate c) (add_rate c) (has_add c).
Definition set_throttle (x : col) (c : conds) : conds :=
  Conds (time c) (pos c) (vel c) (acc c) (range c) (weight_f c) (total_f c) (ground_f c) (rot c) (b2i c) (thrust_f c) (wind_rot c) (w2i c) (lift_f c) (drag_f c) (lat c) (lon c) (start_time c) (alt c) (press c) (temp c) (rho c) (sound c) (visc c) (speed c) (mach c) (reyn c) (dynp c) (grav c) (alpha c) (beta c) (roll c) (CL c) (CD c) x (batt c) (mass c) (fuel_mass c) (add_mass c) (mdot c) (fuel_rate c) (add_rate c) (has_add c).
Definition set_batt (x : battery) (c : conds) : conds :=
  Conds (time c) (pos c) (vel c) (acc c) (range c) (weight_f c) (total_f c) (ground_f c) (rot c) (b2i c) (thrust_f c) (wind_rot c) (w2i c) (lift_f c) (drag_f c) (lat c) (lon c) (start_time c) (alt c) (press c) (temp c) (rho c) (sound c) (visc c) (speed c) (mach c) (reyn c) (dynp c) (grav c) (alpha c) (beta c) (roll c) (CL c) (CD c) (throttle c) x (mass c) (fuel_mass c) (add_mass c) (mdot c) (fuel_rate c) (add_rate c) (has_add c).
Definition set_mass (x : col) (c : conds) : conds :=
  Conds (time c) (pos c) (vel c) (acc c) (range c) (weight_f c) (total_f c) (ground_f c) (rot c) (b2i c) (thrust_f c) (wind_rot c) (w2i c) (lift_f c) (drag_f c) (lat c) (lon c) (start_time c) (alt c) (press c) (temp c) (rho c) (sound c) (visc c) (speed c) (mach c) (reyn c) (dynp c) (grav c) (alpha c) (beta c) (roll c) (CL c) (CD c) (throttle c) (batt c) x (fuel_mass c) (add_mass c) (mdot c) (fuel_rate c) (add_rate c) (has_add c).
Definition set_fuel_mass (x : col) (c : conds) : conds :=
  Conds (time c) (pos c) (vel c) (acc c) (range c) (weight_f c) (total_f c) (ground_f c) (rot c) (b2i c) (thrust_f c) (wind_rot c) (w2i c) (lift_f c) (drag_f c) (lat c) (lon c) (start_time c) (alt c) (press c) (temp c) (rho c) (sound c) (visc c) (speed c) (mach c) (reyn c) (dynp c) (grav c) (alpha c) (beta c) (roll c) (CL c) (CD c) (throttle c) (batt c) (mass c) x (add_mass c) (mdot c) (fuel_rate c) (add_rate c) (has_add c).
Definition set_add_mass (x : col) (c : conds) : conds :=
  Conds (time c) (pos c) (vel c) (acc c) (range c) (weight_f c) (total_f c) (ground_f c) (rot c) (b2i c) (thrust_f c) (wind_rot c) (w2i c) (lift_f c) (drag_f c) (lat c) (lon c) (start_time c) (alt c) (press c) (temp c) (rho c) (sound c) (visc c) (speed c) (mach c) (reyn c) (dynp c) (grav c) (alpha c) (beta c) (roll c) (CL c) (CD c) (throttle c) (batt c) (mass c) (fuel_mass c) x (mdot c) (fuel_rate c) (add_rate c) (has_add c).
Definition set_mdot (x : col) (c : conds) : conds :=
  Conds (time c) (pos c) (vel c) (acc c) (range c) (weight_f c) (total_f c) (ground_f c) (rot c) (b2i c) (thrust_f c) (wind_rot c) (w2i c) (lift_f c) (drag_f c) (lat c) (lon c) (start_time c) (alt c) (press c) (temp c) (rho c) (sound c) (visc c) (speed c) (mach c) (reyn c) (dynp c) (grav c) (alpha c) (beta c) (roll c) (CL c) (CD c) (throttle c) (batt c) (mass c) (fuel_mass c) (add_mass c) x (fuel_rate c) (add_rate c) (has_add c).
Definition set_fuel_rate (x : col) (c : conds) : conds :=
  Conds (time c) (pos c) (vel c) (acc c) (range c) (weight_f c) (total_f c) (ground_f c) (rot c) (b2i c) (thrust_f c) (wind_rot c) (w2i c) (lift_f c) (drag_f c) (lat c) (lon c) (start_time c) (alt c) (press c) (temp c) (rho c) (sound c) (visc c) (speed c) (mach c) (reyn c) (dynp c) (grav c) (alpha c) (beta c) (roll c) (CL c) (CD c) (throttle c) (batt c) (mass c) (fuel_mass c) (add_mass c) (mdot c) x (add_rate c) (has_add c).
Definition set_add_rate (x : col) (c : conds) : conds :=
  Conds (time c) (pos c) (vel c) (acc c) (range c) (weight_f c) (total_f c) (ground_f c) (rot c) (b2i c) (thrust_f c) (wind_rot c) (w2i c) (lift_f c) (drag_f c) (lat c) (lon c) (start_time c) (alt c) (press c) (temp c) (rho c) (sound c) (visc c) (speed c) (mach c) (reyn c) (dynp c) (grav c) (alpha c) (beta c) (roll c) (CL c) (CD c) (throttle c) (batt c) (mass c) (fuel_mass c) (add_mass c) (mdot c) (fuel_rate c) x (has_add c).
Definition set_has_add (x : bool) (c : conds) : conds :=
  Conds (time c) (pos c) (vel c) (acc c) (range c) (weight_f c) (total_f c) (ground_f c) (rot c) (b2i c) (thrust_f c) (wind_rot c) (w2i c) (lift_f c) (drag_f c) (lat c) (lon c) (start_time c) (alt c) (press c) (temp c) (rho c) (sound c) (visc c) (speed c) (mach c) (reyn c) (dynp c) (grav c) (alpha c) (beta c) (roll c) (CL c) (CD c) (throttle c) (batt c) (mass c) (fuel_mass c) (add_mass c) (mdot c) (fuel_rate c) (add_rate c) x.

(** numerics: Conditions/Numerics.py 52-69.  [discretization_method] is chebyshev_data by
    default, see M_Cheb. *)
Record numerics := Numerics {
  nd_x : col; nd_D : mat; nd_I : mat;    (* dimensionless.control_points/differentiate/integrate *)
  t_x : col; t_D : mat; t_I : mat        (* time.control_points/differentiate/integrate *)
}.

(** what the segment reads from its analyses: arbitrary functions of the height and temperature
    deviation, of the height, or of the whole conditions *)
Record analyses := Analyses {
  an_press : R -> R -> R; an_temp : R -> R -> R; an_rho : R -> R -> R;
  an_sound : R -> R -> R; an_visc : R -> R -> R;       (* atmosphere.compute_values(h,dT) *)
  an_gravity : R -> R;                                 (* planet.features.compute_gravity *)
  an_radius : R;                                       (* planet.features.mean_radius *)
  an_takeoff : R; an_landing : R;                      (* weights.vehicle.mass_properties *)
  an_aero : conds -> col * col;                        (* lift.total, drag.total *)
  an_Sref : R; an_CLmax : R;
  (* thrust force, mass rate, and, if the network reports them, fuel and additional fuel rates,
     and the battery state the network leaves behind *)
  an_energy : conds -> vcol * col * option (col * col) * battery
}.

(** ** Numerics.py *)
(** initialize_differentials_dimensionless 42-53 *)
Definition initialize_differentials (disc : nat -> col * mat * mat) (n : nat) (nu : numerics) : numerics :=
  let '(x, D, J) := disc n in Numerics x D J (t_x nu) (t_D nu) (t_I nu).
(** update_differentials_time 87-104 *)
Definition update_differentials_time (n : nat) (c : conds) (nu : numerics) : numerics :=
  let T := time c (n - 1)%nat - time c 0%nat in
  Numerics (nd_x nu) (nd_D nu) (nd_I nu)
           (fun i => nd_x nu i * T) (fun i j => nd_D nu i j / T) (fun i j => nd_I nu i j * T).

(** ** Frames.py *)
(** the previous segment: its number of control points and its conditions, which the next
    segment shares by reference *)
Notation initials := (option (nat * conds)).

(** initialize_time 93-108; [start] is the segment's start_time attribute *)
Definition initialize_time (prev : initials) (start : option R) (c : conds) : conds :=
  match prev with
  | Some (np, p) =>
      set_start_time (start_time p)
        (set_time (fun i => time c i + (time p (np - 1)%nat - time c 0%nat)) c)
  | None => match start with Some s => set_start_time (Some s) c | None => c end
  end.

(** the altitude attribute that overrides the end of the previous segment, 51-54:
    [altitude] if the segment has it and it is not None, else [altitude_start] likewise *)
Definition override_last (z : option R) (np : nat) (p : conds) : conds :=
  match z with
  | Some h => set_pos (fun i => if Nat.eqb i (np - 1) then with_z (- h) (pos p i) else pos p i) p
  | None => p
  end.
(** initialize_inertial_position 45-59: the previous segment's array is changed in place *)
Definition initialize_inertial_position (h : option R) (prev : initials) (c : conds) : initials * conds :=
  match prev with
  | None => (None, c)
  | Some (np, p0) =>
      let p := override_last h np p0 in
      (Some (np, p),
       set_range (fun i => range c i + (range p (np - 1)%nat - range c 0%nat))
         (set_pos (fun i => vplus (pos c i) (vminus (pos p (np - 1)%nat) (pos c 0%nat))) c))
  end.

(** initialize_planet_position 139-150; [here] is (latitude, longitude) of the segment if it has
    the attribute *)
Definition initialize_planet_position (prev : initials) (here : option (R * R)) (c : conds) : conds :=
  let '(la, lo) := match prev with
                   | Some (np, p) => (lat p (np - 1)%nat, lon p (np - 1)%nat)
                   | None => match here with Some q => q | None => (0, 0) end
                   end in
  set_lat (fun _ => la) (set_lon (fun _ => lo) c).

(** update_planet_position 185-215; Units.deg = pi/180.  The cosine in line 203 is taken of the
    latitude change in degrees, as in the source. *)
Definition deg : R := PI / 180.
Definition update_planet_position (an : analyses) (true_course : R) (n : nat) (nu : numerics)
    (c : conds) : conds :=
  let gamma i := vy (rot c i) - alpha c i in
  let radius i := alt c i + an_radius an in
  let lamdadot i := speed c i / radius i * cos (gamma i) * cos true_course in
  let lamda i := mulv n (t_I nu) lamdadot i / deg in
  let mudot i := speed c i / radius i * cos (gamma i) * sin true_course / cos (lamda i) in
  let mu i := mulv n (t_I nu) mudot i / deg in
  let la := lat c 0%nat in let lo := lon c 0%nat in
  set_lon (fun i => lo + mu i) (set_lat (fun i => la + lamda i) c).

(** update_orientations 254-313, one control point.
    [wind_axes r v] = (angle of attack, beta, body to inertial, wind to inertial) *)
Definition wind_axes (r v : v3) : R * R * m3 * m3 :=
  let T_inertial2body := dcm_210 r in
  let T_body2inertial := mtranspose T_inertial2body in
  let V_body := mapply T_inertial2body v in
  let V_stability := V3 (vx V_body) 0 (vz V_body) in
  let V_stability_magnitude := sqrt (vdot V_stability V_stability) in
  let a := arctan2 (vz V_stability) (vx V_stability) in
  let b := arctan2 (vy V_body) V_stability_magnitude in
  let T_wind2body := dcm_210 (V3 0 a b) in
  (a, b, T_body2inertial, mprod T_wind2body T_body2inertial).
Definition update_orientations (c : conds) : conds :=
  let w i := wind_axes (rot c i) (vel c i) in
  let a i := fst (fst (fst (w i))) in
  let b i := snd (fst (fst (w i))) in
  set_w2i (fun i => snd (w i))
    (set_wind_rot (fun i => V3 0 (a i) (b i))
      (set_b2i (fun i => snd (fst (w i)))
        (set_roll (fun i => vx (rot c i)) (set_beta (fun i => - b i) (set_alpha a c))))).

(** update_forces 351-374 *)
Definition update_forces (c : conds) : conds :=
  set_total_f (fun i =>
    vplus (vplus (vplus (mapply (w2i c i) (lift_f c i)) (mapply (w2i c i) (drag_f c i)))
                 (mapply (b2i c i) (thrust_f c i)))
          (weight_f c i)) c.

(** integrate_inertial_horizontal_position 404-419: both columns of the integral hold the
    x velocity (415) *)
Definition integrate_inertial_horizontal_position (true_course : R) (n : nat) (nu : numerics)
    (c : conds) : conds :=
  let x := mulv n (t_I nu) (fun j => vx (vel c j)) in
  let p0 := pos c 0%nat in let R0 := range c 0%nat in
  set_range (fun i => R0 + x i)
    (set_pos (fun i => V3 (vx p0 + x i * cos true_course) (vy p0 + x i * sin true_course)
                          (vz (pos c i))) c).

(** update_acceleration 449-456 *)
Definition update_acceleration (n : nat) (nu : numerics) (c : conds) : conds :=
  set_acc (fun i => V3 (mulv n (t_D nu) (fun j => vx (vel c j)) i)
                       (mulv n (t_D nu) (fun j => vy (vel c j)) i)
                       (mulv n (t_D nu) (fun j => vz (vel c j)) i)) c.

(** ** Weights.py *)
(** initialize_weights 41-49 *)
Definition initialize_weights (an : analyses) (prev : initials) (c : conds) : conds :=
  let m_initial := match prev with
                   | Some (np, p) => mass p (np - 1)%nat
                   | None => an_takeoff an
                   end in
  set_mass (fun i => mass c i + (m_initial - mass c 0%nat)) c.
(** update_gravity 76-83 *)
Definition update_gravity (an : analyses) (c : conds) : conds :=
  set_grav (fun i => an_gravity an (alt c i)) c.
(** [a[1:,0] = b[1:,0]] *)
Definition keep_first (a b : col) : col := fun i => match i with O => a O | S _ => b i end.
(** update_weights 120-167 *)
Definition update_weights (n : nat) (nu : numerics) (c : conds) : conds :=
  let integral (rate : col) := mulv n (t_I nu) (fun j => - rate j) in
  let m i := mass c 0%nat + integral (mdot c) i in
  let W i := m i * grav c i in
  if has_add c then
    let mf i := fuel_mass c 0%nat + integral (fuel_rate c) i in
    let ma i := add_mass c 0%nat + integral (add_rate c) i in
    set_add_mass (keep_first (add_mass c) ma)
      (set_fuel_mass (keep_first (fuel_mass c) mf)
        (set_weight_f (fun i => with_z (W i) (weight_f c i))
          (set_mass (keep_first (mass c) m) c)))
  else
    set_weight_f (fun i => with_z (W i) (weight_f c i)) (set_mass (keep_first (mass c) m) c).

(** ** Aerodynamics.py *)
(** update_altitude 37-38 *)
Definition update_altitude (c : conds) : conds := set_alt (fun i => - vz (pos c i)) c.
(** update_atmosphere 74-90 *)
Definition update_atmosphere (an : analyses) (dT : R) (c : conds) : conds :=
  set_visc (fun i => an_visc an (alt c i) dT)
    (set_sound (fun i => an_sound an (alt c i) dT)
      (set_rho (fun i => an_rho an (alt c i) dT)
        (set_temp (fun i => an_temp an (alt c i) dT)
          (set_press (fun i => an_press an (alt c i) dT) c)))).
(** update_freestream 124-147 *)
Definition update_freestream (c : conds) : conds :=
  let V2 i := vx (vel c i) * vx (vel c i) + vy (vel c i) * vy (vel c i) + vz (vel c i) * vz (vel c i) in
  let V i := sqrt (V2 i) in
  set_dynp (fun i => 1 / 2 * rho c i * V2 i)
    (set_reyn (fun i => rho c i * V i / visc c i)
      (set_mach (fun i => V i / sound c i) (set_speed V c))).
(** update_aerodynamics 182-217.  The comparisons are taken one after the other, as in 195-201. *)
Definition limit_CL (CLmax q cl : R) : R :=
  let cl := if Rltb 0 q then cl else 0 in
  let cl := if Rltb CLmax cl then CLmax else cl in
  if Rltb cl (- CLmax) then - CLmax else cl.
Definition limit_CD (q cd : R) : R := if Rltb 0 q then cd else 0.
Definition update_aerodynamics (an : analyses) (c : conds) : conds :=
  let '(cl0, cd0) := an_aero an c in
  let cl i := limit_CL (an_CLmax an) (dynp c i) (cl0 i) in
  let cd i := limit_CD (dynp c i) (cd0 i) in
  set_drag_f (fun i => V3 (- cd i * dynp c i * an_Sref an) 0 0)
    (set_lift_f (fun i => V3 0 0 (- cl i * dynp c i * an_Sref an))
      (set_CD cd (set_CL cl c))).

(** ** Energy.py *)
(** update_thrust 84-99; once additional fuel has been reported the flag stays set *)
Definition update_thrust (an : analyses) (c : conds) : conds :=
  let '(F, m, extra, b) := an_energy an c in
  let c1 := set_batt b (set_mdot m (set_thrust_f F c)) in
  match extra with
  | Some (f, a) => set_add_rate a (set_fuel_rate f (set_has_add true c1))
  | None => c1
  end.
(** initialize_battery 35-61; [flag] is segment.battery_discharge and [T] the segment's
    battery_pack_temperature, if it has one *)
Definition initialize_battery (flag : bool) (T : option R) (prev : initials) (c : conds) : conds :=
  let b := batt c in
  let b1 := match prev with
            | None => b
            | Some (np, p) =>
                let q := batt p in let l := (np - 1)%nat in
                {| b_energy := fun _ => b_energy q l;
                   b_pack_temp := fun _ => b_pack_temp q l;
                   b_cell_temp := fun _ => b_cell_temp q l;
                   b_throughput := fun _ => b_throughput q l;
                   b_max_initial := b_max_initial q;
                   b_max_aged := if flag then b_max_aged q else b_max_initial q * b_fade q;
                   b_fade := b_fade q; b_growth := b_growth q; b_day := b_day q;
                   b_discharge := flag |}
            end in
  let b2 := match T with
            | None => b1
            | Some t => {| b_energy := b_energy b1; b_pack_temp := fun _ => t;
                           b_cell_temp := fun _ => t; b_throughput := b_throughput b1;
                           b_max_initial := b_max_initial b1; b_max_aged := b_max_aged b1;
                           b_fade := b_fade b1; b_growth := b_growth b1; b_day := b_day b1;
                           b_discharge := b_discharge b1 |}
            end in
  set_batt b2 c.
