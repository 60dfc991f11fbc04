(** * Model of the mission segments and of a sequential mission

    Source: /repo/trunk/SUAVE/Methods/Missions/Segments/Climb/*.py, Cruise/*.py, Descent/*.py,
            Hover/*.py, Transition/*.py, Ground/Common.py, Ground/Takeoff.py, Ground/Landing.py
            (lines at each definition)
            /repo/trunk/SUAVE/Analyses/Mission/Segments/ (the process tables, lines at each table)
            /repo/trunk/SUAVE/Methods/Missions/Segments/Common/Sub_Segments.py 41-52, 136-137
            /repo/trunk/SUAVE/Methods/Missions/Segments/converge_root.py 43-103
            /repo/trunk/SUAVE/Analyses/Mission/Segments/Segment.py 160-181

    Simplifications: as in M_Mission; a raised exception is [None]; the root finder is any
    sequence of calls of [iterate] with any unknowns; the parameters of a segment that the
    functions demand are present (missing optional ones are [None]).  Single_Point segments, the
    Noise variants and Climb.Optimized are left out. *)
From Coq Require Import Reals List Bool.
From Verif Require Import M_Opt M_Rot M_Mission.
Import ListNotations.
Local Open Scope R_scope.
Local Open Scope list_scope.

(** ** Segment types and their parameters *)
Inductive climb_law :=
| Speed_rate (v rate : R)             (* Climb.Constant_Speed_Constant_Rate *)
| Speed_angle (v angle : R)           (* Climb.Constant_Speed_Constant_Angle *)
| Speed_distance (v distance : R)     (* Climb.Constant_Speed_Linear_Altitude *)
| Linear_speed_rate (v0 vf rate : R)  (* Climb.Linear_Speed_Constant_Rate *)
| Mach_rate (M rate : R)              (* Climb.Constant_Mach_Constant_Rate *)
| Mach_distance (M distance : R)      (* Climb.Constant_Mach_Linear_Altitude *)
| Linear_mach_rate (M0 Mf rate : R)   (* Climb.Linear_Mach_Constant_Rate *)
| EAS_rate (eas rate : R)             (* Climb.Constant_EAS_Constant_Rate *)
| CAS_rate (cas rate : R)             (* Climb.Constant_CAS_Constant_Rate *)
| Dynp_rate (q rate : R)              (* Climb.Constant_Dynamic_Pressure_Constant_Rate *)
| Descent_speed_rate (v rate : R)     (* Descent.Constant_Speed_Constant_Rate *)
| Descent_speed_angle (v angle : R)   (* Descent.Constant_Speed_Constant_Angle *)
| Descent_linear_mach_rate (M0 Mf rate : R) (* Descent.Linear_Mach_Constant_Rate *)
| Descent_EAS_rate (eas rate : R)     (* Descent.Constant_EAS_Constant_Rate *)
| Descent_CAS_rate (cas rate : R).    (* Descent.Constant_CAS_Constant_Rate *)

Inductive cruise_law :=
| Cruise_speed (v distance : R)       (* Cruise.Constant_Speed_Constant_Altitude *)
| Cruise_mach (M distance : R)        (* Cruise.Constant_Mach_Constant_Altitude *)
| Cruise_dynp (q distance : R)        (* Cruise.Constant_Dynamic_Pressure_Constant_Altitude *)
| Loiter_speed (v duration : R)       (* ..._Loiter *)
| Loiter_mach (M duration : R)
| Loiter_dynp (q duration : R)
| Cruise_accel (v0 vf ax : R)         (* Cruise.Constant_Acceleration_Constant_Altitude *)
| Cruise_pitch (T0 : option R) (Tf rate : R) (* Cruise.Constant_Pitch_Rate_Constant_Altitude *)
| Transition_pitch (v0 vf ax : R) (T0 : option R) (Tf : R)
    (* Transition.Constant_Acceleration_Constant_Pitchrate_Constant_Altitude *)
| Hovering (duration : R).            (* Hover.Hover *)

Inductive kind :=
| Climbing (alt0 : option R) (altf : R) (law : climb_law)
| Cruising (altitude : option R) (law : cruise_law)
| Hover_climb (alt0 : option R) (altf rate : R)
| Hover_descent (alt0 : option R) (altf rate : R)
| Transition_climb (alt0 : option R) (altf angle : R) (v0 : option R) (ax : R) (T0 : option R) (Tf : R)
| Throttle_climb (alt0 : option R) (altf v throttle : R)
| Throttle_cruise (altitude : option R) (v0 : option R) (vf throttle : R)
| Mach_angle (alt0 : option R) (altf M angle : R)  (* Climb.Constant_Mach_Constant_Angle *)
| Dynp_angle (alt0 : option R) (altf q angle : R)  (* Climb.Constant_Dynamic_Pressure_Constant_Angle *)
| Takeoff_run (altitude : option R) (v0 : option R) (vf throttle friction : R)
| Landing_run (altitude : option R) (v0 : option R) (vf throttle friction : R).

(** the attribute read by initialize_inertial_position (Frames.py 51-54) *)
Definition start_altitude (k : kind) : option R :=
  match k with
  | Climbing h _ _ | Cruising h _ | Hover_climb h _ _ | Hover_descent h _ _
  | Transition_climb h _ _ _ _ _ _ | Throttle_climb h _ _ _ | Throttle_cruise h _ _ _
  | Mach_angle h _ _ _ | Dynp_angle h _ _ _ | Takeoff_run h _ _ _ _ | Landing_run h _ _ _ _ => h
  end.

(** the unknowns a solver may set *)
Record unknowns := Unknowns {
  u_throttle : col; u_body_angle : col; u_altitudes : col; u_wind_angle : col;
  u_accel_x : col; u_velocity : col; u_time : R
}.

(** settings of a segment other than its schedule *)
Record settings := Settings {
  true_course : R; temperature_deviation : R; segment_start_time : option R;
  segment_position : option (R * R);                 (* latitude, longitude *)
  discretization : nat -> col * mat * mat;
  battery_in_initialize : bool; battery_in_iterate : bool; (* where initialize_battery was added *)
  battery_discharge : bool; battery_temperature : option R;
  unpack_skipped : bool   (* the user has replaced iterate.unknowns.mission by skip *)
}.

(** ** The state of a segment while it is evaluated *)
Record world := World {
  w_prev : initials; w_n : nat; w_kind : kind; w_num : numerics; w_cur : conds
}.
Definition set_cur (c : conds) (w : world) : world :=
  World (w_prev w) (w_n w) (w_kind w) (w_num w) c.
Definition set_num (nu : numerics) (w : world) : world :=
  World (w_prev w) (w_n w) (w_kind w) nu (w_cur w).
Definition set_kind (k : kind) (w : world) : world :=
  World (w_prev w) (w_n w) k (w_num w) (w_cur w).

(** the start altitude: the attribute, or the end of the previous segment, or AttributeError
    (e.g. Climb/Constant_Speed_Constant_Rate.py 52-54) *)
Definition resolve_altitude (h : option R) (prev : initials) : option R :=
  match h with
  | Some a => Some a
  | None => match prev with Some (np, p) => Some (-1 * vz (pos p (np - 1)%nat)) | None => None end
  end.
(** pitch_initial None: inherit the last pitch angle, e.g. Constant_Pitch_Rate 59-61 *)
Definition resolve_pitch (T : option R) (prev : initials) : option R :=
  match T with
  | Some a => Some a
  | None => match prev with Some (np, p) => Some (vy (rot p (np - 1)%nat)) | None => None end
  end.

(** [velocity_vector[:,0] = x], [velocity_vector[:,2] = z], [position_vector[:,2] = -alt] *)
Definition put_vx (x : col) (c : conds) : conds := set_vel (fun i => with_x (x i) (vel c i)) c.
Definition put_vz (z : col) (c : conds) : conds := set_vel (fun i => with_z (z i) (vel c i)) c.
Definition put_altitude_z (h : col) (c : conds) : conds :=
  set_pos (fun i => with_z (- h i) (pos c i)) c.
Definition put_pitch (t : col) (c : conds) : conds := set_rot (fun i => with_y (t i) (rot c i)) c.

(** ** Climb and descent: initialize_conditions *)
Definition knots : R := 1852 / 3600.
(** Constant_CAS_Constant_Rate.py 71-82 (climb), 69-80 (descent) *)
Definition cas_speed (cas p rho p0 rho0 : R) : R :=
  let kcas := cas / knots in
  let delta := p / p0 in
  let M := 2.236 * sqrt (Rpower ((Rpower (1 + 4.575 / 10 ^ 7 * kcas ^ 2) 3.5 - 1) / delta + 1) 0.2857 - 1) in
  let qc := p * (Rpower (1 + 0.2 * M ^ 2) 3.5 - 1) in
  let eas := cas * sqrt (p / p0) * sqrt ((Rpower (qc / p + 1) 0.286 - 1) / (Rpower (qc / p0 + 1) 0.286 - 1)) in
  eas / sqrt (rho / rho0).

(** sqrt(v_mag**2 - v_z**2) *)
Definition horizontal (v vz : R) : R := sqrt (v ^ 2 - vz ^ 2).

(** the horizontal and vertical velocities of each law, after the conditions have the state the
    law sees:
    Constant_Speed_Constant_Rate 60-62; Constant_Speed_Constant_Angle 59-61;
    Constant_Speed_Linear_Altitude 50-52, 61-62; Linear_Speed_Constant_Rate 63-65;
    Constant_Mach_Constant_Rate 66-68; Constant_Mach_Linear_Altitude 66-69, 78-79;
    Linear_Mach_Constant_Rate 69-72; Constant_EAS_Constant_Rate 66-73;
    Constant_CAS_Constant_Rate 68-87; Constant_Dynamic_Pressure_Constant_Rate 65-67;
    Descent/Constant_Speed_Constant_Rate 61-63; Descent/Constant_Speed_Constant_Angle 61-63;
    Descent/Linear_Mach_Constant_Rate 71-74; Descent/Constant_EAS_Constant_Rate 66-73;
    Descent/Constant_CAS_Constant_Rate 65-85 *)
Definition climb_velocity (an : analyses) (dT : R) (x : col) (h : col) (alt0 altf : R)
    (law : climb_law) (c : conds) : col * col :=
  match law with
  | Speed_rate v rate => (fun _ => horizontal v (- rate), fun _ => - rate)
  | Speed_angle v angle => (fun _ => v * cos angle, fun _ => - v * sin angle)
  | Speed_distance v d =>
      let angle := atan ((altf - alt0) / d) in
      (fun _ => cos angle * v, fun _ => - (sin angle * v))
  | Linear_speed_rate v0 vf rate =>
      (fun i => horizontal ((vf - v0) * x i + v0) (- rate), fun _ => - rate)
  | Mach_rate M rate => (fun i => horizontal (M * sound c i) (- rate), fun _ => - rate)
  | Mach_distance M d =>
      let angle := atan ((altf - alt0) / d) in
      (fun i => cos angle * (M * sound c i), fun i => - (sin angle * (M * sound c i)))
  | Linear_mach_rate M0 Mf rate =>
      (fun i => horizontal (((Mf - M0) * x i + M0) * sound c i) (- rate), fun _ => - rate)
  | EAS_rate eas rate =>
      (fun i => horizontal (eas / sqrt (rho c i / an_rho an 0 0)) (- rate), fun _ => - rate)
  | CAS_rate cas rate =>
      (fun i => horizontal (cas_speed cas (press c i) (rho c i) (an_press an 0 0) (an_rho an 0 0)) (- rate),
       fun _ => - rate)
  | Dynp_rate q rate => (fun i => horizontal (sqrt (2 * q / rho c i)) (- rate), fun _ => - rate)
  | Descent_speed_rate v rate => (fun _ => horizontal v rate, fun _ => rate)
  | Descent_speed_angle v angle => (fun _ => v * cos (- angle), fun _ => - v * sin (- angle))
  | Descent_linear_mach_rate M0 Mf rate =>
      (fun i => horizontal (((Mf - M0) * x i + M0) * sound c i) rate, fun _ => rate)
  | Descent_EAS_rate eas rate =>
      (fun i => horizontal (eas / sqrt (rho c i / an_rho an 0 0)) rate, fun _ => rate)
  | Descent_CAS_rate cas rate =>
      (fun i => horizontal (cas_speed cas (an_press an (h i) dT) (an_rho an (h i) dT)
                              (an_press an 0 dT) (an_rho an 0 dT)) rate,
       fun _ => rate)
  end.
(** what the law does to the conditions before it reads them: nothing; set the altitude and look
    up the atmosphere; or look up the atmosphere at the altitude the conditions happened to have
    (Constant_Dynamic_Pressure_Constant_Rate 53-54, Descent/Constant_CAS_Constant_Rate 63) *)
Definition climb_prepare (an : analyses) (dT : R) (h : col) (law : climb_law) (c : conds) : conds :=
  match law with
  | Speed_rate _ _ | Speed_angle _ _ | Speed_distance _ _ | Linear_speed_rate _ _ _
  | Descent_speed_rate _ _ | Descent_speed_angle _ _ => c
  | Dynp_rate _ _ | Descent_CAS_rate _ _ => update_atmosphere an dT c
  | _ => update_atmosphere an dT (set_alt h c)
  end.
(** whether the law writes freestream.altitude at the end: all but Constant_EAS (78) and
    Constant_CAS (92), which wrote it before, and Descent/Constant_EAS (78) *)
Definition init_climb (an : analyses) (dT : R) (prev : initials) (x : col)
    (h0 : option R) (altf : R) (law : climb_law) (c : conds) : option conds :=
  match resolve_altitude h0 prev with
  | None => None
  | Some alt0 =>
      let h i := x i * (altf - alt0) + alt0 in
      let c1 := climb_prepare an dT h law c in
      let '(v_x, v_z) := climb_velocity an dT x h alt0 altf law c1 in
      Some (set_alt h (put_altitude_z h (put_vz v_z (put_vx v_x c1))))
  end.

(** Climb/Common.py 106-122 *)
Definition update_differentials_altitude (n : nat) (nu : numerics) (c : conds) : conds :=
  let dz := vz (pos c (n - 1)%nat) - vz (pos c 0%nat) in
  let dt := Sum n (fun j => nd_I nu (n - 1)%nat j * dz * (1 / vz (vel c j))) in
  let t_initial := time c 0%nat in
  set_time (fun i => t_initial + nd_x nu i * dt) c.

(** ** Cruise, loiter, hover, transition at constant altitude: initialize_conditions *)
(** one row of [t_nondim * (t_final-t_initial) + t_initial] *)
Definition timeline (x t_initial t_final : R) : R := x * (t_final - t_initial) + t_initial.
Definition level (h : R) (c : conds) : conds :=
  put_altitude_z (fun _ => h) (set_alt (fun _ => h) c).
(** Returns the new conditions and the kind with the attributes the function stores back.
    Constant_Speed 49-58; Constant_Mach 54-73; Constant_Dynamic_Pressure 51-72 (the density is
    that of the altitude found in the conditions; in line 66 the (n,1) by (n,) product is (n,n)
    and its first column, which uses the first air speed, is kept); the Loiter variants;
    Constant_Acceleration 53-65; Constant_Pitch_Rate 59-76; Transition pitch rate 47-77;
    Hover 50-58 *)
Definition init_cruise (an : analyses) (dT : R) (prev : initials) (x : col)
    (h0 : option R) (law : cruise_law) (c : conds) : option (conds * kind) :=
  match resolve_altitude h0 prev with
  | None => None
  | Some h =>
      let t0 := time c 0%nat in
      match law with
      | Cruise_speed v d =>
          Some (set_time (fun i => timeline (x i) t0 (d / v + t0))
                  (put_vx (fun _ => v) (level h c)), Cruising h0 law)
      | Loiter_speed v d =>
          Some (set_time (fun i => timeline (x i) t0 (d + t0))
                  (put_vx (fun _ => v) (level h c)), Cruising h0 law)
      | Cruise_mach M d =>
          let c1 := update_atmosphere an dT (set_alt (fun _ => h) c) in
          let v i := M * sound c1 i in
          Some (set_time (fun i => timeline (x i) t0 (d / v i + t0)) (put_vx v (level h c1)), Cruising h0 law)
      | Loiter_mach M d =>
          let c1 := update_atmosphere an dT (set_alt (fun _ => h) c) in
          let v i := M * sound c1 i in
          Some (set_time (fun i => timeline (x i) t0 (d + t0)) (put_vx v (level h c1)), Cruising h0 law)
      | Cruise_dynp q d =>
          let c1 := update_atmosphere an dT c in
          let v i := sqrt (q / (rho c1 i * (1 / 2))) in
          Some (set_time (fun i => timeline (x i) t0 (d / v 0%nat + t0)) (put_vx v (level h c1)), Cruising h0 law)
      | Loiter_dynp q d =>
          let c1 := update_atmosphere an dT c in
          let v i := sqrt (q / (rho c1 i * (1 / 2))) in
          Some (set_time (fun i => timeline (x i) t0 (d + t0)) (put_vx v (level h c1)), Cruising h0 law)
      | Cruise_accel v0 vf ax =>
          let t i := timeline (x i) t0 ((vf - v0) / ax + t0) in
          Some (set_time t (put_vx (fun i => v0 + (t i - t0) * ax) (level h c)), Cruising h0 law)
      | Cruise_pitch T Tf rate =>
          match resolve_pitch T prev with
          | None => None
          | Some T0 =>
              let t i := timeline (x i) t0 ((Tf - T0) / rate + t0) in
              Some (set_time t (level h (put_pitch (fun i => rate * t i + T0) c)),
                    Cruising h0 (Cruise_pitch (Some T0) Tf rate))
          end
      | Transition_pitch v0 vf ax T Tf =>
          match resolve_pitch T prev with
          | None => None
          | Some T0 =>
              let tf := (vf - v0) / ax + t0 in
              let t i := timeline (x i) t0 tf in
              let angle i := if Rltb T0 Tf then T0 + t i * (Tf - T0) / (tf - t0)
                             else T0 - t i * (T0 - Tf) / (tf - t0) in
              Some (set_time t (put_vx (fun i => v0 + (t i - t0) * ax) (level h (put_pitch angle c))),
                    Cruising (Some h) (Transition_pitch v0 vf ax (Some T0) Tf))
          end
      | Hovering d =>
          Some (set_time (fun i => x i * d + t0) (put_vx (fun _ => 0) (level h c)), Cruising h0 law)
      end
  end.

(** Hover/Climb.py 39-70 and Hover/Descent.py 39-70: [dz] is the distance, [vzd] the velocity down *)
Definition init_hover_vertical (dz_sign vz_sign : R) (prev : initials) (x : col)
    (h0 : option R) (altf rate : R) (c : conds) : option conds :=
  match resolve_altitude h0 prev with
  | None => None
  | Some alt0 =>
      let h i := x i * (altf - alt0) + alt0 in
      let dt := dz_sign * (altf - alt0) / rate in
      let t0 := time c 0%nat in
      Some (set_time (fun i => t0 + x i * dt)
              (set_alt h (put_altitude_z h (put_vz (fun _ => vz_sign * rate) (put_vx (fun _ => 0) c)))))
  end.

(** Transition/Constant_Acceleration_Constant_Angle_Linear_Climb.py 58-105.  An inherited
    velocity is the previous segment's last velocity vector; a given one is a number. *)
Definition init_transition_climb (prev : initials) (x : col) (h0 : option R)
    (altf angle : R) (v0 : option R) (ax : R) (T0 : option R) (Tf : R) (c : conds) : option conds :=
  let v0v := match v0 with
             | Some s => Some (V3 s 0 0)
             | None => match prev with Some (np, p) => Some (vel p (np - 1)%nat) | None => None end
             end in
  match resolve_altitude h0 prev, resolve_pitch T0 prev, v0v with
  | Some alt0, Some T, Some v =>
      let v0_mag := sqrt (vdot v v) in
      let h i := x i * (altf - alt0) + alt0 in
      let ground := (altf - alt0) / tan angle in
      let true_distance := sqrt ((altf - alt0) ^ 2 + ground ^ 2) in
      let elapsed := (- v0_mag + sqrt (v0_mag ^ 2 + 2 * ax * true_distance)) / ax in
      let vf_mag := v0_mag + ax * elapsed in
      let t0 := time c 0%nat in
      let tf := t0 + elapsed in
      let t i := x i * (tf - t0) in
      let V := vf_mag - v0_mag in
      Some (set_time t
              (put_vz (fun i => - (x i * V * sin angle + vz v * sin angle))
                (put_vx (fun i => x i * V * cos angle + vx v * cos angle)
                  (put_altitude_z h (set_alt h
                    (put_pitch (fun i => t i * (Tf - T) / (tf - t0) + T) c))))))
  | _, _, _ => None
  end.

(** ** Constant throttle *)
(** Climb/Constant_Throttle_Constant_Speed.py 76-88 *)
Definition init_throttle_climb (prev : initials) (h0 : option R) (v thr : R) (c : conds) : option conds :=
  match resolve_altitude h0 prev with
  | None => None
  | Some _ => Some (put_vx (fun _ => v) (set_throttle (fun _ => thr) c))
  end.
(** update_velocity_vector_from_wind_angle 159-175 *)
Definition velocity_from_wind_angle (v : R) (u : unknowns) (c : conds) : conds :=
  let gamma i := u_body_angle u i - u_wind_angle u i in
  put_vz (fun i => - v * sin (gamma i)) (put_vx (fun i => v * cos (gamma i)) c).
(** update_differentials_altitude 116-147 *)
Definition throttle_differentials (n : nat) (nu : numerics) (prev : initials) (h0 : option R)
    (altf : R) (c : conds) : option conds :=
  match resolve_altitude h0 prev with
  | None => None
  | Some alt0 =>
      let up j := - vz (vel c j) in
      let dt := (altf - alt0) / Sum n (fun j => nd_I nu (n - 1)%nat j * up j) in
      let h i := alt0 + mulv n (fun i j => nd_I nu i j * dt) up i in
      let t0 := time c 0%nat in
      Some (set_alt h (put_altitude_z h (set_time (fun i => t0 + nd_x nu i * dt) c)))
  end.
(** Cruise/Constant_Throttle_Constant_Altitude.py 98-131 and Ground/Common.py 95-131: a zero
    speed becomes 0.01, and equal speeds are pulled apart *)
Definition adjust_start (v0 : R) : R := if Req_EM_T v0 0 then 1 / 100 else v0.
Definition adjust_end (v0 vf : R) : R :=
  let vf := if Req_EM_T vf 0 then 1 / 100 else vf in
  if Req_EM_T v0 vf then vf + 1 / 100 else vf.
Definition resolve_speed (v0 : option R) (prev : initials) : option R :=
  match v0 with
  | Some v => Some v
  | None => match prev with
            | Some (np, p) => let v := vel p (np - 1)%nat in Some (sqrt (vdot v v))
            | None => None
            end
  end.
Definition init_throttle_cruise (prev : initials) (h0 v0 : option R) (vf thr : R) (c : conds)
    : option (conds * kind) :=
  match resolve_altitude h0 prev, resolve_speed v0 prev with
  | Some h, Some s =>
      let a := adjust_start s in
      Some (level h (set_throttle (fun _ => thr) c), Throttle_cruise h0 (Some a) (adjust_end a vf) thr)
  | _, _ => None
  end.
(** integrate_velocity 55-64 *)
Definition integrate_velocity (n : nat) (nu : numerics) (v0 : R) (c : conds) : conds :=
  put_vx (fun i => v0 + mulv n (t_I nu) (fun j => vx (acc c j)) i) c.
(** Ground/Common.py 95-131.  The attributes stored back (117-118) are air_speed_start and
    air_speed_end, not the velocity_start and velocity_end the function reads, so a second
    evaluation starts again from the same ones; the air_speed_start that unpack_unknowns reads
    is recomputed here. *)
Definition init_ground (prev : initials) (x : col) (h0 v0 : option R) (vf thr : R) (c : conds)
    : option conds :=
  match resolve_altitude h0 prev, resolve_speed v0 prev with
  | Some h, Some s =>
      let a := adjust_start s in let b := adjust_end a vf in
      Some (level h (set_throttle (fun _ => thr) (put_vx (fun i => (b - a) * x i + a) c)))
  | _, _ => None
  end.
(** Ground/Common.py 161-178: normal force and friction *)
Definition compute_ground_forces (friction : R) (c : conds) : conds :=
  set_ground_f (fun i =>
    let N := - (vz (weight_f c i) + vz (mapply (w2i c i) (lift_f c i))) in
    V3 (N * friction) (vy (ground_f c i)) N) c.
(** Ground/Common.py 206-217 *)
Definition add_ground_forces (c : conds) : conds :=
  let c1 := update_forces c in
  set_total_f (fun i => vplus (total_f c1 i) (ground_f c1 i)) c1.

(** ** Constant Mach or dynamic pressure at constant climb angle *)
(** Constant_Mach_Constant_Angle.py 44-78; Constant_Dynamic_Pressure_Constant_Angle.py 49-88:
    both run at initialisation and at every iteration *)
Definition altitude_unknown_step (an : analyses) (dT : R) (prev : initials) (h0 : option R)
    (speed_at : conds -> nat -> R) (angle : R) (u : unknowns) (c : conds) : option conds :=
  match resolve_altitude h0 prev with
  | None => None
  | Some _ =>
      let c1 := update_atmosphere an dT (set_alt (u_altitudes u) c) in
      Some (put_pitch (u_body_angle u) (set_throttle (u_throttle u)
             (put_altitude_z (u_altitudes u)
               (put_vz (fun i => - speed_at c1 i * sin angle)
                 (put_vx (fun i => speed_at c1 i * cos angle) c1)))))
  end.
(** Climb/Optimized.py 100-131; altitude_start None raises TypeError in line 110 *)
Definition optimized_differentials (n : nat) (h0 : option R) (altf : R) (nu : numerics) (c : conds)
    : option (numerics * conds) :=
  match h0 with
  | None => None
  | Some alt0 =>
      let up j := - vz (vel c j) in
      let dt := (altf - alt0) / mulv n (nd_I nu) up (n - 1)%nat in
      let h i := mulv n (fun i j => nd_I nu i j * dt) up i + alt0 in
      let t0 := time c 0%nat in
      Some (Numerics (nd_x nu) (nd_D nu) (nd_I nu) (fun i => nd_x nu i * dt)
                     (fun i j => nd_D nu i j / dt) (fun i j => nd_I nu i j * dt),
            set_alt h (put_altitude_z h
              (set_time (keep_first (time c) (fun i => t0 + nd_x nu i * dt)) c)))
  end.

(** ** Steps of the process tables *)
Inductive step :=
| S_differentials | S_conditions | S_differentials_altitude | S_velocities
| S_differentials_throttle | S_battery
| S_time | S_weights_initial | S_position | S_planet_initial
| S_unpack
| S_differentials_time | S_differentials_optimized | S_acceleration | S_integrate_velocity
| S_altitude | S_atmosphere | S_gravity | S_freestream | S_orientations | S_thrust
| S_aerodynamics | S_weights | S_forces | S_ground_forces | S_forces_ground | S_planet
| S_horizontal.

(** initialize.conditions of each kind (Landing also runs Ground.Common's, whose effect its own
    repeats); Takeoff.py 42-54 also sets every row of the position to the first one and the mass
    to the take-off mass, Landing.py 40-51 the mass to the landing mass *)
Definition init_conditions (an : analyses) (st : settings) (u : unknowns) (w : world) : option world :=
  let c := w_cur w in let x := nd_x (w_num w) in let dT := temperature_deviation st in
  let keep o := match o with Some c' => Some (set_cur c' w) | None => None end in
  let both o := match o with Some (c', k) => Some (set_kind k (set_cur c' w)) | None => None end in
  match w_kind w with
  | Climbing h0 altf law => keep (init_climb an dT (w_prev w) x h0 altf law c)
  | Cruising h0 law => both (init_cruise an dT (w_prev w) x h0 law c)
  | Hover_climb h0 altf rate => keep (init_hover_vertical 1 (-1) (w_prev w) x h0 altf rate c)
  | Hover_descent h0 altf rate => keep (init_hover_vertical (-1) 1 (w_prev w) x h0 altf rate c)
  | Transition_climb h0 altf angle v0 ax T0 Tf =>
      keep (init_transition_climb (w_prev w) x h0 altf angle v0 ax T0 Tf c)
  | Throttle_climb h0 _ v thr => keep (init_throttle_climb (w_prev w) h0 v thr c)
  | Throttle_cruise h0 v0 vf thr => both (init_throttle_cruise (w_prev w) h0 v0 vf thr c)
  | Mach_angle h0 _ M angle =>
      keep (altitude_unknown_step an dT (w_prev w) h0 (fun c i => M * sound c i) angle u c)
  | Dynp_angle h0 _ q angle =>
      keep (altitude_unknown_step an dT (w_prev w) h0 (fun c i => sqrt (2 * q / rho c i)) angle u c)
  | Takeoff_run h0 v0 vf thr _ =>
      keep (match init_ground (w_prev w) x h0 v0 vf thr c with
            | Some c1 => Some (set_pos (fun _ => pos c1 0%nat) (set_mass (fun _ => an_takeoff an) c1))
            | None => None
            end)
  | Landing_run h0 v0 vf thr _ =>
      keep (match init_ground (w_prev w) x h0 v0 vf thr c with
            | Some c1 => Some (set_mass (fun _ => an_landing an) c1)
            | None => None
            end)
  end.

(** iterate.unknowns.mission of each kind.
    Climb/Common.py 42-47 and Cruise/Common.py 41-46: throttle and pitch; Hover/Common.py 32-35:
    throttle; Constant_Pitch_Rate 142-147: throttle and speed; Constant_Throttle_Constant_Speed
    39-42: pitch; Constant_Throttle_Constant_Altitude 24-44: pitch, acceleration, time;
    Ground/Common.py 44-61: speed and time *)
Definition unpack (an : analyses) (st : settings) (u : unknowns) (w : world) : option world :=
  let c := w_cur w in let dT := temperature_deviation st in
  let t0 := time c 0%nat in
  let new_time (x : col) := fun i => timeline (x i) t0 (t0 + u_time u) in
  let throttle_pitch := put_pitch (u_body_angle u) (set_throttle (u_throttle u) c) in
  let keep o := match o with Some c' => Some (set_cur c' w) | None => None end in
  match w_kind w with
  | Climbing _ _ _ | Transition_climb _ _ _ _ _ _ _ => Some (set_cur throttle_pitch w)
  | Cruising _ (Cruise_pitch _ _ _) =>
      Some (set_cur (put_vx (u_velocity u) (set_throttle (u_throttle u) c)) w)
  | Cruising _ (Hovering _) | Hover_climb _ _ _ | Hover_descent _ _ _ =>
      Some (set_cur (set_throttle (u_throttle u) c) w)
  | Cruising _ _ => Some (set_cur throttle_pitch w)
  | Throttle_climb _ _ _ _ => Some (set_cur (put_pitch (u_body_angle u) c) w)
  | Throttle_cruise _ _ _ _ =>
      Some (set_cur (set_time (new_time (nd_x (w_num w)))
              (set_acc (fun i => V3 (u_accel_x u i) 0 0) (put_pitch (u_body_angle u) c))) w)
  | Mach_angle h0 _ M angle =>
      keep (altitude_unknown_step an dT (w_prev w) h0 (fun c i => M * sound c i) angle u c)
  | Dynp_angle h0 _ q angle =>
      keep (altitude_unknown_step an dT (w_prev w) h0 (fun c i => sqrt (2 * q / rho c i)) angle u c)
  | Takeoff_run _ v0 _ _ _ | Landing_run _ v0 _ _ _ =>
      match resolve_speed v0 (w_prev w) with
      | None => None
      | Some s =>
          Some (set_cur (set_time (new_time (nd_x (w_num w)))
            (put_vx (fun i => match i with O => adjust_start s | S k => u_velocity u k end) c)) w)
      end
  end.

Definition run_step (an : analyses) (st : settings) (u : unknowns) (s : step) (w : world) : option world :=
  let c := w_cur w in let nu := w_num w in let n := w_n w in
  let cur c' := Some (set_cur c' w) in
  match s with
  | S_differentials => Some (set_num (initialize_differentials (discretization st) n nu) w)
  | S_conditions => init_conditions an st u w
  | S_differentials_altitude => cur (update_differentials_altitude n nu c)
  | S_velocities => match w_kind w with
                    | Throttle_climb _ _ v _ => cur (velocity_from_wind_angle v u c)
                    | _ => Some w
                    end
  | S_differentials_throttle =>
      match w_kind w with
      | Throttle_climb h0 altf _ _ =>
          match throttle_differentials n nu (w_prev w) h0 altf c with
          | Some c' => cur c'
          | None => None
          end
      | _ => Some w
      end
  | S_battery => cur (initialize_battery (battery_discharge st) (battery_temperature st) (w_prev w) c)
  | S_time => cur (initialize_time (w_prev w) (segment_start_time st) c)
  | S_weights_initial => cur (initialize_weights an (w_prev w) c)
  | S_position =>
      let '(p, c') := initialize_inertial_position (start_altitude (w_kind w)) (w_prev w) c in
      Some (World p n (w_kind w) nu c')
  | S_planet_initial => cur (initialize_planet_position (w_prev w) (segment_position st) c)
  | S_unpack => if unpack_skipped st then Some w else unpack an st u w
  | S_differentials_time => Some (set_num (update_differentials_time n c nu) w)
  | S_differentials_optimized =>
      match w_kind w with
      | Mach_angle h0 altf _ _ | Dynp_angle h0 altf _ _ =>
          match optimized_differentials n h0 altf nu c with
          | Some (nu', c') => Some (set_num nu' (set_cur c' w))
          | None => None
          end
      | _ => Some w
      end
  | S_acceleration => cur (update_acceleration n nu c)
  | S_integrate_velocity =>
      match w_kind w with
      | Throttle_cruise _ (Some v0) _ _ => cur (integrate_velocity n nu v0 c)
      | _ => None
      end
  | S_altitude => cur (update_altitude c)
  | S_atmosphere => cur (update_atmosphere an (temperature_deviation st) c)
  | S_gravity => cur (update_gravity an c)
  | S_freestream => cur (update_freestream c)
  | S_orientations => cur (update_orientations c)
  | S_thrust => cur (update_thrust an c)
  | S_aerodynamics => cur (update_aerodynamics an c)
  | S_weights => cur (update_weights n nu c)
  | S_forces => cur (update_forces c)
  | S_ground_forces => match w_kind w with
                       | Takeoff_run _ _ _ _ f | Landing_run _ _ _ _ f => cur (compute_ground_forces f c)
                       | _ => Some w
                       end
  | S_forces_ground => cur (add_ground_forces c)
  | S_planet => cur (update_planet_position an (true_course st) n nu c)
  | S_horizontal => cur (integrate_inertial_horizontal_position (true_course st) n nu c)
  end.

Fixpoint run_steps (an : analyses) (st : settings) (u : unknowns) (l : list step) (w : world) : option world :=
  match l with
  | [] => Some w
  | s :: rest => match run_step an st u s w with
                 | Some w' => run_steps an st u rest w'
                 | None => None
                 end
  end.

(** ** Process tables *)
(** process.initialize without expand_state (already done by expand_sub_segments, which then
    replaces it by skip, Sub_Segments.py 52-55): Climb/Unknown_Throttle.py 91-94,
    Climb/Constant_Throttle_Constant_Speed.py 94-98, and e.g.
    Cruise/Constant_Speed_Constant_Altitude.py 93-95 *)
Definition init_table (k : kind) : list step :=
  match k with
  | Climbing _ _ _ | Mach_angle _ _ _ _ | Dynp_angle _ _ _ _ =>
      [S_differentials; S_conditions; S_differentials_altitude]
  | Throttle_climb _ _ _ _ => [S_differentials; S_conditions; S_velocities; S_differentials_throttle]
  | _ => [S_differentials; S_conditions]
  end.
(** iterate.initials, e.g. Unknown_Throttle.py 109-113 *)
Definition initials_table : list step := [S_time; S_weights_initial; S_position; S_planet_initial].
(** iterate.conditions: Unknown_Throttle.py 120-133; Cruise tables 121-133; Hover.py 115-125;
    Constant_Throttle_Constant_Speed.py 124-139; Constant_Throttle_Constant_Altitude.py 124-137;
    Constant_Mach_Constant_Angle.py 82-84; Ground.py 140-153 *)
Definition conditions_table (k : kind) : list step :=
  match k with
  | Climbing _ _ _ =>
      [S_differentials_time; S_acceleration; S_altitude; S_atmosphere; S_gravity; S_freestream;
       S_orientations; S_thrust; S_aerodynamics; S_weights; S_forces; S_planet]
  | Mach_angle _ _ _ _ | Dynp_angle _ _ _ _ =>
      [S_differentials_optimized; S_acceleration; S_altitude; S_atmosphere; S_gravity; S_freestream;
       S_orientations; S_thrust; S_aerodynamics; S_weights; S_forces; S_planet]
  | Throttle_climb _ _ _ _ =>
      [S_velocities; S_differentials_throttle; S_differentials_time; S_acceleration; S_altitude;
       S_atmosphere; S_gravity; S_freestream; S_orientations; S_thrust; S_aerodynamics; S_weights;
       S_forces; S_planet]
  | Throttle_cruise _ _ _ _ =>
      [S_differentials_time; S_integrate_velocity; S_altitude; S_atmosphere; S_gravity;
       S_freestream; S_orientations; S_aerodynamics; S_thrust; S_weights; S_forces; S_planet]
  | Takeoff_run _ _ _ _ _ | Landing_run _ _ _ _ _ =>
      [S_differentials_time; S_altitude; S_atmosphere; S_gravity; S_freestream; S_orientations;
       S_thrust; S_aerodynamics; S_weights; S_ground_forces; S_forces_ground; S_planet]
  | Cruising _ (Hovering _) | Hover_climb _ _ _ | Hover_descent _ _ _ =>
      [S_differentials_time; S_altitude; S_atmosphere; S_gravity; S_freestream; S_orientations;
       S_thrust; S_weights; S_forces; S_planet]
  | _ =>
      [S_differentials_time; S_altitude; S_atmosphere; S_gravity; S_freestream; S_orientations;
       S_thrust; S_aerodynamics; S_weights; S_forces; S_planet]
  end.
(** the battery step is appended by the user to the initialize or to the iterate.initials table *)
Definition initialize_steps (st : settings) (k : kind) : list step :=
  init_table k ++ (if battery_in_initialize st then [S_battery] else []).
Definition iterate_steps (st : settings) (k : kind) : list step :=
  initials_table ++ (if battery_in_iterate st then [S_battery] else []) ++ S_unpack :: conditions_table k.
(** finalize.post_process.inertial_position *)
Definition finalize_steps : list step := [S_horizontal].

(** ** Evaluation *)
(** converge_root 43-103: the root finder calls iterate with unknowns of its choice *)
Fixpoint run_iterations (an : analyses) (st : settings) (calls : list unknowns) (w : world) : option world :=
  match calls with
  | [] => Some w
  | u :: rest => match run_steps an st u (iterate_steps st (w_kind w)) w with
                 | Some w' => run_iterations an st rest w'
                 | None => None
                 end
  end.

(** Segment.evaluate 178-181: initialize, converge, finalize.  [u0] are the unknowns stored in
    the state when the evaluation starts. *)
Definition evaluate_segment (an : analyses) (st : settings) (u0 : unknowns) (calls : list unknowns)
    (w : world) : option world :=
  match run_steps an st u0 (initialize_steps st (w_kind w)) w with
  | None => None
  | Some w1 => match run_iterations an st calls w1 with
               | None => None
               | Some w2 => run_steps an st u0 finalize_steps w2
               end
  end.

(** a segment of a mission: what is stored in its state and how the solver will drive it *)
Record segment := Segment {
  sg_settings : settings; sg_analyses : analyses; sg_n : nat; sg_kind : kind;
  sg_numerics : numerics; sg_conds : conds;
  sg_unknowns : unknowns; sg_calls : list unknowns
}.
Definition after (s : segment) (w : world) : segment :=
  Segment (sg_settings s) (sg_analyses s) (w_n w) (w_kind w) (w_num w) (w_cur w)
          (sg_unknowns s) (sg_calls s).
Definition with_conds (c : conds) (s : segment) : segment :=
  Segment (sg_settings s) (sg_analyses s) (sg_n s) (sg_kind s) (sg_numerics s) c
          (sg_unknowns s) (sg_calls s).

(** expand_sub_segments 48-50 makes the state of the previous segment the initials of the next;
    sequential_sub_segments 136-137 evaluates them in order.  The result lists the segments as
    they are afterwards: evaluating a segment may have changed the one before it. *)
Fixpoint run_mission (prev : option segment) (segs : list segment) : option (list segment) :=
  match segs with
  | [] => Some (match prev with Some p => [p] | None => [] end)
  | s :: rest =>
      let pr := match prev with Some p => Some (sg_n p, sg_conds p) | None => None end in
      match evaluate_segment (sg_analyses s) (sg_settings s) (sg_unknowns s) (sg_calls s)
              (World pr (sg_n s) (sg_kind s) (sg_numerics s) (sg_conds s)) with
      | None => None
      | Some w =>
          match run_mission (Some (after s w)) rest with
          | None => None
          | Some out =>
              Some (match prev, w_prev w with
                    | Some p, Some (_, c) => [with_conds c p]
                    | _, _ => []
                    end ++ out)
          end
      end
  end.
Definition evaluate_mission (segs : list segment) : option (list segment) := run_mission None segs.
