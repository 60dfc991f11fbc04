(** * Further mission segments: optimised climb, charging, noise tracks, single points, variable range; the way over the globe

    Sources under /repo/trunk/SUAVE:
      OC = Methods/Missions/Segments/Climb/Optimized.py, OP = Methods/Missions/Segments/optimize.py,
      BC = Methods/Missions/Segments/Ground/Battery_Charge_Discharge.py,
      IB = Methods/Power/Battery/append_initial_battery_conditions.py,
      NC, ND = Methods/Missions/Segments/Climb, Descent/Constant_Speed_Constant_Angle_Noise.py,
      SP = Methods/Missions/Segments/Single_Point/*.py, VC = Methods/Missions/Segments/Cruise/Variable_Cruise_Distance.py
    Numbers are reals, columns are functions of the row; the vocabulary of conditions is that of M_Mission. *)
From Coq Require Import Reals List Bool ZArith Arith.
From Verif Require Import PyBase M_Opt M_Rot M_Mission M_Segments.
Import ListNotations.
Local Open Scope R_scope.
Local Open Scope list_scope.

(** ** Optimised climb *)
(** OC 58-61: the speeds at the [n] points from the unknown ones; [vel] has n-1 rows, or n-2 with an end speed *)
Definition climb_speeds (n : nat) (v0 : R) (vf : option R) (vel : col) : col :=
  fun i => match i with
           | O => v0
           | S j => match vf with Some v => if Nat.eqb i (n - 1) then v else vel j | None => vel j end
           end.
Fixpoint all_zero (n : nat) (f : col) : bool :=
  match n with O => true | S k => (if Req_EM_T (f k) 0 then true else false) && all_zero k f end.
(** OC 63-64: angles that are all zero become tiny.  (66-67 does the same to the unknown speeds, but after they have been copied into v_mag.) *)
Definition tiny : R := / 10 ^ 16.
Definition climb_angles (n : nat) (gamma : col) : col := if all_zero n gamma then fun _ => tiny else gamma.
(** the unknowns of the optimiser *)
Record guess := Guess { gu_throttle : col; gu_theta : col; gu_gamma : col; gu_vel : col }.
(** OC 50-77 *)
Definition unpack_climb (n : nat) (v0 : R) (vf : option R) (u : guess) (c : conds) : conds :=
  let g := climb_angles n (gu_gamma u) in let v := climb_speeds n v0 vf (gu_vel u) in
  put_vz (fun i => - v i * sin (g i)) (put_vx (fun i => v i * cos (g i)) (put_pitch (gu_theta u) (set_throttle (gu_throttle u) c))).
(** OC 100-131: the clock is stretched until the climb ends at the end altitude; the first time is kept (129) *)
Definition climb_clock (n : nat) (nu : numerics) (alt0 altf : R) (c : conds) : numerics * conds :=
  let up j := - vz (vel c j) in
  let dt := (altf - alt0) / mulv n (nd_I nu) up (n - 1)%nat in
  let x i := nd_x nu i * dt in let D i j := nd_D nu i j / dt in let I i j := nd_I nu i j * dt in
  let h i := mulv n I up i + alt0 in
  (Numerics (nd_x nu) (nd_D nu) (nd_I nu) x D I,
   set_alt h (put_altitude_z h (set_time (fun i => if Nat.eqb i 0 then time c 0%nat else time c 0%nat + x i) c))).

(** ** The optimiser's view of the segment (OP) *)
Section Optimise.
Variable state : Type.                      (* everything the segment holds *)
Variable iterate : col -> state -> state.   (* process.iterate after the unknowns have been stored *)
Variable objective : state -> R.            (* state.objective_value *)
Variable equalities : state -> list R.      (* state.constraint_values *)
Variable inequalities : state -> list R.    (* OP 229-244 *)
(** OP 122, 152, 225: [inputs_last] is an array and [unknowns] a Data, so no element compares equal and the cached values are never used *)
Definition cached (last : option col) (u : col) : bool := false.
Record seg := Seg { se_last : option col; se_state : state }.
(** OP 117-123 with OC 176-180: cache_inputs ends every iteration *)
Definition refresh (u : col) (s : seg) : seg := if cached (se_last s) u then s else Seg (Some u) (iterate u (se_state s)).
Inductive request := Ask_objective (u : col) | Ask_equalities (u : col) | Ask_inequalities (u : col).
Definition asked (r : request) : col := match r with Ask_objective u | Ask_equalities u | Ask_inequalities u => u end.
(** OP 100-157, 199-246 *)
Definition answer (r : request) (s : seg) : list R * seg :=
  let s' := refresh (asked r) s in
  (match r with Ask_objective _ => [objective (se_state s')] | Ask_equalities _ => equalities (se_state s') | Ask_inequalities _ => inequalities (se_state s') end, s').
(** OP 57-58: fmin_slsqp asks as it likes and returns a point; the point is not stored in the segment *)
Fixpoint answers (l : list request) (s : seg) : seg := match l with [] => s | r :: t => answers t (snd (answer r s)) end.
Definition converge_opt (l : list request) (best : col) (s : seg) : seg := answers l s.
End Optimise.

(** OP 229-244 and 281-297: the inequalities of [n] points *)
Definition rows (n : nat) (f : col) : list R := map f (seq 0 n).
Definition time_rows (n : nat) (t : col) : list R := map (fun i => (t (S i) - t i) / t (n - 1)%nat) (seq 0 (n - 1)).
Definition inequality_rows (n : nat) (limit altf : R) (t cl h ax : col) : list R :=
  time_rows n t ++ rows n (fun i => (limit - cl i) / limit) ++ rows n cl ++ rows n (fun i => h i / altf) ++ rows n ax.
Definition pyopt_rows (eq : list R) (n : nat) (limit altf : R) (t cl h ax : col) : list R :=
  eq ++ time_rows n t ++ rows n (fun i => (limit - cl i) / limit) ++ rows n (fun i => h i / altf) ++ rows n ax ++ rows n cl.
(** OP 80-83: number of constraints announced *)
Definition announced (n : nat) : nat := 2 * n + (5 * n - 1).
(** OP 302: [None] is nan; [np.isnan(np.array(const).any())] asks whether a boolean is nan *)
Definition is_nan (x : option R) : bool := match x with None => true | Some _ => false end.
Definition pyopt_fail (obj : option R) (const : list (option R)) : bool := is_nan obj || false.
(** OP 160-196: bounds of throttle, angles and speeds; and the packed unknowns (the order of Optimized.__defaults__ 90-93) *)
Definition bounds (n : nat) (end_speed : bool) : list (R * R) :=
  repeat (0, 1) n ++ repeat (0, PI / 2) n ++ repeat (0, PI / 2) n ++ repeat (0, 2000) (if end_speed then n - 2 else n - 1).
Definition packed (n : nat) (end_speed : bool) (u : guess) : list R :=
  rows n (gu_throttle u) ++ rows n (gu_theta u) ++ rows n (gu_gamma u) ++ rows (if end_speed then n - 2 else n - 1) (gu_vel u).

(** ** Charging *)
(** a pack: charging current and voltage of a cell, cells in parallel and in series *)
Record charger := Charger { cg_I : R; cg_par : R; cg_V : R; cg_ser : R }.
Definition charging_power (g : charger) : R := cg_I g * cg_par g * (cg_V g * cg_ser g).
(** BC 24-42: [before] is the energy at the end of the segment before and the aged capacity, [own] the segment's battery_energy, [contingency] the user's
    setting, which is overwritten (25); without either the energies are unbound, noticed when charging *)
Definition charge_duration (before : option (R * R)) (own : option R) (contingency time : R) (discharge : bool) (nets : list charger) : result R :=
  let energies := match before with Some p => Some p | None => match own with Some e => Some (e, e) | None => None end end in
  if discharge then Ok time
  else match nets with
       | [] => Ok time
       | _ => match energies with
              | None => Err UnboundLocalError
              | Some (e, emax) => Ok (fold_left (fun _ g => (emax - e) * (5 / 4) / charging_power g) nets time)
              end
       end.
(** BC 44-52 *)
Definition charge_times (d : R) (nu : numerics) (c : conds) : conds := set_time (fun i => nd_x nu i * d + time c 0%nat) c.

(** IB: attributes of the segment that may be missing *)
Record pack_attrs := Pack_attrs {
  pa_deviation : option R;       (* temperature_deviation, or None *)
  pa_discharge : option bool; pa_temperature : option R; pa_max_aged : option R; pa_energy : option R;
  pa_day : option Z; pa_throughput : option R; pa_growth : option R; pa_fade : option R }.
Definition get {A} (o : option A) (d : A) : A := match o with Some a => a | None => d end.
(** IB 64-138: [air] gives the temperature of the standard atmosphere for the deviation; the battery's max_energy is [full].  The state of charge is the last
    component, None when it is not assigned *)
Definition initial_battery (air : R -> R) (full : R) (a : pack_attrs) (b : battery) : result (battery * option R) :=
  match pa_deviation a with
  | None => Err UnboundLocalError
  | Some dev =>
      let T := get (pa_temperature a) (air dev) in
      let aged := get (pa_max_aged a) full in
      let flag := get (pa_discharge a) true in
      match pa_energy a with
      | None => Ok (Battery (b_energy b) (fun _ => T) (fun _ => T) (b_throughput b) (b_max_initial b) aged (b_fade b) (b_growth b) (b_day b) flag, None)
      | Some e => Ok (Battery (fun _ => e) (fun _ => T) (fun _ => T) (fun _ => get (pa_throughput a) 0) e aged (get (pa_fade a) 1) (get (pa_growth a) 1) (get (pa_day a) 0%Z) flag,
                      Some (e / aged))
      end
  end.

(** ** Noise tracks *)
Definition Rceil (x : R) : Z := (1 - up (- x))%Z.
(** NC 37-54 *)
Definition climb_points (v angle : R) : Z := Rceil ((6500 + 500) / (v * cos angle) / (1 / 2) + 1).
(** NC 88-112: [len] control points *)
Definition climb_noise (len : nat) (nu : numerics) (v angle : R) (c : conds) : conds :=
  let vz := - v * sin angle in let alt0 := 10668 / 1000 in let altf := alt0 + (- vz) * (1 / 2) * INR len in
  let h i := nd_x nu i * (altf - alt0) + alt0 in
  set_alt h (put_altitude_z h (put_vz (fun _ => vz) (put_vx (fun _ => v * cos angle) c))).
(** ND 43-59 *)
Definition descent_points (v angle : R) : Z := Rceil (4000 / (v * cos angle) / (1 / 2) + 1).
(** ND 96-121; a foot is 0.3048 m *)
Definition descent_noise (nu : numerics) (v angle : R) (c : conds) : conds :=
  let altf := 50 * (3048 / 10000) in let m := 2000 * tan angle in let y0 := m + altf in let alt0 := y0 + m in
  let h i := nd_x nu i * (altf - alt0) + alt0 in
  set_alt h (put_altitude_z h (put_vz (fun _ => - v * sin (- angle)) (put_vx (fun _ => v * cos (- angle)) c))).

(** ** Single points *)
(** SP/Set_Speed_Set_Altitude.py 47-62 and its siblings; 88-96 (update_weights) *)
Definition single_point (altitude : option R) (prev : initials) (v ax az : R) (c : conds) : result conds :=
  match resolve_altitude altitude prev with
  | None => Err AttributeError
  | Some h => Ok (set_acc (fun _ => V3 ax 0 az) (put_vx (fun _ => v) (level h c)))
  end.
Definition single_weights (c : conds) : conds := set_weight_f (fun i => with_z (mass c 0%nat * grav c i) (weight_f c i)) c.
(** Climb/Common.py 75-80; SP/Set_Speed_Set_Altitude_No_Propulsion.py 120-124 *)
Definition residual_forces (c : conds) (i : nat) : R * R := (vx (total_f c i) / mass c i - vx (acc c i), vz (total_f c i) / mass c i - vz (acc c i)).
Definition residual_force (c : conds) (i : nat) : R := vz (total_f c i) / mass c i - vz (acc c i).

(** ** Variable range *)
(** VC 104-108, 141-145; a mission as a function of the cruise distance gives the final value *)
Definition target_residual (final target : R) : R := (final - target) / target.
