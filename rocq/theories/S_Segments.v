(** * What a user may expect of one segment: specification vocabulary *)
From Coq Require Import Reals List.
From Verif Require Import M_Rot S_Rot M_Mission M_Segments S_Mission.
Import ListNotations.
Local Open Scope R_scope.
Local Open Scope list_scope.

(** segment [b] of the evaluated mission [out] is what became of segment [s] of [segs] *)
Definition evaluated (segs out : list segment) (s b : segment) : Prop :=
  exists k, nth_error segs k = Some s /\ nth_error out k = Some b.

(** [b] is what evaluating a mission made of its segment [s] *)
Definition became (s b : segment) : Prop :=
  exists segs out, Forall usable segs /\ evaluate_mission segs = Some out /\ evaluated segs out s b.
(** segment [b], made of [s], follows segment [a] *)
Definition became_after (a s b : segment) : Prop :=
  exists segs out k, Forall usable segs /\ evaluate_mission segs = Some out /\
    nth_error segs (S k) = Some s /\ nth_error out k = Some a /\ nth_error out (S k) = Some b.

(** the control points of a segment *)
Definition point (s : segment) (i : nat) : Prop := (i < sg_n s)%nat.
(** dimensionless time of a control point *)
Definition fraction (s : segment) (i : nat) : R := fst (fst (discretization (sg_settings s) (sg_n s))) i.
(** what can be read off an evaluated segment *)
Definition altitude (s : segment) (i : nat) : R := alt (sg_conds s) i.
Definition air_speed (s : segment) (i : nat) : R := speed (sg_conds s) i.
Definition mach_number (s : segment) (i : nat) : R := mach (sg_conds s) i.
Definition dynamic_pressure (s : segment) (i : nat) : R := dynp (sg_conds s) i.
Definition climb_rate (s : segment) (i : nat) : R := - vz (vel (sg_conds s) i).
Definition ground_speed (s : segment) (i : nat) : R := vx (vel (sg_conds s) i).
Definition pitch (s : segment) (i : nat) : R := vy (rot (sg_conds s) i).
Definition since_start (s : segment) (i : nat) : R := time (sg_conds s) i - time (sg_conds s) 0%nat.
Definition distance_flown (s : segment) : R :=
  range (sg_conds s) (last_row (sg_n s)) - range (sg_conds s) 0%nat.
Definition deviation (s : segment) : R := temperature_deviation (sg_settings s).
Definition density_at (s : segment) (h : R) : R := an_rho (sg_analyses s) h (deviation s).
Definition sound_at (s : segment) (h : R) : R := an_sound (sg_analyses s) h (deviation s).

(** a segment whose state has not been given a sideways velocity; [level] if no vertical one
    either (the states of new segments hold zeros) *)
Definition no_sideways (s : segment) : Prop := forall i, vy (vel (sg_conds s) i) = 0.
Definition no_vertical (s : segment) : Prop := forall i, vz (vel (sg_conds s) i) = 0.

(** dimensionless integration over the whole segment gives constants back; true of the Chebyshev
    operators (C38) *)
Definition integrates_constants (st : settings) (n : nat) : Prop :=
  Sum n (snd (discretization st n) (last_row n)) = 1.

(** the kinds whose altitudes and times are asked for, not found by the solver *)
Definition scheduled (k : kind) : Prop :=
  match k with
  | Climbing _ _ _ | Cruising _ _ | Hover_climb _ _ _ | Hover_descent _ _ _
  | Transition_climb _ _ _ _ _ _ _ => True
  | _ => False
  end.
(** altitude at which a segment is asked to end *)
Definition asked_end (k : kind) : option R :=
  match k with
  | Climbing _ h _ | Hover_climb _ h _ | Hover_descent _ h _ | Transition_climb _ h _ _ _ _ _ => Some h
  | _ => None
  end.
(** the speed a climb or descent is asked to have at fraction [x] and altitude [h]; none for the
    laws of calibrated air speed and of dynamic pressure, see C27_calibrated and C27_pressure *)
Definition asked_speed (s : segment) (law : climb_law) (x h : R) : option R :=
  match law with
  | Speed_rate v _ | Speed_angle v _ | Speed_distance v _
  | Descent_speed_rate v _ | Descent_speed_angle v _ => Some v
  | Linear_speed_rate v0 vf _ => Some (v0 + x * (vf - v0))
  | Mach_rate M _ | Mach_distance M _ => Some (M * sound_at s h)
  | Linear_mach_rate M0 Mf _ | Descent_linear_mach_rate M0 Mf _ =>
      Some ((M0 + x * (Mf - M0)) * sound_at s h)
  | EAS_rate e _ | Descent_EAS_rate e _ => Some (e / sqrt (density_at s h / an_rho (sg_analyses s) 0 0))
  | CAS_rate _ _ | Descent_CAS_rate _ _ | Dynp_rate _ _ => None
  end.
(** the climb rate it is asked to have *)
Definition asked_rate (law : climb_law) : option R :=
  match law with
  | Speed_rate _ r | Linear_speed_rate _ _ r | Mach_rate _ r | Linear_mach_rate _ _ r
  | EAS_rate _ r | CAS_rate _ r | Dynp_rate _ r => Some r
  | Descent_speed_rate _ r | Descent_linear_mach_rate _ _ r | Descent_EAS_rate _ r
  | Descent_CAS_rate _ r => Some (- r)
  | Speed_angle v a => Some (v * sin a)
  | Descent_speed_angle v a => Some (- (v * sin a))
  | Speed_distance _ _ | Mach_distance _ _ => None
  end.
(** a climb slower than its air speed *)
Definition possible (law : climb_law) (v : R) : Prop :=
  match law with
  | Speed_angle _ _ | Descent_speed_angle _ _ | Speed_distance _ _ | Mach_distance _ _ => 0 <= v
  | _ => match asked_rate law with Some r => Rabs r <= v | None => True end
  end.

(** ** Coherence: what is stored of one control point fits together *)
Record coherent (an : analyses) (dT : R) (c : conds) (i : nat) : Prop := {
  co_pressure : press c i = an_press an (alt c i) dT;
  co_temperature : temp c i = an_temp an (alt c i) dT;
  co_density : rho c i = an_rho an (alt c i) dT;
  co_sound : sound c i = an_sound an (alt c i) dT;
  co_viscosity : visc c i = an_visc an (alt c i) dT;
  co_gravity : grav c i = an_gravity an (alt c i);
  co_speed : speed c i = norm (vel c i);
  co_mach : mach c i = speed c i / sound c i;
  co_reynolds : reyn c i = rho c i * speed c i / visc c i;
  co_dynp : dynp c i = 1 / 2 * rho c i * speed c i ^ 2;
  co_weight : vz (weight_f c i) = mass c i * grav c i;
  co_body : b2i c i = mtranspose (dcm_210 (rot c i));
  co_alpha : alpha c i = arctan2 (vz (mapply (dcm_210 (rot c i)) (vel c i)))
                                 (vx (mapply (dcm_210 (rot c i)) (vel c i)))
}.
(** the total force is what acts on the vehicle; a segment on the ground adds the reaction of the
    ground *)
Definition on_ground (k : kind) : bool :=
  match k with Takeoff_run _ _ _ _ _ | Landing_run _ _ _ _ _ => true | _ => false end.
Definition applied (k : kind) (c : conds) (i : nat) : v3 :=
  let air := plus (plus (mapply (w2i c i) (lift_f c i)) (mapply (w2i c i) (drag_f c i)))
                  (plus (mapply (b2i c i) (thrust_f c i)) (weight_f c i)) in
  if on_ground k then plus air (ground_f c i) else air.
