(** * Electric and piston power trains: vocabulary of the properties *)
From Coq Require Import Reals List Bool Arith.
From Verif Require Import PyBase M_Elec.
Import ListNotations.
Local Open Scope R_scope.

(** A direct-current motor with resistance [res], no-load current [io] and speed constant [kv] (radians per second and volt): at
    voltage [v] and current [i] its shaft turns at speed [w] with torque [q]. *)
Definition dc_motor (res io kv v i w q : R) : Prop := v = i * res + w / kv /\ q = (i - io) / kv.

(** The torque of a propeller of radius [radius] turning at [w] in air of density [rho], for a power coefficient [cp]:
    power = cp rho n^3 D^5 with n revolutions per second and diameter D, divided by w = 2 pi n. *)
Definition prop_torque (rho cp radius w : R) : R := cp * rho * (w / (2 * PI)) ^ 2 * (2 * radius) ^ 5 / (2 * PI).

(** shaft power over electric power *)
Definition efficiency (v i w q : R) : R := q * w / (v * i).

(** addition of forces *)
Definition force := (R * R * R)%type.
Definition fx (f : force) : R := fst (fst f).
Definition fy (f : force) : R := snd (fst f).
Definition fz (f : force) : R := snd f.
(** the sum of [f] over a list *)
Fixpoint sum_over {A} (f : A -> R) (l : list A) : R := match l with [] => 0 | x :: r => f x + sum_over f r end.

(** a motor with positive resistance, speed constant and gear ratio *)
Definition works (m : motor) : Prop := 0 < m_res m /\ 0 < m_kv m /\ 0 < m_gear m.
(** what a network reports: thrust, battery current, battery power, the columns of the separate propellers *)
Definition thrust_of (r : result supply) : force := match r with Ok s => s_thrust s | Err _ => (0, 0, 0) end.
Definition current_of (r : result supply) : R := match r with Ok s => s_current s | Err _ => 0 end.
Definition power_of (r : result supply) : R := match r with Ok s => s_power s | Err _ => 0 end.
(** the direction of the sun seen from a place, in components to the south, to the west and up, for the sun's declination [dec], the
    latitude [lat] and the hour angle [h], all in radians *)
Definition sun_south (dec lat h : R) : R := sin lat * cos dec * cos h - cos lat * sin dec.
Definition sun_west (dec h : R) : R := cos dec * sin h.
Definition sun_up (dec lat h : R) : R := sin lat * sin dec + cos lat * cos dec * cos h.
(** [y] is the length of the straight path that starts at distance [a] from the centre of the earth, leaves at angle [psi] from the
    vertical and ends at distance [b] from the centre *)
Definition path (a b psi y : R) : Prop := 0 <= y /\ b ^ 2 = a ^ 2 + y ^ 2 + 2 * a * y * cos psi.
