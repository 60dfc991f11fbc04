(** * Vocabulary for electric ducted fans *)
From Coq Require Import Reals List Bool.
From Verif Require Import PyBase M_Opt M_Elec M_Cryo M_Efan.
Local Open Scope R_scope.

(** flight: the speed is the Mach number times the speed of sound *)
Definition flying (x : air) : Prop := 0 < a_gamma x /\ 0 < a_a0 x /\ 0 < a_M0 x /\ 0 < a_p0 x /\ a_u0 x = a_M0 x * a_a0 x.
(** air drawn through all the fans, in kilograms per second *)
Definition air_flow (f : fan) (tt pt throttle : R) : R := (1 + f_bypass f) * (f_mdhc f * (sqrt (f_tref f / tt) * (pt / f_pref f))) * f_n f * throttle.
(** kinetic energy given to the air each second *)
Definition kinetic_power (flow u0 u8 : R) : R := flow * (u8 ^ 2 - u0 ^ 2) / 2.
(** what the electric bus has to deliver: motors through their controllers, and to each rotor's supply *)
Definition motors_need (p eta_m eta_e : R) : R := p / (eta_m * eta_e).
Definition rotors_need (n coil leads eta : R) : R := n * ((coil + leads) / eta).
(** everything the generators are asked for *)
Definition asked (d : demand) : R := d_motor d + d_esc d + d_rotor d + d_leads d + d_ccs d + d_cooler d.
