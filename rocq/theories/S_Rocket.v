(** * Rockets, ramjets and scramjets: specification vocabulary *)
From Coq Require Import Reals List.
From Verif Require Import M_Rocket S_Engine.
Local Open Scope R_scope.

(** the area, as a multiple of the area at Mach 1, that a loss-free stream needs at Mach [M]
    (the textbook area-Mach relation) *)
Definition area_star (g M : R) : R :=
  / M * Rpower (2 / (g + 1) * (1 + (g - 1) / 2 * M ^ 2)) ((g + 1) / (2 * (g - 1))).
(** mass per second through the area [A] *)
Definition mass_flow (e : gas) (A : R) : R := ga_rho e * ga_U e * A.
(** momentum and pressure forces on the exit of area [A] against the outside pressure [p0] *)
Definition momentum_thrust (e : gas) (A p0 : R) : R := mass_flow e A * ga_U e + (ga_P e - p0) * A.
(** the speed of a gas of stagnation temperature [Tt] expanded into vacuum *)
Definition vacuum_speed (g r Tt : R) : R := sqrt (2 * g / (g - 1) * r * Tt).
(** a chamber and a nozzle as a user sets them *)
Definition sane (c : chamber) : Prop := 0 < ch_P c /\ 0 < ch_T c /\ 1 < ch_gamma c /\ 0 < ch_R c.

(** impulse function, mass flow and total temperature of a stream in a constant-area duct:
    static pressure [P], temperature [T], Mach number [M] *)
Definition impulse (g P M : R) : R := P * (1 + g * M ^ 2).
Definition total_T (g T M : R) : R := T * (1 + (g - 1) / 2 * M ^ 2).
Definition total_P (g P M : R) : R := P * Rpower (1 + (g - 1) / 2 * M ^ 2) (g / (g - 1)).
