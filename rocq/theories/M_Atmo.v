(** * Atmosphere, gas and planet: model

    Real numbers stand for the floats; [Rpower] is the power of a positive base. *)
From Coq Require Import Reals List Bool.
From Verif Require Import M_Opt.
Import ListNotations.
Local Open Scope R_scope.
Local Open Scope list_scope.

(** ** trunk/SUAVE/Attributes/Gases/Air.py *)
(** Air.py:52 *)
Definition air_R : R := 2870528742 / 10000000.
(** Air.py:53 *)
Definition air_cp : R := 1006.
(** 60-80 *)
Definition density (Rg T p : R) : R := p / (Rg * T).
(** 144-174 *)
Definition gamma (T : R) : R :=
  1629 / 10000000000000 * T * T * T + - (3588 / 10000000000) * T * T + 1418 / 10000000 * T + 1386 / 1000.
(** 82-109 *)
Definition speed_of_sound (Rg T : R) (variable_gamma : bool) : R :=
  let g := if variable_gamma then gamma T else 14 / 10 in
  sqrt (g * Rg * T).
(** 111-142 *)
Definition heat_capacity (T : R) : R :=
  - (7357 / 10000000000) * T * T * T + 1307 / 1000000 * T * T + - (5558 / 10000) * T + 1074.
(** 176-198 *)
Definition absolute_viscosity (T : R) : R := 1458 / 1000000000 * Rpower T (15 / 10) / (T + 1104 / 10).
(** 200-218 *)
Definition thermal_conductivity (T : R) : R :=
  399 / 1000000 + 989 / 10000000 * T - 457 / 10000000000 * T ^ 2 + 14 / 1000000000000 * T ^ 3.
(** 221-244 *)
Definition prandtl_number (T : R) : R := absolute_viscosity T * air_cp / thermal_conductivity T.

(** ** trunk/SUAVE/Attributes/Planets/Earth.py:46-75 *)
Definition earth_radius : R := 6371000.
Definition earth_gravity : R := 980665 / 100000.
(** the power 2.0 is a square *)
Definition compute_gravity (g0 Re H : R) : R := g0 * (Re / (Re + H)) ^ 2.

(** ** Atmospheres *)
(** one break of the table; altitudes are geopotential *)
Record brk := Brk { bz : R; bT : R; bp : R }.
Record atmosphere := Atmosphere { a_breaks : list brk; a_g : R; a_rad : R; a_R : R }.
(** trunk/SUAVE/Attributes/Atmospheres/Earth/US_Standard_1976.py:53-58 *)
Definition breaks_1976 : list brk :=
  [Brk (-2000) (30115 / 100) 127774; Brk 0 (28815 / 100) 101325; Brk 11000 (21665 / 100) (226321 / 10);
   Brk 20000 (21665 / 100) (547489 / 100); Brk 32000 (22865 / 100) (868019 / 1000); Brk 47000 (27065 / 100) (110906 / 1000);
   Brk 51000 (27065 / 100) (669389 / 10000); Brk 71000 (21465 / 100) (395642 / 100000); Brk 84852 (18695 / 100) (3734 / 10000)].
Definition US_1976 : atmosphere := Atmosphere breaks_1976 earth_gravity earth_radius air_R.

(** what compute_values returns for one altitude *)
Record values := Values {
  pressure : R; temperature : R; rho : R; sound_speed : R; dynamic_viscosity : R;
  kinematic_viscosity : R; conductivity : R; prandtl : R }.

(** trunk/SUAVE/Analyses/Atmospheric/US_Standard_1976.py:124; for h = -Rad numpy divides by zero *)
Definition geopotential (rad h : R) : R := h / (1 + h / rad).
(** 127-132: np.amin and np.amax only decide whether anything is replaced *)
Definition clamp_rows (zmin zmax : R) (zs : list R) : list R :=
  let zs := if existsb (fun z => Rltb z zmin) zs
            then map (fun z => if Rltb z zmin then zmin else z) zs else zs in
  if existsb (fun z => Rltb zmax z) zs
  then map (fun z => if Rltb zmax z then zmax else z) zs else zs.
(** 135-154: (z0,T0,p0,alpha); every layer that contains the altitude overwrites *)
Record layer_data := Layer { l_z0 : R; l_T0 : R; l_p0 : R; l_alpha : R }.
Definition enter (z : R) (s : layer_data) (lo hi : brk) : layer_data :=
  if negb (Rltb z (bz lo)) && negb (Rltb (bz hi) z)
  then Layer (bz lo) (bT lo) (bp lo) (- (bT hi - bT lo) / (bz hi - bz lo)) else s.
Fixpoint layers (z : R) (s : layer_data) (bs : list brk) : layer_data :=
  match bs with
  | lo :: rest => match rest with hi :: _ => layers z (enter z s lo hi) rest | [] => s end
  | [] => s
  end.
(** 157-161 *)
Definition pressure_in (g Rg : R) (s : layer_data) (z : R) : R :=
  let dz := z - l_z0 s in
  if Req_EM_T (l_alpha s) 0
  then l_p0 s * exp (-1 * dz * g / (Rg * l_T0 s))
  else l_p0 s * Rpower (1 - l_alpha s * dz / l_T0 s) (1 * g / (l_alpha s * Rg)).
Definition zero_layer : layer_data := Layer 0 0 0 0.
(** 148-179 for one altitude *)
Definition at_geopotential (a : atmosphere) (delta : R) (vg : bool) (z : R) : values :=
  let s := layers z zero_layer (a_breaks a) in
  let p := pressure_in (a_g a) (a_R a) s z in
  let T := l_T0 s - (z - l_z0 s) * l_alpha s + delta in
  let r := density (a_R a) T p in
  let mu := absolute_viscosity T in
  Values p T r (speed_of_sound (a_R a) T vg) mu (mu / r) (thermal_conductivity T) (prandtl_number T).
Definition lowest (a : atmosphere) : R := match a_breaks a with b :: _ => bz b | [] => 0 end.
Definition highest (a : atmosphere) : R := bz (last (a_breaks a) (Brk 0 0 0)).
(** 102-181 *)
Definition compute_values (a : atmosphere) (delta : R) (vg : bool) (altitude : list R) : list values :=
  map (at_geopotential a delta vg)
    (clamp_rows (lowest a) (highest a) (map (geopotential (a_rad a)) altitude)).

(** ** trunk/SUAVE/Analyses/Atmospheric/Constant_Temperature.py *)
(** 142-155; the temperature of the breaks is not used (and overwritten) *)
Definition enter_constant (z T : R) (s : layer_data) (lo hi : brk) : layer_data :=
  if negb (Rltb z (bz lo)) && negb (Rltb (bz hi) z)
  then Layer (bz lo) T (bp lo) (- (T - T) / (bz hi - bz lo)) else s.
Fixpoint layers_constant (z T : R) (s : layer_data) (bs : list brk) : layer_data :=
  match bs with
  | lo :: rest => match rest with hi :: _ => layers_constant z T (enter_constant z T s lo hi) rest | [] => s end
  | [] => s
  end.
Definition constant_at (a : atmosphere) (T z : R) : values :=
  let s := layers_constant z T zero_layer (a_breaks a) in
  let p := l_p0 s * exp (-1 * (z - l_z0 s) * a_g a / (a_R a * l_T0 s)) in
  let r := density (a_R a) T p in
  let mu := absolute_viscosity T in
  Values p T r (speed_of_sound (a_R a) T false) mu (mu / r) (thermal_conductivity T) (prandtl_number T).
Definition constant_values (a : atmosphere) (T : R) (altitude : list R) : list values :=
  map (constant_at a T)
    (clamp_rows (lowest a) (highest a) (map (geopotential (a_rad a)) altitude)).
(** 147: the call leaves the temperatures of the table, all but the first, overwritten *)
Definition constant_after (a : atmosphere) (T : R) : atmosphere :=
  Atmosphere (match a_breaks a with
              | [] => []
              | b :: rest => b :: map (fun c => Brk (bz c) T (bp c)) rest
              end) (a_g a) (a_rad a) (a_R a).
