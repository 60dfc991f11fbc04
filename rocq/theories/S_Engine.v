(** * Gas turbines: specification vocabulary *)
From Coq Require Import Reals List.
From Verif Require Import M_Opt M_Engine.
Import ListNotations.
Local Open Scope R_scope.

(** a free stream with heat-capacity ratio [g], specific heat [c], gas constant [r],
    stagnation temperature [T] and stagnation pressure [P] *)
Definition flow_of (g c r T P : R) : stream :=
  Stream (Some g) (Some c) (Some r) (Some T) (Some P).
Definition at_station (T P : R) : station := Station (Some T) (Some P).

(** temperature ratio of a loss-free (isentropic) change by the pressure ratio [pi] *)
Definition isentropic_T (g pi : R) : R := Rpower pi ((g - 1) / g).
(** pressure ratio of a loss-free change by the temperature ratio [tau] *)
Definition isentropic_P (g tau : R) : R := Rpower tau (g / (g - 1)).

(** perfect-gas stream quantities at Mach number [M] and static temperature [T], pressure [P] *)
Definition sound (g r T : R) : R := sqrt (g * r * T).
Definition density (r T P : R) : R := P / (r * T).
Definition speed (g r T M : R) : R := M * sound g r T.
(** mass flow per unit area *)
Definition flux (g r T P M : R) : R := density r T P * speed g r T M.
(** specific heat and heat-capacity ratio of one perfect gas *)
Definition perfect (g c r : R) : Prop := c * (g - 1) = g * r.
(** pressure ratio at which a nozzle chokes *)
Definition choking (g : R) : R := Rpower ((g + 1) / 2) (g / (g - 1)).

(** the fluid is known at the flight's temperature and pressure *)
Definition fluid_at (fl : fluid) (x : flight) (g c : R) : Prop :=
  fl_gamma fl (x_T x) (x_p x) = Some g /\ fl_cp fl (x_T x) (x_p x) = Some c.

(** the oblique-shock relation between the turning angle and the wave angle *)
Definition theta_beta_M (M g theta beta : R) : Prop :=
  tan theta * (M ^ 2 * (g + cos (2 * beta)) + 2) * sin beta
    = 2 * cos beta * (M ^ 2 * (sin beta) ^ 2 - 1).
(** the coefficients of the cubic for the tangent of the wave angle *)
Definition cubic_a (M g theta : R) : R :=
  ((g - 1) / 2 + (g + 1) / (M ^ 2 - 1) / 2) * tan theta.
Definition cubic_b (M g theta : R) : R :=
  ((g + 1) / 2 + (g + 3) / (M ^ 2 - 1) / 2) * tan theta.
(** the discriminant condition under which the shock is attached: two shock angles exist *)
Definition attached (M g theta : R) : Prop :=
  let a := cubic_a M g theta in let b := cubic_b M g theta in let c := / (M ^ 2 - 1) in
  let q := 27 * a ^ 2 * c + 9 * a * b - 2 in
  q <> 0 /\ q ^ 2 < 4 * (1 - 3 * a * b) ^ 3.
(** every shock of a train is attached *)
Fixpoint train_attached (M g : R) (thetas : list R) : Prop :=
  match thetas with
  | [] => True
  | th :: rest =>
      1 < M /\ 0 < th < PI / 2 /\ attached M g th /\
      train_attached (k_M (oblique M g th (wave_angle M g th 0))) g rest
  end.
(** Mach number behind a train *)
Fixpoint train_M (M g : R) (thetas : list R) : R :=
  match thetas with
  | [] => M
  | th :: rest => train_M (k_M (oblique M g th (wave_angle M g th 0))) g rest
  end.
(** an engine whose pressure ratios and efficiencies are positive *)
Record proper (e : turbofan) : Prop := {
  pr_lpc : 0 < co_pr (e_lpc e) /\ 0 < co_eff (e_lpc e);
  pr_hpc : 0 < co_pr (e_hpc e) /\ 0 < co_eff (e_hpc e);
  pr_fan : 0 < co_pr (e_fan e) /\ 0 < co_eff (e_fan e);
  pr_comb : 0 < cb_pr (e_comb e) /\ 0 < cb_Tt4 (e_comb e);
  pr_hpt : 0 < tu_mech (e_hpt e) /\ 0 < tu_eff (e_hpt e);
  pr_lpt : 0 < tu_mech (e_lpt e) /\ 0 < tu_eff (e_lpt e);
  pr_core : 0 < no_pr (e_core e); pr_fann : 0 < no_pr (e_fann e);
  pr_fluid : 0 < fl_R (e_fluid e) }.
(** a flight state with positive pressure, temperature and Mach number *)
Record flying (x : flight) : Prop := { fy_p : 0 < x_p x; fy_T : 0 < x_T x; fy_M : 0 < x_M x }.
(** the stagnation temperature behind a compressor *)
Definition behind (q : comp_p) (g T : R) : R := T * Rpower (co_pr q) ((g - 1) / (g * co_eff q)).
