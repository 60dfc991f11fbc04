(** * Batteries: specification vocabulary *)
From Coq Require Import Reals List.
From Verif Require Import M_Mission M_Cheb S_Cheb M_Batt.
Local Open Scope R_scope.
Local Open Scope list_scope.

(** integration and differentiation over a segment lasting [dt], with [n] Chebyshev points *)
Definition segment_calculus (n : nat) (dt : R) (I D : mat) : Prop :=
  exists inv x D0 I0, inverts inv /\ chebyshev_data inv n = Some (x, D0, I0) /\ dt <> 0 /\
    (forall i j, I i j = I0 i j * dt) /\ (forall i j, D i j = D0 i j / dt).
(** the energy carried by the power [P] from the first control point to the i-th *)
Definition energy_in (n : nat) (I : mat) (P : col) (i : nat) : R := mulv n I P i.
(** the power that reaches the store: what is put in, less what is lost *)
Definition net_power (q : li_in) (o : li_out) : col := fun i => q_power q i - o_losses o i.
Definition nmc_net_power (q : nmc_in) (o : nmc_out) : col := fun i => m_power q i - Rabs (n_losses o i).
(** the charge, in ampere hours, a current [c] that stays the same moves between two times *)
Definition ampere_hours (c t0 t1 : R) : R := c * (t1 - t0) / 3600.

(** ageing: the state after a history of uses *)
Definition after (n_series : R) (h : health) (us : list use) : health :=
  fold_left (update_battery_state_of_health n_series) us h.
Definition cycles (us : list use) : nat := List.length (filter u_count_day us).

(** ** cooling *)
(** the speed between the cells: through the narrowest gap of the staggered bank *)
Definition gap_speed (c : cooling) (v : R) : Prop :=
  let across := c_ST c - c_diameter c in
  let diagonal := 2 * (sqrt (c_ST c ^ 2 + c_SL c ^ 2) - c_diameter c) in
  v * Rmin across diagonal = c_flow c * c_ST c.
(** the film coefficient of the bank at Reynolds number [Re] and wall temperature [Tw]
    (Zukauskas, for Re up to 1000) *)
Definition film (c : cooling) (Re Tw : R) : R :=
  51 / 100 * Rpower Re (1 / 2) * Rpower (c_Pr c) (36 / 100) * Rpower (c_Pr c / c_Pr_w c Tw) (25 / 100) * c_K c / c_diameter c.
(** the heat given to the coolant *)
Definition removed (c : cooling) (Q : col) (i : nat) : R :=
  (if Nat.eqb (c_total c) 1 then Q i else Q i * (c_Nn c * c_Np c)) - net_heat c Q i.
Record sound_cooling (c : cooling) : Prop := {
  s_d : 0 < c_diameter c; s_h : 0 < c_height c; s_e : 0 < c_eff c; s_n : 0 < c_Nn c; s_p : 0 < c_Np c; s_t : c_diameter c < c_ST c;
  s_l : 0 < c_SL c; s_k : 0 < c_K c; s_c : 0 < c_Cp_fluid c; s_f : 0 < c_flow c; s_r : 0 < c_rho c; s_nu : 0 < c_nu c }.

(** ** sizing *)
(** a battery of mass [m] can meet the requirements *)
Definition enough (b : sized) (m energy power : R) : Prop := energy <= s_specific_energy b * m /\ power <= s_specific_power b * m.
