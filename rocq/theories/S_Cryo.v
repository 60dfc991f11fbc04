(** * Vocabulary for cryogenics: what a refrigerator, a coolant, a current lead and a dynamo must obey *)
From Coq Require Import Reals List Bool.
From Verif Require Import PyBase M_Cryo.
Import ListNotations.
Local Open Scope R_scope.

(** the least power that can lift the heat [q] from [cold] to [hot] kelvin (Carnot) *)
Definition carnot_power (q cold hot : R) : R := q * (hot - cold) / cold.

(** the specific enthalpy in kJ/kg of a fluid that boils at [b], counted from the liquid about to boil *)
Definition enthalpy (g : cryogen) (p t : R) : R :=
  let b := boil_temp g p in
  if Rlt_dec t b then - quad (liquid_cp g) t b else if Rlt_dec b t then latent g p + quad (gas_cp g) b t else 0.

(** a material whose conductivities do not change with temperature *)
Definition flat (k s rho : R) : material := Mat (fun _ => k) (fun _ => s) rho.
(** heat reaching the cold end of a bar of cross section [a]: conduction, and half of the resistive heat *)
Definition bar_heat (k s dt len i a : R) : R := k * a * dt / len + i ^ 2 * (len / (s * a)) / 2.
(** a material that conducts, with properties that vary without jumps *)
Definition conducts (m : material) : Prop :=
  (forall t, 0 < m_k m t) /\ (forall t, 0 < m_s m t) /\ (forall t, continuity_pt (m_k m) t) /\ (forall t, continuity_pt (m_s m) t).

(** the currents a dynamo is rated for *)
Definition in_range (d : dynamo) (x : R) : Prop := 2 / 10 * dy_cur d <= x <= 18 / 10 * dy_cur d.
