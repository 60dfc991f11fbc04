(** * Weight build-ups: the words the properties use *)
From Coq Require Import Reals List Bool Arith.
From Verif Require Import M_Drag M_Elec S_Elec M_Opt M_Evtol.
Import ListNotations.
Local Open Scope R_scope.

(** the sum of [f j] for i <= j < n *)
Definition sum_range (i n : nat) (f : nat -> R) : R := fold_right Rplus 0 (map f (seq i (n - i))).
(** the stations run outwards; [at_ x j] is station number j *)
Definition at_ (x : list R) (j : nat) : R := nth j x 0.
Definition outwards (x : list R) : Prop := forall i j, (i <= j < length x)%nat -> 0 <= at_ x i <= at_ x j.
(** the load carried by the interval that begins at station [j], when [L] is the load per unit span *)
Definition interval_load (x L : list R) (j : nat) : R := at_ L j * (at_ x (S j) - at_ x j).
(** the area under a curve through the points (x, h x), by trapezoids; both sides of a symmetric section *)
Fixpoint two_sided_area (h : R -> R) (x : list R) : R :=
  match x with a :: ((b :: _) as r) => (b - a) * (h a + h b) + two_sided_area h r | _ => 0 end.
(** entries of two lists no further apart than d *)
Definition within (d : R) (a b : list R) : Prop := length a = length b /\ forall i, Rabs (nth i a 0 - nth i b 0) <= d.
(** iterating a function *)
Fixpoint iterate (k : nat) (f : R -> R) (x : R) : R := match k with O => x | S k => f (iterate k f x) end.

(** ** what a network brings *)
(** [fitted n nl nt props rots]: the network has nl lift rotors and nt propellers, and these units are weighed *)
Inductive fitted : enetwork -> nat -> nat -> list rotor -> list rotor -> Prop :=
| fitted_lift_cruise : forall nl nt p r, fitted (LiftCruise nl nt p r) nl nt p r
| fitted_propellers : forall us, count_kind KLiftRotor us = 0%nat -> count_kind KPropeller us <> 0%nat ->
    fitted (BatteryPropeller us) 0 (count_kind KPropeller us) (map snd us) []
| fitted_lift_rotors : forall us, count_kind KPropeller us = 0%nat -> fitted (BatteryPropeller us) (count_kind KLiftRotor us) 0 [] (map snd us).
(** masses, in kilograms, of one such network *)
Record share := Share { s_blades_p : R; s_blades_l : R; s_tail : R; s_motors : R; s_servos : R; s_hubs : R; s_brs : R; s_battery : R; s_payload : R }.
Definition any_variable (l : list rotor) : bool := existsb z_pitch l.
(** the tail rotor of a helicopter with one lift rotor: a fifth of a rotor that balances one and a half times the torque of the lift power *)
Definition tail_of (c : craft) (rots : list rotor) : R :=
  match rots with
  | z :: _ => let t := last rots z in
              c_blade c z (3 / 2 * (lift_power c (z_tip t) (z_solidity t) / (c_vtip c / z_tip t)) / (125 / 100 * z_tip t)) * (2 / 10)
  | [] => 0
  end.
Definition share_of (c : craft) (nl nt : nat) (props rots : list rotor) (battery payload : R) : share := {|
  s_blades_p := if Nat.eqb nt 0 then 0 else sum_over (fun z => c_blade c z (max_lift c / 5)) props;
  s_blades_l := if Nat.eqb nl 0 then 0 else sum_over (fun z => c_blade c z (max_lift c / INR (Nat.max (nl - 1) 1))) rots;
  s_tail := if Nat.eqb nl 1 then tail_of c rots else 0;
  s_motors := (if Nat.eqb nl 0 then 0 else sum_over z_motor rots) + (if Nat.eqb nt 0 then 0 else sum_over z_motor props);
  s_servos := INR nl * (if any_variable rots then 65 / 100 else 0) + INR nt * (if any_variable props then 52 / 10 else 0);
  s_hubs := INR nl * 4 + INR nt * (4 / 100 * c_mtow c);
  s_brs := if Nat.ltb 1 (nl + nt) then 32 else 16;
  s_battery := battery; s_payload := payload |}.
(** [brings c n s]: network n, of a kind the build-up knows, brings the masses s *)
Definition brings (c : craft) (n : enet) (s : share) : Prop :=
  exists nl nt p r, fitted (n_net n) nl nt p r /\ s = share_of c nl nt p r (n_battery n) (n_payload n).

(** materials have strength, and the section has thickness *)
Record sound_materials (y : materials) (k : section) : Prop := {
  sm1 : 0 < y_tors_uss y; sm2 : 0 <= y_tors_den y; sm3 : 0 < y_bend_uts y; sm4 : 0 <= y_bend_den y; sm5 : 0 < y_shear_uss y; sm6 : 0 <= y_shear_den y;
  sk1 : 0 < k_torsion_area k; sk2 : 0 <= k_torsion_length k; sk3 : 0 < k_flap_inertia k; sk4 : 0 <= k_flap_length k; sk5 : 0 < k_drag_inertia k;
  sk6 : 0 <= k_drag_length k; sk7 : 0 < k_height k; sk8 : 0 <= k_zmax k; sk9 : 0 <= k_xmax k }.
(** likewise the fuselage *)
Record sound_shell (h : shell) : Prop := {
  sh1 : 0 < h_length h; sh2 : 0 < h_width h; sh3 : 0 < h_height h; sh4 : 0 <= h_span h; sh5 : 0 <= h_rbm_den h; sh6 : 0 < h_rbm_uts h; sh7 : 0 <= h_shear_den h;
  sh8 : 0 < h_shear_uss h; sh9 : 0 <= h_bearing_den h; sh10 : 0 < h_bearing_ubs h; sh11 : 0 < h_bolt_uss h }.
(** a fuselage k times as large in every direction *)
Definition stretched (k : R) (h : shell) : shell :=
  Shell (k * h_length h) (k * h_width h) (k * h_height h) (h_span h) (h_skin h) (h_canopy h) (h_rbm_den h) (h_rbm_uts h) (h_shear_den h) (h_shear_uss h) (h_bearing_den h) (h_bearing_ubs h) (h_bolt_uss h).
(** the last station *)
Definition tip (x : list R) : R := at_ x (pred (length x)).
(** symbolic wings weigh nothing *)
Definition wing_weight (w : ewing) : R := if w_symbolic w then 0 else w_weight w.
