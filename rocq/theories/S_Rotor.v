(** * Rotors: the words the properties use *)
From Coq Require Import Reals List Bool Arith.
From Verif Require Import PyBase M_Opt M_Drag M_Rot M_Noise M_Evtol S_Elec S_Evtol M_Rotor.
Import ListNotations.
Local Open Scope R_scope.

(** the area under the straight lines through (x j, f (x j)) *)
Fixpoint under (f : R -> R) (x : list R) : R :=
  match x with a :: ((b :: _) as r) => (b - a) * (f a + f b) / 2 + under f r | _ => 0 end.
(** weighted sum: the sum of f (x j) w j *)
Fixpoint weighted (f : R -> R) (x w : list R) : R :=
  match x, w with a :: x', u :: w' => f a * u + weighted f x' w' | _, _ => 0 end.
(** strictly increasing *)
Fixpoint rising (l : list R) : Prop := match l with a :: ((b :: _) as r) => a < b /\ rising r | _ => True end.

(** ** flow at a blade element *)
(** [U]: speed seen by the element without induction; [psi]: the angle that describes the induced flow *)
Definition flow_of (V omega : R) (s : station) (psi : R) : R * R :=
  let U := sqrt (V * V + (omega * s_r s) * (omega * s_r s)) in
  (axial_flow U V psi, tangential_flow U (omega * s_r s) psi).
(** the wake found satisfies the circulation equation, and the flow passes the element forwards in both directions *)
Definition settled_at (c : case) (x : rotor) (V : R) (s : station) (psi : R) : Prop :=
  let U := sqrt (V * V + (c_omega c * s_r s) * (c_omega c * s_r s)) in
  residual (c_air c) x s (c_pitch c) U V (c_omega c * s_r s) psi = 0 /\ 0 < fst (flow_of V (c_omega c) s psi) /\ 0 < snd (flow_of V (c_omega c) s psi).
Definition settled (c : case) (x : rotor) (V : R) (wake : list R) : Prop := Forall2 (settled_at c x V) (x_stations x) wake.
(** blades: stations from the hub to the tip, chords; sections without thrust from friction *)
Record sound_rotor (x : rotor) : Prop := {
  so_blades : 0 < x_blades x; so_tip : 0 < x_tip x;
  so_in : Forall (fun s => 0 < s_r s <= x_tip x /\ 0 <= s_c s) (x_stations x);
  so_rising : rising (map s_r (x_stations x)) }.
Definition drags (s : section) : Prop := forall alpha Ma Re, 0 < Re -> 0 <= snd (section_coefficients s alpha Ma Re).
Record sound_air (k : air) : Prop := { sa_rho : 0 < a_rho k; sa_nu : 0 < a_nu k; sa_sound : 0 < a_sound k; sa_temp : 0 < a_temp k }.
(** power lost in one blade element: to the induced flow and to friction *)
Definition induced_loss (k : air) (dr V Ut : R) (e : element) : R :=
  a_rho k * dr * e_gamma e * ((e_Wa e - V) * e_Wt e + (Ut - e_Wt e) * e_Wa e).
Definition friction_loss (k : air) (c dr : R) (e : element) : R :=
  a_rho k * dr * (/ 2 * c * e_cd e * (speed (e_Wa e) (e_Wt e) * (e_Wa e * e_Wa e + e_Wt e * e_Wt e))).
Definition losses (c : case) (V : R) (es : list (station * R * element)) : R :=
  sum_over (fun t => induced_loss (c_air c) (snd (fst t)) V (c_omega c * s_r (fst (fst t))) (snd t) +
                     friction_loss (c_air c) (s_c (fst (fst t))) (snd (fst t)) (snd t)) es.
(** the elements of a blade, as the axial analysis cuts it *)
Definition elements_of (c : case) (x : rotor) (V : R) (wake : list R) : list (station * R * element) :=
  match deltar (map s_r (x_stations x)) with Ok dr => axial_elements c x V (combine (x_stations x) dr) wake | Err _ => [] end.

(** ** propeller design *)
(** drag to lift ratio times the tangent of the flow angle at a station *)
Definition glide (d : brief) (zeta chi : R) : R :=
  let t := lamda d * (1 + zeta / 2) / chi in
  let F := 2 / PI * acos (exp (- (d_blades d / 2 * (1 - chi) / sin (atan (lamda d * (1 + zeta / 2)))))) in
  let G := F * (d_omega d * (chi * d_tip d) / d_V d) * cos (atan t) * sin (atan t) in
  let Wc := 4 * PI * lamda d * G * d_V d * d_tip d * zeta / (d_cl d * d_blades d) in
  compressible_drag (d_cd d (Wc / a_nu (d_air d))) (Wc / a_sound (d_air d)) (a_temp (d_air d)) / d_cl d * t.
Record sound_brief (d : brief) : Prop := {
  sb_n : (2 <= d_n d)%nat; sb_blades : 0 < d_blades d; sb_hub : 0 < d_hub d; sb_tip : d_hub d < d_tip d; sb_omega : 0 < d_omega d;
  sb_speed : 0 < d_speed d; sb_cl : 0 < d_cl d; sb_air : sound_air (d_air d); sb_cd : forall RE, 0 < RE -> 0 <= d_cd d RE;
  sb_glide : forall zeta, 0 < zeta -> Forall (fun chi => glide d zeta chi < 1) (chis d) }.
(** the most thrust a wake with these integrals can give *)
Definition most_thrust (d : brief) (q : sums) : R :=
  q_i1 q * q_i1 q / (4 * q_i2 q) * (a_rho (d_air d) * (d_V d * d_V d) * PI * (d_tip d * d_tip d) / 2).
