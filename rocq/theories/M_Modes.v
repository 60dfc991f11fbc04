(** * Dynamic stability: model

    Sources: /repo/trunk/SUAVE/Methods/Flight_Dynamics/Dynamic_Stability/**.  Numbers are reals, arrays over control points one point
    at a time; a power 0.5 of a negative number (nan) is [None].  Complex numbers are pairs of reals. *)
From Coq Require Import Reals List Bool Arith.
From Verif Require Import PyBase M_Opt M_Stab.
Import ListNotations.
Local Open Scope R_scope.
Local Open Scope list_scope.

Definition half_power (x : R) : option R := if Rltb x 0 then None else Some (sqrt x).
Definition omap2 (f : R -> R -> R) (x : R) (o : option R) : option R := match o with None => None | Some y => Some (f x y) end.

(** ** Supporting_Functions/*.py (the last code line of each) *)
Definition ep_alpha (cla sref span : R) : R := 2 * cla / PI / (span ^ 2 / sref).        (* ep_alpha.py 42 *)
Definition cl_p (cla taper : R) : R := - (cla / 12) * ((1 + 3 * taper) / (1 + taper)).  (* cl_p.py 37 *)
Definition cl_beta (dihedral taper clp : R) : R := dihedral * ((1 + 2 * taper) / (1 + 3 * taper)) * clp. (* cl_beta.py 37 *)
Definition cm_q (cla vht lt mac : R) : R := - 2 * lt / mac * vht * cla * (11 / 10).      (* cm_q.py 34-35 *)
Definition cm_alphadot (cm ep lt mac : R) : R := 2 * cm * ep * lt / mac.                 (* cm_alphadot.py 37 *)
Definition cz_alphadot (cm ep : R) : R := 2 * cm * ep.                                   (* cz_alphadot.py 36 *)
Definition cn_r (cd sv sref lv span eta cla : R) : R := - cd / 4 - 2 * sv / sref * (lv / span) ^ 2 * cla * eta. (* cn_r.py 39 *)

(** ** Approximations/*.py: natural frequency and damping ratio, or the time constant *)
(** phugoid.py 55-56 *)
Definition phugoid (g V CD CL : R) : R * R := (g / V * sqrt 2, CD / (CL * sqrt 2)).
(** dutch_roll.py 59-60 *)
Definition dutch_roll (V cnb S rho b Iz cnr : R) : option R * option R :=
  (omap2 Rmult V (half_power (cnb * S * rho * b / 2 / Iz)),
   omap2 Rmult (- cnr / 8) (half_power (2 * S * rho * b ^ 3 / Iz / cnb))).
(** roll.py 52 *)
Definition roll (Ix S rho V b clp : R) : R := 4 * Ix / (S * rho * V * b ^ 2 * clp).
(** short_period.py 59-60 *)
Definition short_period (V rho S c cmq cza m cma Iy cmad : R) : option R * option R :=
  (omap2 Rmult (V * rho * S * c / 2) (half_power ((1 / 2 * cmq * cza - 2 * m / rho / S / c * cma) / Iy / m)),
   omap2 Rmult (- (1 / 4) * (cmq + cmad + 2 * Iy * cza / m / c ^ 2))
     (half_power (m * c ^ 2 / Iy / (cmq * cza * (1 / 2) - 2 * m * cma / rho / S / c)))).
(** spiral.py 48 *)
Definition spiral (m V rho S clp cnb cyp clb cnr clr : R) : R :=
  m * V / S / (1 / 2 * rho * V ^ 2) * (clp * cnb / (cyp * (clb * cnr - cnb * clr))).

(** ** numpy.polynomial.polynomial: coefficients in ascending order *)
(** trimseq: trailing zeros go, one coefficient stays *)
Fixpoint trim (p : list R) : list R :=
  match p with
  | [] => []
  | [a] => [a]
  | a :: r => match trim r with
              | [b] => if zero b then [a] else [a; b]
              | r' => a :: r'
              end
  end.
Fixpoint padd (p q : list R) : list R :=
  match p, q with [], _ => q | _, [] => p | a :: p', b :: q' => (a + b) :: padd p' q' end.
Definition pneg (p : list R) : list R := map Ropp p.
Fixpoint pconv (p q : list R) : list R :=
  match p with [] => [] | a :: p' => padd (map (Rmult a) q) (match p' with [] => [] | _ => 0 :: pconv p' q end) end.
(** polyadd, polysub, polymul: arguments and result trimmed *)
Definition polyadd (p q : list R) : list R := trim (padd (trim p) (trim q)).
Definition polysub (p q : list R) : list R := trim (padd (trim p) (pneg (trim q))).
Definition polymul (p q : list R) : list R := trim (pconv (trim p) (trim q)).
(** the same nine lines in both files (lateral_directional.py 80-89, longitudinal.py 81-90) *)
Definition determinant (A B C D E F G H I : list R) : list R :=
  let part1 := polymul A (polysub (polymul E I) (polymul F H)) in
  let part2 := polymul B (polysub (polymul F G) (polymul D I)) in
  let part3 := polymul C (polysub (polymul D H) (polymul G E)) in
  polyadd part1 (polyadd part2 part3).

(** ** complex numbers *)
Definition C := (R * R)%type.
Definition re (z : C) : R := fst z.
Definition im (z : C) : R := snd z.
Definition cabs (z : C) : R := sqrt (re z ^ 2 + im z ^ 2).
(** python's and numpy's order of complex scalars: real part first *)
Definition cltb (x y : C) : bool := if Rltb (re x) (re y) then true else if Req_EM_T (re x) (re y) then Rltb (im x) (im y) else false.

(** ** Full_Linearized_Equations/lateral_directional.py *)
Record lateral_in := Lat { t_V : R; t_cnb : R; t_S : R; t_rho : R; t_b : R; t_Iz : R; t_cnr : R; t_Ix : R; t_clp : R; t_J : R;
  t_clr : R; t_clb : R; t_cnp : R; t_cyphi : R; t_cypsi : R; t_cyb : R; t_m : R }.
(** 69-89 *)
Definition lateral_total (i : lateral_in) : list R :=
  let q := 1 / 2 * t_rho i * t_V i ^ 2 in
  let k := t_b i * (1 / 2) / t_V i in
  let A := [0; - k * t_clp i; t_Ix i / t_S i / q / t_b i] in
  let B := [0; - k * t_clr i; - t_J i / t_S i / q / t_b i] in
  let C := [- t_clb i] in
  let D := [0; - k * t_cnp i; - t_J i / t_S i / q / t_b i] in
  let E := [0; - k * t_cnr i; t_Iz i / t_S i / q / t_b i] in
  let F := [- t_cnb i] in
  let G := [- t_cyphi i] in
  let H := [- t_cypsi i; t_m i * t_V i / t_S i / q] in
  let I := [- t_cyb i; t_m i * t_V i / t_S i / q] in
  determinant A B C D E F G H I.
(** 94: sorted(reverse=True), stable *)
Fixpoint insert (x : C) (l : list C) : list C :=
  match l with [] => [x] | y :: r => if cltb y x then x :: l else y :: insert x r end.
Fixpoint sort_down (l : list C) : list C := match l with [] => [] | x :: r => insert x (sort_down r) end.
(** 90-98; [np_roots] receives the ascending list as it is; w_n, zeta, spiral_tau, roll_tau *)
Definition lateral_directional (np_roots : list R -> list C) (i : lateral_in) : result (R * R * R * R) :=
  let total := lateral_total i in
  match nth_error total 5 with
  | None => Err IndexError
  | Some lead =>
      let poly := map (fun c => c / lead) total in
      let root := sort_down (np_roots poly) in
      match nth_error root 0, nth_error root 1, nth_error root 3 with
      | Some r0, Some r1, Some r3 =>
          let w := / sqrt (im r1 ^ 2 + re r1 ^ 2) in
          Ok (w, - 2 * re r1 / w, 1 * re r0, 1 * re r3)
      | _, _, _ => Err IndexError
      end
  end.

(** ** Full_Linearized_Equations/longitudinal.py *)
Record long_in := Long { o_V : R; o_rho : R; o_S : R; o_c : R; o_cmq : R; o_cza : R; o_m : R; o_cma : R; o_Iy : R; o_cmad : R;
  o_czu : R; o_czad : R; o_czq : R; o_cw : R; o_theta : R; o_cxu : R; o_cxa : R }.
(** 70-90 *)
Definition long_total (i : long_in) : list R :=
  let q := 1 / 2 * o_rho i * o_V i ^ 2 in
  let mu := o_m i * o_V i / o_S i / q in
  let k := o_c i * (1 / 2) / o_V i in
  determinant
    [- o_cxu i; mu] [- o_cxa i] [- o_cw i * cos (o_theta i)]
    [- o_czu i] [- o_cza i; mu - k * o_czad i] [- o_cw i * sin (o_theta i); - mu - k * o_czq i]
    [0] [- o_cma i; - k * o_cmad i] [0; - k * o_cmq i; o_Iy i / o_S i / q / o_c i].
(** 93-118 on the five coefficients: frequency and damping of the short period, then of the phugoid *)
Definition lin_step (a0 a1 a2 a3 : R) : (R * R) * (R * R) :=
  let p13 := a3 - a1 / a2 in
  let p12 := a2 - a0 / a2 in
  let p22 := p12 - a1 * p13 / a2 in
  let p21 := a1 - a0 * p13 / a2 in
  let p33 := a3 - p21 / p22 in
  let p32 := a2 - a0 / p22 in
  let p42 := p32 - p21 * p33 / p22 in
  ((p33, p42), (p21 / p22, a0 / p22)).
Definition frequency (q : R * R) : option (R * R) :=
  match half_power (snd q) with None => None | Some w => Some (w, fst q * (1 / 2) / w) end.
Definition longitudinal (i : long_in) : result (option (R * R) * option (R * R)) :=
  let total := long_total i in
  match nth_error total 4 with
  | None => Err IndexError
  | Some lead =>
      let a n := nth n total 0 / lead in
      let '(short, slow) := lin_step (a 0%nat) (a 1%nat) (a 2%nat) (a 3%nat) in
      Ok (frequency short, frequency slow)
  end.

(** ** compute_dynamic_flight_modes.py *)
(** 72-77 *)
Definition flight_mass (mass max_takeoff : R) : result R :=
  if zero mass then Ok max_takeoff else if zero max_takeoff then Ok mass else Err AttributeError.
(** 94-157: the rows of the longitudinal matrix from the dimensional derivatives; [zwd], [mwd] multiply the rate of w *)
Record long_dim := LongDim { d_Xu : R; d_Xw : R; d_Zu : R; d_Zw : R; d_Zq : R; d_Mu : R; d_Mw : R; d_Mq : R; d_Zwd : R; d_Mwd : R }.
Definition v4 := (R * R * R * R)%type.
Definition a_lon (d : long_dim) (m Iy g u0 theta : R) : v4 * v4 * v4 * v4 :=
  let md := m - d_Zwd d in
  ((d_Xu d / m, d_Xw d / m, 0 / m, - g * cos theta),
   (d_Zu d / md, d_Zw d / md, (d_Zq d + m * u0) / md, - m * g * sin theta / md),
   ((d_Mu d + d_Mwd d * d_Zu d / md) / Iy, (d_Mw d + d_Mwd d * d_Zw d / md) / Iy, (d_Mq d + d_Mwd d * (d_Zq d + m * u0) / md) / Iy,
     - d_Mwd d * m * g * sin theta / (Iy * md)),
   (0, 0, 1, 0)).
(** 94-123: from the coefficients; 107 takes Cm_q for the derivative with speed *)
Record coeffs := Coeffs { k_cxu : R; k_czu : R; k_cl : R; k_cd : R; k_cla : R; k_clq : R; k_cmq : R; k_cma : R; k_cmad : R; k_czad : R }.
Definition long_dims (k : coeffs) (rho u0 S c m g theta ar e : R) : long_dim :=
  let q := 1 / 2 * rho * u0 ^ 2 in
  let cw := m * g / (q * S) in
  LongDim (rho * u0 * S * cw * sin theta + 1 / 2 * rho * u0 * S * k_cxu k)
          (1 / 2 * rho * u0 * S * (k_cl k - 2 * k_cl k / (PI * ar * e) * k_cla k))
          (- rho * u0 * S * cw * cos theta + 1 / 2 * rho * u0 * S * k_czu k)
          (1 / 2 * rho * u0 * S * (- k_cd k - k_cla k))
          (1 / 4 * rho * u0 * c * S * - k_clq k)
          (1 / 2 * rho * u0 * c * S * k_cmq k)
          (1 / 2 * rho * u0 * c * S * k_cma k)
          (1 / 4 * rho * u0 * c * c * S * k_cmq k)
          (1 / 4 * rho * c * S * k_czad k)
          (1 / 4 * rho * c * S * k_cmad k).
(** 197-206: products are element by element *)
Definition stability_inertia (ixx ixz izx izz alpha : R) : R * R * R :=
  (cos alpha * ixx * cos alpha, - (- sin alpha * ixz * sin alpha), cos alpha * izz * cos alpha).
Definition primed (i : R * R * R) : R * R * R :=
  let '(x, xz, z) := i in ((x * z - xz ^ 2) / z, xz / (x * z - xz ^ 2), (x * z - xz ^ 2) / x).
(** 208-248 *)
Record lat_dim := LatDim { d_Yv : R; d_Yp : R; d_Yr : R; d_Lv : R; d_Lp : R; d_Lr : R; d_Nv : R; d_Np : R; d_Nr : R }.
Definition a_lat (d : lat_dim) (inertia : R * R * R) (m g u0 theta : R) : v4 * v4 * v4 * v4 :=
  let '(ixp, ixzp, izp) := primed inertia in
  ((d_Yv d / m, d_Yp d / m, d_Yr d / m - u0, g * cos theta),
   (d_Lv d / ixp + ixzp * d_Nv d, d_Lp d / ixp + ixzp * d_Np d, d_Lr d / ixp + ixzp * d_Nr d, 0),
   (ixzp * d_Lv d + d_Nv d / izp, ixzp * d_Lp d + d_Np d / izp, ixzp * d_Lr d + d_Nr d / izp, 0),
   (0, 1, tan theta, 0)).
(** 174-176 and 271-273; the cosine of the argument of z is re z / |z|, and 1 at zero *)
Definition freq (z : C) : R := cabs z / 2 / PI.
Definition damping (z : C) : R := - (if zero (cabs z) then 1 else re z / cabs z).
Definition time_double_half (z : C) : R := ln 2 / Rabs (2 * PI * freq z * damping z).
(** 173, 179: np.argmax on complex numbers, first of the largest *)
Fixpoint argmax_from (l : list C) (i best : nat) (bv : C) : nat :=
  match l with [] => best | x :: r => if cltb bv x then argmax_from r (S i) i x else argmax_from r (S i) best bv end.
Definition argmax (l : list C) : nat := match l with [] => 0%nat | x :: r => argmax_from r 1 0 x end.
(** 267-278: the first pair with equal real parts; when there is none the loop variables are left at 2 and 3 and nothing is stored *)
Definition same_real (l : list C) (j k : nat) : bool := if Req_EM_T (re (nth j l (0, 0))) (re (nth k l (0, 0))) then true else false.
Definition pairs := [(0, 1); (0, 2); (0, 3); (1, 2); (1, 3); (2, 3)]%nat.
Definition dutch_pair (l : list C) : bool * (nat * nat) :=
  match find (fun p => same_real l (fst p) (snd p)) pairs with Some p => (true, p) | None => (false, (2, 3)%nat) end.
(** 281-293 *)
Definition others (used : list nat) : list nat := filter (fun i => negb (existsb (Nat.eqb i) used)) [0; 1; 2; 3]%nat.
Definition rmax_index (l : list C) (is : list nat) : nat :=
  match is with
  | i :: k :: _ => if Rltb (cabs (nth i l (0, 0))) (cabs (nth k l (0, 0))) then k else i
  | i :: _ => i
  | [] => 0%nat
  end.
Definition sign (x : R) : R := if Rltb x 0 then - 1 else if Rltb 0 x then 1 else 0.
Record lat_modes := LatModes { dutch_freq : R; dutch_damp : R; dutch_time : R; roll_index : nat; roll_constant : R; spiral_index : nat; spiral_time : R }.
Definition lateral_modes (l : list C) : lat_modes :=
  let '(found, (j, k)) := dutch_pair l in
  let zj := nth j l (0, 0) in
  let r := rmax_index l (others [j; k]) in
  let s := nth 0 (others [j; k; r]) 0%nat in
  let zr := nth r l (0, 0) in
  let zs := nth s l (0, 0) in
  LatModes (if found then freq zj else 0) (if found then damping zj else 0) (if found then time_double_half zj else 0)
    r (1 / (2 * PI * freq zr * - sign (re zr))) s (ln 2 / Rabs (2 * PI * freq zs * - sign (re zs))).
(** ** Analyses/Stability/Fidelity_Zero.py 202: the call of [roll] passes tensor[2][2] *)
Definition roll_call (ixx iyy izz S rho V b clp : R) : R := roll izz S rho V b clp.
(** ** compute_dynamic_flight_modes.py 208-216 *)
Record lat_coeffs := LatCoeffs { l_cyb : R; l_cyp : R; l_cyr : R; l_clb : R; l_clp : R; l_clr : R; l_cnb : R; l_cnp : R; l_cnr : R }.
Definition lat_dims (k : lat_coeffs) (rho u0 S b : R) : lat_dim :=
  LatDim (1 / 2 * rho * u0 * S * l_cyb k) (1 / 4 * rho * u0 * b * S * l_cyp k) (1 / 4 * rho * u0 * b * S * l_cyr k)
    (1 / 2 * rho * u0 * b * S * l_clb k) (1 / 4 * rho * u0 * b ^ 2 * S * l_clp k) (1 / 4 * rho * u0 * b ^ 2 * S * l_clr k)
    (1 / 2 * rho * u0 * b * S * l_cnb k) (1 / 4 * rho * u0 * b ^ 2 * S * l_cnp k) (1 / 4 * rho * u0 * b ^ 2 * S * l_cnr k).
