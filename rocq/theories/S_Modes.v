(** * Dynamic stability: specification vocabulary *)
From Coq Require Import Reals List Bool.
From Verif Require Import PyBase M_Modes.
Import ListNotations.
Local Open Scope R_scope.
Local Open Scope list_scope.

(** complex arithmetic *)
Definition c0 : C := (0, 0).
Definition c1 : C := (1, 0).
Definition cadd (x y : C) : C := (fst x + fst y, snd x + snd y).
Definition cneg (x : C) : C := (- fst x, - snd x).
Definition csub (x y : C) : C := cadd x (cneg y).
Definition cmul (x y : C) : C := (fst x * fst y - snd x * snd y, fst x * snd y + snd x * fst y).
Definition real (x : R) : C := (x, 0).
Definition cinv (x : C) : C := (fst x / (fst x ^ 2 + snd x ^ 2), - snd x / (fst x ^ 2 + snd x ^ 2)).
(** value at [z] of a polynomial with ascending, and with descending coefficients *)
Fixpoint at_ (p : list R) (z : C) : C := match p with [] => c0 | a :: r => cadd (real a) (cmul z (at_ r z)) end.
Definition down_at (p : list R) (z : C) : C := at_ (rev p) z.
Fixpoint factors (rs : list C) (z : C) : C := match rs with [] => c1 | r :: t => cmul (csub z r) (factors t z) end.
Definition det3 (a b c d e f g h i : C) : C :=
  cadd (cmul a (csub (cmul e i) (cmul f h))) (cadd (cmul b (csub (cmul f g) (cmul d i))) (cmul c (csub (cmul d h) (cmul g e)))).
(** what numpy.roots promises for descending coefficients: leading zeros ignored, all roots with their multiplicity, exactly *)
Definition exact_roots (np_roots : list R -> list C) : Prop :=
  forall zeros a p, Forall (fun x => x = 0) zeros -> a <> 0 ->
    length (np_roots (zeros ++ a :: p)) = length p /\ forall z, down_at (a :: p) z = cmul (real a) (factors (np_roots (zeros ++ a :: p)) z).
(** [w], [zeta] are frequency and damping of  a s^2 + b s + c = a (s^2 + 2 zeta w s + w^2) *)
Definition second_order (a b c w zeta : R) : Prop := a <> 0 /\ 0 < w /\ forall s, a * s ^ 2 + b * s + c = a * (s ^ 2 + 2 * zeta * w * s + w ^ 2).
Definition quad (a b c : R) (z : C) : C := cadd (real a) (cadd (cmul (real b) z) (cmul (real c) (cmul z z))).
(** small motions e^(z t) in roll angle, heading and sideslip, moments over q S b, forces over q S *)
Definition lateral_det (i : lateral_in) (z : C) : C :=
  let q := 1 / 2 * t_rho i * t_V i ^ 2 in
  let k := t_b i / (2 * t_V i) in
  let inertia x := x / (q * t_S i * t_b i) in
  let mu := t_m i * t_V i / (q * t_S i) in
  det3 (quad 0 (- (k * t_clp i)) (inertia (t_Ix i)) z) (quad 0 (- (k * t_clr i)) (- inertia (t_J i)) z) (quad (- t_clb i) 0 0 z)
       (quad 0 (- (k * t_cnp i)) (- inertia (t_J i)) z) (quad 0 (- (k * t_cnr i)) (inertia (t_Iz i)) z) (quad (- t_cnb i) 0 0 z)
       (quad (- t_cyphi i) 0 0 z) (quad (- t_cypsi i) mu 0 z) (quad (- t_cyb i) mu 0 z).
(** small motions e^(z t) in speed, incidence and pitch attitude *)
Definition long_det (i : long_in) (z : C) : C :=
  let q := 1 / 2 * o_rho i * o_V i ^ 2 in
  let k := o_c i / (2 * o_V i) in
  let mu := o_m i * o_V i / (q * o_S i) in
  det3 (quad (- o_cxu i) mu 0 z) (quad (- o_cxa i) 0 0 z) (quad (- (o_cw i * cos (o_theta i))) 0 0 z)
       (quad (- o_czu i) 0 0 z) (quad (- o_cza i) (mu - k * o_czad i) 0 z) (quad (- (o_cw i * sin (o_theta i))) (- mu - k * o_czq i) 0 z)
       (quad 0 0 0 z) (quad (- o_cma i) (- (k * o_cmad i)) 0 z) (quad 0 (- (k * o_cmq i)) (o_Iy i / (q * o_S i * o_c i)) z).
(** net roll damping and roll stiffness of the spiral motion *)
Definition spiral_balance (i : lateral_in) : R :=
  t_cyphi i * (t_clb i * t_cnr i - t_cnb i * t_clr i) + t_cypsi i * (t_clp i * t_cnb i - t_clb i * t_cnp i).
(** one row of a matrix times the state *)
Definition dot4 (a : v4) (u w q t : R) : R := let '(a1, a2, a3, a4) := a in a1 * u + a2 * w + a3 * q + a4 * t.
