(** * The airfoil panel method: geometry, influence coefficients, surface velocity, coefficients and boundary layer closures
    PG = trunk/SUAVE/Methods/Aerodynamics/Airfoil_Panel_Method/panel_geometry.py, IC = infl_coeff.py, HS = hess_smith.py, VD = velocity_distribution.py,
    AC = aero_coeff.py, TM = thwaites_method.py, HM = heads_method.py, AA = airfoil_analysis.py
    One case and one control point of the arrays at a time: the code treats them apart. Floats are reals. *)
From Coq Require Import Reals List Bool Arith.
From Verif Require Import PyBase M_Opt P_Opt M_Drag.
Import ListNotations.
Local Open Scope R_scope.

Definition pt := (R * R)%type.
(** a panel by its two ends *)
Definition panel := (pt * pt)%type.
(** PG 46-50: the panels between consecutive nodes *)
Definition panels (ns : list pt) : list panel := combine ns (tl ns).
(** PG 46-50, 53-54: panels of length zero give nan *)
Definition len (p : panel) : R := sqrt ((fst (snd p) - fst (fst p)) ^ 2 + (snd (snd p) - snd (fst p)) ^ 2).
Definition st (p : panel) : R := (snd (snd p) - snd (fst p)) / len p.
Definition ct (p : panel) : R := (fst (snd p) - fst (fst p)) / len p.
Definition mid (p : panel) : pt := ((fst (snd p) + fst (fst p)) / 2, (snd (snd p) + snd (fst p)) / 2).
Definition normal (p : panel) : pt := (- st p, ct p).

(** ** Influence *)
Definition sum (l : list R) : R := fold_right Rplus 0 l.
(** IC 57-58, VD 68-69 *)
Definition s_ij (pi pj : panel) : R := ct pj * st pi - st pj * ct pi.
Definition c_ij (pi pj : panel) : R := ct pj * ct pi + st pj * st pi.
(** IC 59-61 *)
Definition dist (p q : pt) : R := sqrt ((fst p - fst q) ^ 2 + (snd p - snd q) ^ 2).
Definition dot (p a b : pt) : R := (fst p - fst a) * (fst p - fst b) + (snd p - snd a) * (snd p - snd b).
(** IC 62 *)
Definition cross (p a b : pt) : R := (fst p - fst a) * (snd p - snd b) - (fst p - fst b) * (snd p - snd a).
Definition sgn (x : R) : R := if Rltb 0 x then 1 else if Rltb x 0 then -1 else 0.
(** IC 63-64 *)
Definition r_ratio (p a b : pt) : R := let r := dot p a b / dist p a / dist p b in if Rltb 1 r then 1 else r.
(** IC 65 *)
Definition angle (p a b : pt) : R := sgn (cross p a b) * acos (r_ratio p a b).
(** IC 65-69 *)
Definition beta (same : bool) (pi pj : panel) : R := if same then PI else angle (mid pi) (fst pj) (snd pj).
(** IC 71: np.log(rij_plus_1/rij) *)
Definition lnr (pi pj : panel) : R := ln (dist (mid pi) (snd pj) / dist (mid pi) (fst pj)).
(** IC 71, 72, 75, 76: the four kinds of coefficient of panel j on panel i *)
Definition a_src (e : bool) (pi pj : panel) : R := 1 / (2 * PI) * (s_ij pi pj * lnr pi pj + c_ij pi pj * beta e pi pj).
Definition a_vor (e : bool) (pi pj : panel) : R := 1 / (2 * PI) * (c_ij pi pj * lnr pi pj - s_ij pi pj * beta e pi pj).
Definition t_src (e : bool) (pi pj : panel) : R := 1 / (2 * PI) * (s_ij pi pj * beta e pi pj - c_ij pi pj * lnr pi pj).
Definition t_vor (e : bool) (pi pj : panel) : R := 1 / (2 * PI) * (s_ij pi pj * lnr pi pj + c_ij pi pj * beta e pi pj).
(** one coefficient for each panel j, with its index *)
Definition row {A} (f : bool -> panel -> panel -> A) (ps : list panel) (i : nat) (pi : panel) : list A :=
  map (fun jp => f (Nat.eqb i (fst jp)) pi (snd jp)) (combine (seq 0 (length ps)) ps).
(** IC 77-78, HS 65: the first and the last panel *)
Definition first_panel (ps : list panel) : panel := hd ((0, 0), (0, 0)) ps.
Definition last_panel (ps : list panel) : panel := last ps ((0, 0), (0, 0)).
(** IC 43-80: the rows of the panels, then the Kutta row *)
Definition ainfl (ps : list panel) : list (list R) :=
  map (fun ip => row a_src ps (fst ip) (snd ip) ++ [sum (row a_vor ps (fst ip) (snd ip))]) (combine (seq 0 (length ps)) ps)
  ++ [map2 Rplus (row t_src ps 0 (first_panel ps)) (row t_src ps (length ps - 1) (last_panel ps))
      ++ [sum (row t_vor ps 0 (first_panel ps)) + sum (row t_vor ps (length ps - 1) (last_panel ps))]].
(** HS 63-65 *)
Definition rhs (ps : list panel) (al : R) : list R :=
  map (fun p => st p * cos al - sin al * ct p) ps
  ++ [- (ct (first_panel ps) * cos al + st (first_panel ps) * sin al) - (ct (last_panel ps) * cos al + st (last_panel ps) * sin al)].
Definition mat_vec (a : list (list R)) (x : list R) : list R := map (fun r => sum (map2 Rmult r x)) a.
(** VD 53-92: [q] the source strengths, [g] the vortex strength *)
Definition velocity (ps : list panel) (al : R) (q : list R) (g : R) : list R :=
  map (fun ip => ct (snd ip) * cos al + st (snd ip) * sin al
     + sum (map2 (fun qj e => qj / 2 / PI * e) q (row (fun e pi pj => s_ij pi pj * beta e pi pj - c_ij pi pj * lnr pi pj) ps (fst ip) (snd ip)))
     + sum (map (fun e => g / 2 / PI * e) (row (fun e pi pj => s_ij pi pj * lnr pi pj + c_ij pi pj * beta e pi pj) ps (fst ip) (snd ip))))
  (combine (seq 0 (length ps)) ps).
(** HS 22-74: numpy's solver answers with strengths that satisfy the equations, or raises *)
Inductive hess_smith (ns : list pt) (al : R) : list R -> list R -> R -> Prop :=
  Solved q g : length q = length (panels ns) -> mat_vec (ainfl (panels ns)) (q ++ [g]) = rhs (panels ns) al ->
    hess_smith ns al (velocity (panels ns) al q g) q g.

(** ** Coefficients *)
(** AC 44-49: segments between the points, each with the pressure at its first point *)
Definition segs (ns : list pt) (cp : list R) : list (panel * R) := combine (panels ns) (removelast cp).
Definition dcn (s : panel * R) : R := - snd s * (fst (snd (fst s)) - fst (fst (fst s))).
Definition dca (s : panel * R) : R := snd s * (snd (snd (fst s)) - snd (fst (fst s))).
Definition xa (s : panel * R) : R := 1 / 2 * (fst (snd (fst s)) + fst (fst (fst s))) - 1 / 4.
Definition ya (s : panel * R) : R := 1 / 2 * (snd (snd (fst s)) + snd (fst (fst s))).
(** AC 52-58, the lift, pressure drag and moment coefficients *)
Definition aero_coeff (ns : list pt) (cp : list R) (al : R) : R * R * R :=
  let cn := sum (map dcn (segs ns cp)) in let ca := sum (map dca (segs ns cp)) in
  (cn * cos al - ca * sin al, cn * sin al + ca * cos al, sum (map (fun s => - dcn s * xa s + dca s * ya s) (segs ns cp))).
(** AA 462 *)
Definition drag (theta : list R) (h_wake ue : R) : R := 2 * last theta 0 * pw ue ((5 + h_wake) / 2).

(** ** Boundary layer closures *)
(** TM 145-166 (a lambda of -0.14 gives inf) *)
Definition lam_H (x : R) : R := if Rltb 0 x then 261 / 100 - 375 / 100 * x + 524 / 100 * x ^ 2 else 731 / 10000 / (14 / 100 + x) + 2088 / 1000.
(** TM 94 *)
Definition lam_H_used (x : R) : R := if Rltb (lam_H x) 0 then 1 / 1000000 else lam_H x.
(** TM 241-264 (a lambda of -0.107 gives inf) *)
Definition lam_l (x : R) : R := if Rltb 0 x then 22 / 100 + 157 / 100 * x - 18 / 10 * x ^ 2 else 22 / 100 + 1402 / 1000 * x + 18 / 1000 * x / (107 / 1000 + x).
(** TM 107 *)
Definition lam_cf (x re : R) : R := Rabs (2 * lam_l x / re).
(** HM 190-206 (H of 1.1 and below gives inf or nan) *)
Definition turb_H1 (h : R) : R := if Rltb (16 / 10) h then 33 / 10 + 15501 / 10000 * Rpower (h - 6778 / 10000) (- 3064 / 1000) else 33 / 10 + 8234 / 10000 * Rpower (h - 11 / 10) (- 1287 / 1000).
(** HM 170-188 (H1 of 3.3 gives inf) *)
Definition turb_H (h1 : R) : R := if Rltb (53 / 10) h1 then 11 / 10 + 86 / 100 * Rpower (h1 - 33 / 10) (- 777 / 1000)
  else if Rltb h1 (33 / 10) then 3 else 6778 / 10000 + 11536 / 10000 * Rpower (h1 - 33 / 10) (- 326 / 1000).
(** HM 285-302, positive Reynolds numbers or 0 *)
Definition turb_cf (re h : R) : R := if Req_EM_T re 0 then 246 / 1000 * Rpower 10 (- 678 / 1000 * h) * Rpower (1 / 1000) (- 268 / 1000)
  else 246 / 1000 * Rpower 10 (- 678 / 1000 * h) * Rpower re (- 268 / 1000).
(** TM 85-87, 96-98, HM 108-113, 122-124: entries that jump are overwritten by their old predecessors, if there are two or more *)
Definition jumps (tol a b : R) : bool := Rltb tol (Rabs ((b - a) / a)).
Definition unjump (tol : R) (l : list R) : list R :=
  match l with [] => [] | x :: _ =>
    if (2 <=? length (filter (fun ab => jumps tol (fst ab) (snd ab)) (combine l (tl l))))%nat
    then x :: map (fun ab => if jumps tol (fst ab) (snd ab) then fst ab else snd ab) (combine l (tl l)) else l end.
