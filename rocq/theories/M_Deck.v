(** * Engine decks: model

    Source: PS = /repo/trunk/SUAVE/Components/Energy/Networks/Propulsor_Surrogate.py.
    Numbers are reals.  One control point at a time: every operation of the code works element by element on the rows.
    The regression of scikit-learn is an arbitrary function [fit] of the points and the values; where a prediction has one dimension too few is modelled, the rest of
    scikit-learn is not.  Division by a maximum that is 0 (nan in python) is left out: theorems ask for positive maxima. *)
From Coq Require Import Reals List Bool Arith.
From Verif Require Import PyBase M_Opt M_Noise M_Util.
Import ListNotations.
Local Open Scope R_scope.
Local Open Scope list_scope.

(** a condition: altitude, Mach number, throttle; a row of the file: condition, thrust, specific fuel consumption *)
Record cond := Cond { c_alt : R; c_mach : R; c_thr : R }.
Record drow := DRow { d_at : cond; d_thrust : R; d_sfc : R }.
Definition with_thr (c : cond) (t : R) : cond := Cond (c_alt c) (c_mach c) t.
Definition scaled (a : R) (c : cond) : cond := Cond (c_alt c / a) (c_mach c) (c_thr c).
Definition drow_dec (x y : drow) : {x = y} + {x <> y}.
Proof. repeat decide equality; apply Req_EM_T. Defined.

(** surrogate_type: PS 69, 207-233 *)
Inductive kind := Gaussian | Knn | Svr | Linear | Other.
(** the settings: PS 61-81 *)
Record deck := Deck {
  k_kind : kind; k_engines : R; k_negative : bool; k_extended : bool;
  k_thrust_anchor : option (R * cond); k_sfc_anchor : option (R * cond) }.
(** what build_surrogate leaves behind *)
Record built := Built { b_alt : R; b_thrust : R; b_sfc : R; b_pthrust : cond -> R; b_psfc : cond -> R; b_kthrust : R; b_ksfc : R }.

(** ** build_surrogate: PS 177-250.  [data]: the rows after the header line (183); 186-189: rows that are there twice count once.  numpy also sorts them, which only
    the regression sees.  A file without rows fails at 186: one line alone is an array without a second dimension *)
Definition anchor_scale (predict : cond -> R) (alt scale : R) (anchor : option (R * cond)) : R :=
  match anchor with None => 1 | Some (v, c) => v / (predict (scaled alt c) * scale) end.
Definition build (fit : kind -> list cond -> list R -> cond -> R) (k : deck) (data : list drow) : result built :=
  match data with
  | [] => Err IndexError
  | _ =>
    let rows := nodup drow_dec data in
    let alt := maxl (map (fun r => c_alt (d_at r)) rows) in
    let ts := maxl (map d_thrust rows) in
    let ss := maxl (map d_sfc rows) in
    let xs := map (fun r => scaled alt (d_at r)) rows in
    match k_kind k with
    | Other => Err GenericException (* NotImplementedError *)
    | kd =>
      let pt := fit kd xs (map (fun r => d_thrust r / ts) rows) in
      let ps := fit kd xs (map (fun r => d_sfc r / ss) rows) in
      Ok (Built alt ts ss pt ps (anchor_scale pt alt ts (k_thrust_anchor k)) (anchor_scale ps alt ss (k_sfc_anchor k)))
    end
  end.

(** ** extended_thrust_surrogate: PS 275-312, and extended_sfc_surrogate: PS 337-372; blenders: 118-119 *)
Definition lo_blender (x : R) : R := blend 0 (1 / 100) x.
Definition hi_blender (x : R) : R := blend (99 / 100) 1 x.
Definition extended_thrust (p : cond -> R) (c : cond) : R :=
  let e := c_thr c in
  let mn := p (with_thr c 0) in let mx := p (with_thr c 1) in
  let slope := mx - mn in
  if Rltb e 0 then mn + e * slope
  else if Rltb e (1 / 100) then (mn + e * slope) * lo_blender e + p c * (1 - lo_blender e)
  else if Rltb e (99 / 100) then p c
  else if Rltb e 1 then p c * hi_blender e + (mx + (e - 1) * slope) * (1 - hi_blender e)
  else mx + (e - 1) * slope.
Definition extended_sfc (p : cond -> R) (c : cond) : R :=
  let e := c_thr c in
  if Rltb e 0 then p (with_thr c 0)
  else if Rltb e (1 / 100) then p (with_thr c 0) * lo_blender e + p c * (1 - lo_blender e)
  else if Rltb e (99 / 100) then p c
  else if Rltb e 1 then p c * hi_blender e + p (with_thr c 1) * (1 - hi_blender e)
  else p (with_thr c 1).

(** ** evaluate_thrust: PS 105-134: thrust and mass rate.  Support vector regression predicts a list of numbers, not of rows, so that 133, or 139, fails;
    together with the extended surrogate it is not modelled *)
Definition evaluate (k : deck) (b : built) (c : cond) : result (R * R) :=
  match k_kind k, k_extended k with
  | Svr, false => Err IndexError
  | _, _ =>
    let x := scaled (b_alt b) c in
    let sfc := (if k_extended k then extended_sfc (b_psfc b) x else b_psfc b x) * b_sfc b * b_ksfc b in
    let thr := (if k_extended k then extended_thrust (b_pthrust b) x else b_pthrust b x) * b_thrust b * b_kthrust b in
    let mdot := thr * sfc * k_engines k in
    if negb (k_negative k) && negb (Rltb 0 (c_thr c)) then Ok (0, 0) else Ok (thr, mdot)
  end.
(** 137-143: the thrust along the first axis, turned by the matrix of the rotation vector, which is transposed twice; [m]: the matrix by rows *)
Definition thrust_vector (m : (R * R * R) * (R * R * R) * (R * R * R)) (F : R) : R * R * R :=
  let '((a, b, c), (d, e, f), (g, h, i)) := m in
  (a * F + b * 0 + c * 0, d * F + e * 0 + f * 0, g * F + h * 0 + i * 0).
