(** * Static stability: model

    Sources: /repo/trunk/SUAVE/Methods/Flight_Dynamics/Static_Stability/Approximations/*.py and their use in
    /repo/trunk/SUAVE/Analyses/Stability/Fidelity_Zero.py.  Numbers are reals; arrays over control points are one point at a time. *)
From Coq Require Import Reals List Bool.
From Verif Require Import PyBase M_Opt.
Import ListNotations.
Local Open Scope R_scope.
Local Open Scope list_scope.

(** python's truth value of a number *)
Definition zero (x : R) : bool := if Req_EM_T x 0 then true else false.

(** ** Supporting_Functions/convert_sweep.py *)
Record swing := SWing {
  sw_quarter : R; sw_leading : R; sw_taper : R; sw_ar : R;
  sw_effective : option R;          (* effective_aspect_ratio *)
  sw_extended : option (option R)   (* the field "extended", and its aspect_ratio *) }.
(** 60-68; the same lines in datcom.py 58-66 *)
Definition aspect (w : swing) : R :=
  match sw_effective w with
  | Some a => a
  | None => match sw_extended w with Some (Some a) => a | Some None => sw_ar w | None => sw_ar w end
  end.
(** 58-82 *)
Definition convert_sweep (w : swing) (old new : R) : R :=
  let t := sw_taper w in let ar := aspect w in
  let le := if zero old then sw_leading w else atan (tan (sw_quarter w) + 4 * old * (1 - t) / (ar * (1 + t))) in
  atan (tan le - 4 * new * (1 - t) / (ar * (1 + t))).
(** 134-161; [pa], [ca] span location and chord fraction of the first segment, [pb], [cb] of the second *)
Definition convert_sweep_segments (a pa ca pb cb root span : R) (symmetric : bool) (old new : R) : R :=
  if Req_EM_T old new then a else
  let rc := ca * root in let tc := cb * root in
  let t := tc / rc in
  let b := if symmetric then span else span * 2 in
  let ar := b * (pb - pa) / (1 / 2 * (rc + tc)) in
  let le := if zero old then a else atan (tan a + 4 * old * (1 - t) / (ar * (1 + t))) in
  atan (tan le - 4 * new * (1 - t) / (ar * (1 + t))).

(** ** Supporting_Functions/trapezoid_mac.py 39-62 *)
Definition trapezoid_mac (S b l cr ct mac : R) : R :=
  if negb (zero mac) then mac else
  let '(cr, ct) :=
    if zero ct then
      let cr := if zero cr then (S / b) / (1 - 1 / 2 * (1 - l)) else cr in (cr, cr * l)
    else (cr, ct) in
  2 / 3 * (cr + ct - cr * ct / (cr + ct)).
(** ** Supporting_Functions/trapezoid_ac_x.py 50-71 *)
Definition trapezoid_ac_x (S b l sweep : R) (symm : bool) (cr ct mac : R) : R :=
  let mac := trapezoid_mac S b l cr ct mac in
  let semi :=
    if Req_EM_T l 1 then 1 / 2 * b
    else
      let cr := if zero cr then (S / b) / (1 - 1 / 2 * (1 - l)) else cr in
      b * (1 - 1 / 2 * (if symm then 1 else 0)) * (cr - mac) / (cr * (1 - l)) in
  semi * tan sweep + mac / 4.

(** ** Supporting_Functions/extend_to_ref_area.py 61-91.  [span]: spans.exposed, or spans.projected when there is none *)
Record extended := Extended { e_span : R; e_area : R; e_ar : R; e_root : R; e_shift : R; e_origin : R * R * R }.
Definition extend_to_ref_area (symm : bool) (span ct cr1 sweep dh : R) (origin : R * R * R) : extended :=
  let sy := if symm then 1 else 0 in
  let b1 := span * (1 / 2) * (2 - sy) in
  let b := b1 + dh in
  let root := ct + b / b1 * (cr1 - ct) in
  let S := 1 / 2 * b * (root + ct) in
  let dx := - dh * tan sweep in
  let ar := b ^ 2 / S in
  let '(x, y, z) := origin in
  (* 89: adding a number to an array shifts every coordinate *)
  Extended (b * (1 + sy)) (S * (1 + sy)) (ar * (1 + sy)) root dx (x + dx, y + dx, z + dx).

(** ** datcom.py 70-90 for one Mach number *)
Definition beta (M : R) : R := if Rltb M 1 then sqrt (1 - M ^ 2) else if Rltb 1 M then sqrt (M ^ 2 - 1) else 1.
Definition section_slope (M : R) : R := if Rltb M 1 then 613 / 100 / beta M else if Rltb 1 M then 4 / beta M else 1.
Definition slope (ar half M : R) : R :=
  let b := beta M in
  let k := section_slope M / (2 * PI / b) in
  2 * PI * ar / (2 + sqrt (ar ^ 2 * (b * b) / (k * k) * (1 + tan half ^ 2 / (b * b)) + 4)).
Definition datcom (w : swing) (M : R) : R := slope (aspect w) (convert_sweep w (1 / 4) (1 / 2)) M.

(** ** Tube_Wing/taw_cmalpha.py 93-150 at one control point *)
Record surface := Surface {
  s_area : R; s_x : R; s_ac : R; s_eta : R; s_ep : R; s_cla : R; s_vertical : bool;
  s_twist_root : R; s_twist_tip : R; s_taper : R; s_al0 : R; s_cmac : R }.
Definition flat (s : surface) : R := 1 - (if s_vertical s then 1 else 0).
Definition arm (xcg : R) (s : surface) : R := s_x s + s_ac s - xcg.
Definition cm_alpha_of (sref mac xcg : R) (s : surface) : R :=
  - arm xcg s * s_area s / (mac * sref) * (s_cla s * s_eta s * (1 - s_ep s)) * flat s.
Definition cm0_of (sref mac xcg : R) (s : surface) : R :=
  let cl0 := s_cla s * ((s_twist_root s + s_taper s * s_twist_tip s) / 2 - s_al0 s) in
  s_cmac s + s_area s * s_eta s * cl0 * arm xcg s * (1 - s_ep s) * flat s / (mac * sref).
(** 93-103: the fuselage's width and length; origin, sweep, root chord, span and taper of the main wing *)
Definition cm_body (sref mac : R) (fus : option (R * R)) (x0 sweep root span taper : R) : R :=
  match fus with
  | None => 0
  | Some (wf, lf) =>
      let x := x0 + 1 / 2 * wf * tan sweep + 1 / 4 * root * (1 - wf / span * (1 - taper)) in
      let p := x / lf in
      (15012 / 10000 * p ^ 2 + 538 / 1000 * p + 331 / 10000) * wf * wf * lf / sref / mac
  end.
Fixpoint add_up (f : surface -> R) (l : list surface) (acc : R) : R :=
  match l with [] => acc | s :: r => add_up f r (acc + f s) end.
(** sums start from 0 and add the surfaces in order; [body] is added last (144-148) *)
Definition cm_alpha (sref mac xcg body : R) (l : list surface) : R := add_up (cm_alpha_of sref mac xcg) l 0 + body.
Definition cm_zero (sref mac xcg : R) (l : list surface) : R := add_up (cm0_of sref mac xcg) l 0.
Definition cm_total (sref mac xcg body alpha : R) (l : list surface) : R := cm_alpha sref mac xcg body l * alpha + cm_zero sref mac xcg l.
(** Fidelity_Zero.py 161-164 *)
Definition static_margin (cma cla : R) : R := - cma / cla.
Definition neutral_point (xcg mac cma cla : R) : R := xcg + mac * static_margin cma cla.

(** ** Tube_Wing/taw_cnbeta.py 140-200 at one control point *)
Record body := Body { b_side : R; b_length : R; b_height : R; b_width : R; b_h1 : R; b_h2 : R; b_wing_height : R }.
Definition body_share (xcg re_per_m sref span : R) (f : body) : R :=
  let x1 := xcg / b_length f in
  let x2 := b_length f * b_length f / b_side f in
  let x3 := sqrt (b_h1 f / b_h2 f) in
  let x4 := b_height f / b_width f in
  let k1 := 32413 / 10000 * x1 - 663345 / 1000000 + 61086 / 10000 * exp (- (22 / 100) * x2) in
  let k2 := (- (2023 / 10000) + 13422 / 10000 * x3 - 1454 / 10000 * x3 * x3) * k1 in
  let k3 := 7870 / 10000 + 1038 / 10000 * x4 + 1834 / 10000 * x4 * x4 - 2811 / 1000 * exp (- 4 * x4) in
  let kn := (- (47899 / 100000) + k3 * k2) * (1 / 1000) in
  let kr := 1 + 8 / 10 * ln (re_per_m * b_length f / 1000000) / ln 50 in
  573 / 10 * kn * kr * b_side f * b_length f / sref / span.
Definition tail_factor (bf : R) : R :=
  if Rltb bf 2 then 76 / 100 else if Rltb bf (35 / 10) then 76 / 100 + 24 / 100 * (bf - 2) / (15 / 10) else 1.
(** the loop over fuselages: the running sum, and the last fuselage seen *)
Fixpoint bodies (share : body -> R) (l : list body) (acc : R) (last : option body) : R * option body :=
  match l with [] => (acc, last) | f :: r => bodies share r (acc - share f) (Some f) end.
(** [zw], [sweep], [ar] of the main wing; [v] the extended tail, [ac] its aerodynamic centre, [cla] its lift-curve slope *)
Definition cn_beta (sref span ar zw sweep xcg re_per_m : R) (v : extended) (ac cla : R) (l : list body) : result R :=
  let '(fuse, last) := bodies (body_share xcg re_per_m sref span) l 0 None in
  match last with
  | None => Err UnboundLocalError
  | Some f =>
      let lv := fst (fst (e_origin v)) + ac - xcg in
      let kv := tail_factor (e_span v / b_wing_height f) in
      let side := 724 / 1000 + 306 / 100 * (e_area v / sref / (1 + cos sweep)) + 4 / 10 * zw / b_height f + 9 / 1000 * ar in
      let cy := - kv * cla * side * (e_area v / sref) in
      Ok (0 + - cy * lv / span + fuse)
  end.
(** ** one evaluation of Fidelity_Zero.py 146-158 as seen by the vertical tail: its lift-curve slope is stored first (149), then
    taw_cnbeta extends the surface in place (taw_cnbeta.py 128) *)
Definition evaluate_tail (e : extended) (M : R) (w : swing) : swing * R :=
  (SWing (sw_quarter w) (sw_leading w) (sw_taper w) (sw_ar w) (sw_effective w) (Some (Some (e_ar e))), datcom w M).
Fixpoint evaluations (e : extended) (w : swing) (Ms : list R) : list R :=
  match Ms with [] => [] | M :: r => let '(w', c) := evaluate_tail e M w in c :: evaluations e w' r end.
