(** * Maximum lift, field lengths, take-off weight, payload-range: model

    Sources: /repo/trunk/SUAVE/Methods/Aerodynamics/Fidelity_Zero/Lift/*.py and /repo/trunk/SUAVE/Methods/Performance/*.py.
    Numbers are reals; density, gravity, viscosity and thrust come in as values or functions.  Printing, files and plots are left out. *)
From Coq Require Import Reals List Bool Arith String.
From Verif Require Import PyBase M_Opt M_Noise.
Import ListNotations.
Local Open Scope R_scope.
Local Open Scope list_scope.

Definition degree : R := PI / 180.

(** ** compute_slat_lift.py 42-49 *)
Definition slat_lift (slat sweep : R) : R :=
  let sa := slat / degree in
  sa / 23 * Rpower (cos sweep) (14 / 10) * cos (sa * degree) ^ 2.

(** ** compute_flap_lift.py 46-78.  Flap types are compared in upper case; the model takes them already in lower case *)
Definition flap_ref (tc : R) (kind : option string) : R :=
  let d := - (4 / 100000) * tc ^ 4 + 14 / 10000 * tc ^ 3 - 93 / 10000 * tc ^ 2 + 436 / 10000 * tc + 9734 / 10000 in
  match kind with
  | None => 0
  | Some k => if String.eqb k "single_slotted" then d * (93 / 100) else if String.eqb k "triple_slotted" then d * (108 / 100) else d
  end.
Definition flap_deflection_factor (fa : R) : R := - (17857 / 100000000) * fa ^ 2 + 29214 / 1000000 * fa - 14 / 1000.
Definition flap_lift (tc : R) (kind : option string) (chord angle sweep sref affected : R) : R :=
  let kc := 395 / 10000 * (chord * 100) + 57 / 10000 in
  let ksw := (1 - 8 / 100 * cos sweep ^ 2) * Rpower (cos sweep) (3 / 4) in
  kc * flap_deflection_factor (angle / degree) * ksw * flap_ref tc kind * affected / sref.

(** ** compute_max_lift_coeff.py 67-135 *)
Record hwing := HWing {
  w_high_lift : bool; w_area : R; w_tc : R; w_chord : R; w_sweep : R; w_taper : R; w_affected : R;
  w_slat : option R; w_flap : option (option string * R * R) (* type, chord fraction, deflection *) }.
Definition section_clmax (tc : R) : R := - (9 / 10000) * tc ^ 3 + 217 / 10000 * tc ^ 2 - 442 / 10000 * tc + 7005 / 10000.
(** 99-103 *)
Definition planform_factor (t s : R) : R :=
  919729714285715 / 1000000000000000 - 44504761904771 / 1000000000000000 * t - 18359 / 10000000 * s + 247071428571446 / 1000000000000000 * t ^ 2
  + 31915 / 10000000 * t * s - 56632142857 / 1000000000000000 * s ^ 2 - 279166666666676 / 1000000000000000 * t ^ 3 + 23 / 10000 * t ^ 2 * s
  + 49982142857 / 1000000000000000 * t * s ^ 2 - 28 / 100000000 * s ^ 3.
(** 78-131: one wing; [V], [roc], [nu] speed, density, viscosity *)
Definition clean_lift (V roc nu : R) (w : hwing) : R :=
  let op := section_clmax (w_tc w * 100) * Rpower (V * roc * w_chord w / nu / 9000000) (1 / 10) in
  11 / 10 * (op * planform_factor (w_taper w) (w_sweep w / degree)) - 2 / 10.
Definition wing_lift (V roc nu sref : R) (w : hwing) : R :=
  clean_lift V roc nu w
  + match w_slat w with None => 0 | Some a => slat_lift a (w_sweep w) end
  + match w_flap w with None => 0 | Some (k, ch, a) => flap_lift (w_tc w * 100) k ch a (w_sweep w) sref (w_affected w) end.
Fixpoint max_lift_loop (V roc nu sref : R) (ws : list hwing) (acc : R * R) : R * R :=
  match ws with
  | [] => acc
  | w :: r =>
      max_lift_loop V roc nu sref r
        (if w_high_lift w then (fst acc + wing_lift V roc nu sref w * w_area w / sref, snd acc + 1 / 100 * w_area w / sref) else acc)
  end.
Definition max_lift (V roc nu sref factor : R) (ws : list hwing) : R * R :=
  let (cl, cd) := max_lift_loop V roc nu sref ws (0, 0) in (cl * factor, cd).

(** ** estimate_stall_speed.py 37-42; the same formula at estimate_take_off_field_length.py 108 and estimate_landing_field_length.py 95 *)
Definition stall_speed (g rho sref cl w : R) : R := sqrt (2 * w * g / (rho * sref * cl)).

(** ** estimate_take_off_field_length.py 115-179 *)
(** 146-171 *)
Definition takeoff_constants (user : option (list R)) (engines : nat) : list R :=
  match user with
  | Some l => l
  | None =>
      if Nat.eqb engines 2 then [8574 / 10; 2476 / 1000; 14 / 100000]
      else if Nat.eqb engines 3 then [6679 / 10; 2343 / 1000; 93 / 1000000]
      else if Nat.eqb engines 4 then [4867 / 10; 2282 / 1000; 705 / 10000000]
      else if Nat.ltb 4 engines then [4867 / 10; 2282 / 1000; 705 / 10000000]
      else [8574 / 10; 2476 / 1000; 14 / 100000]
  end.
(** 176-178; estimate_landing_field_length.py 113-115 *)
Fixpoint series (cs : list R) (idx : nat) (x acc : R) : R :=
  match cs with [] => acc | c :: r => series r (S idx) x (acc + c * x ^ idx) end.
Definition foot : R := 3048 / 10000.
Record field := Field { f_g : R; f_rho : R; f_sref : R; f_clmax : R; f_ratio : option R; f_engines : list nat; f_consts : option (list R) }.
Definition ratio_or (d : R) (r : option R) : R := match r with Some x => x | None => d end.
Definition v2_speed (f : field) (w : R) : R := ratio_or (12 / 10) (f_ratio f) * stall_speed (f_g f) (f_rho f) (f_sref f) (f_clmax f) w.
Definition takeoff_field_length (f : field) (thrust : R -> R) (w : R) : result R :=
  let engines := fold_left Nat.add (f_engines f) 0%nat in
  if Nat.eqb engines 0 then Err ValueError else
  let v2 := v2_speed f w in
  let t := thrust (7 / 10 * v2) in
  let index := v2 ^ 2 / (t / w) in
  Ok (series (takeoff_constants (f_consts f) engines) 0 index 0 * foot).
(** 182-210: [t] the thrust with one engine out at V2, [ld] lift over drag with all engines, [asym] and [mill] the extra drag coefficients *)
Definition second_segment_gradient (f : field) (w t ld asym mill : R) : R :=
  let cl := f_clmax f / ratio_or (12 / 10) (f_ratio f) ^ 2 in
  let cd := cl / ld + asym + mill in
  t / (w * f_g f) - 1 / (cl / cd).

(** ** estimate_landing_field_length.py 95-118; 104-110: the name "config" does not exist, so the user's constants are never read *)
Definition landing_constants (user : option (list R)) (g : R) : list R := (fun _ => [250; 0; 2485 / 1000 / g]) user.
Definition landing_field_length (f : field) (user : option (list R)) (w : R) : R :=
  let vref := stall_speed (f_g f) (f_rho f) (f_sref f) (f_clmax f) w * ratio_or (123 / 100) (f_ratio f) in
  series (landing_constants user (f_g f)) 0 vref 0.

(** ** find_take_off_weight_given_tofl.py 46-68 *)
(** numpy interp, for increasing abscissae *)
Fixpoint interp (x : R) (pts : list (R * R)) : R :=
  match pts with
  | [] => 0
  | (a, b) :: r =>
      match r with
      | [] => b
      | (a', b') :: _ => if Rltb x a then b else if Rltb x a' then b + (b' - b) / (a' - a) * (x - a) else interp x r
      end
  end.
(** [len w] is the field length of the vehicle with take-off mass [w] *)
Definition weights_tried (oew mtow : R) : list R := linspace oew (11 / 10 * mtow) 50.
Definition takeoff_weight (len : R -> R) (oew mtow target : R) : R := interp target (map (fun w => (len w, w)) (weights_tried oew mtow)).
(** what the call leaves in mass_properties: takeoff and max_takeoff (50, 55-57, 66) *)
Definition masses_after (oew mtow : R) : R * R := (last (weights_tried oew mtow) 0, mtow).

(** ** payload_range.py 65-179 *)
Record masses := Masses { m_empty : R; m_zero_fuel : R; m_takeoff : R; m_payload : R; m_fuel : R }.
Definition is0 (x : R) : bool := if Req_EM_T x 0 then true else false.
(** what a flown mission tells: final mass, cruise distance, cruise fuel, distance at the end *)
Record flown := Flown { o_final : R; o_dist : R; o_fuel : R; o_range : R }.
(** 134-158: the loop; the state carried between points is the cruise distance of the mission *)
Fixpoint refine (ev : R -> R -> flown) (tow fuel reserves : R) (n : nat) (err dist : R) (o : flown) : R * flown * R :=
  match n with
  | O => (dist, o, err)
  | S n' =>
      if Rltb 1 (Rabs err) then
        let missing := fuel - (tow - o_final o) - reserves in
        let dist' := o_dist o + o_dist o / o_fuel o * missing in
        let o' := ev tow dist' in
        refine ev tow fuel reserves n' ((tow - o_final o') - fuel + reserves) dist' o'
      else (dist, o, err)
  end.
(** 111-166: one point; gives the new cruise distance and the range in metres *)
Definition one_point (ev : R -> R -> flown) (reserves : R) (dist : R) (p : R * R) : R * R :=
  let (tow, fuel) := p in
  let '(d, o, _) := refine ev tow fuel reserves 10 9999 dist (ev tow dist) in (d, o_range o).
Fixpoint points (ev : R -> R -> flown) (reserves dist : R) (ps : list (R * R)) : list R :=
  match ps with [] => [] | p :: r => let (d, x) := one_point ev reserves dist p in x :: points ev reserves d r end.
(** 84-101 *)
Definition max_payload (m : masses) : R :=
  if is0 (m_payload m) then m_zero_fuel m - m_empty m else Rmin (m_payload m) (m_zero_fuel m - m_empty m).
Definition max_fuel (m : masses) : R :=
  if is0 (m_fuel m) then m_takeoff m - m_empty m else Rmin (m_fuel m) (m_takeoff m - m_empty m).
Record corner := Corner { k_range : R; k_payload : R; k_fuel : R; k_weight : R }.
(** [None]: returns True after printing an error (65-82) *)
Definition payload_range (m : masses) (ev : R -> R -> flown) (reserves dist : R) : option (list corner) :=
  if is0 (m_empty m) then None else if is0 (m_zero_fuel m) then None else if is0 (m_takeoff m) then None else
  let oew := m_empty m in let mtow := m_takeoff m in
  let pld := max_payload m in let mf := max_fuel m in
  let tow := [mtow; mtow; oew + mf] in
  let fuel := [Rmin (mtow - oew - pld) mf; mf; mf] in
  let pl := [pld; mtow - mf - oew; 0] in
  let rs := points ev reserves dist (combine tow fuel) in
  Some (Corner 0 pld 0 0 :: map (fun q : R * R * R * R => let '(r, p, f, t) := q in Corner r p f t) (combine (combine (combine rs pl) fuel) tow)).
(** 175-179, 227: the results are attributes of the function itself, which is what the call returns; so every call returns the
    same object.  A history of calls, and what reading the object returned by any of them gives afterwards *)
Definition read_after (calls : list (option (list corner))) (k : nat) : option (list corner) :=
  match nth k calls None with None => None | Some _ => fold_left (fun acc c => match c with None => acc | Some _ => c end) calls None end.

(** ** electric_payload_range.py 68-118 *)
Definition electric_payload_range (m : masses) (ev : R -> R) : option (list (R * R * R)) :=
  if is0 (m_empty m) then None else if is0 (m_payload m) then None else if is0 (m_takeoff m) then None else
  Some [(0, m_payload m, 0); (ev (m_takeoff m), m_payload m, m_takeoff m); (ev (m_empty m), 0, m_empty m)].
