(** * One engine out, excess power and the best speeds: model

    Sources, under /repo/trunk/SUAVE/Methods:
      AD = Aerodynamics/Common/Fidelity_Zero/Helper_Functions/asymmetry_drag.py
      WD = Aerodynamics/Common/Fidelity_Zero/Helper_Functions/windmilling_drag.py
      LD = Aerodynamics/Common/Fidelity_Zero/Helper_Functions/estimate_2ndseg_lift_drag_ratio.py
      VH = Performance/electric_V_h_diagram.py
      RE = Performance/propeller_range_endurance_speeds.py
      ML = Performance/maximum_lift_to_drag.py
    and TF = /repo/trunk/SUAVE/Components/Energy/Networks/Turbofan.py.
    Numbers are reals and arrays of one number are numbers; printing and plots are left out. *)
From Coq Require Import Reals List Bool Arith String.
From Verif Require Import PyBase M_Opt M_Noise M_Cryo M_Field M_Drag.
Import ListNotations.
Local Open Scope R_scope.
Local Open Scope list_scope.

(** ** Wings, networks and vehicles.  What the functions read of them.
    [g_wing]: isinstance(wing, Wings.Wing); [g_main]: isinstance(wing, Wings.Main_Wing).
    [g_sref]: wing.sref, which no wing of the library has (Components/Wings/Wing.py defines areas.reference), but a user may add.
    [g_ac]: aerodynamic_center[0] and whether it is a plain python float (the default, Wing.py 77) or a numpy number (after wing_planform).
    [g_origin]: origin[0] and whether it is a python list or a numpy row (the default, Wing.py 68). *)
Record gwing := GWing {
  g_tag : string; g_wing : bool; g_main : bool; g_vertical : bool; g_sref : option R;
  g_area : R; g_span : R; g_aspect : option R;
  g_ac : R; g_ac_plain : bool; g_origin : list R; g_origin_list : bool }.
(** a network: origin[0][1], the total thrust it answers with, and its number of engines *)
Record gnet := GNet { n_y : R; n_thrust : R; n_engines : R }.
(** [v_cg]: mass_properties.center_of_gravity[0]; [v_area]: reference_area, None or 0 if not set *)
Record gveh := GVeh { v_area : option R; v_wings : list gwing; v_nets : list gnet; v_nacelles : list R; v_cg : list R }.

(** ** Reference area: AD 59-74, WD 52-67 *)
Definition sref_of (w : gwing) : result R := match g_sref w with Some s => Ok s | None => Err AttributeError end.
(** AD 63-66: every main wing is asked; the last one counts *)
Fixpoint main_area (ws : list gwing) (acc : option R) : result (option R) :=
  match ws with
  | [] => Ok acc
  | w :: r => if g_main w then bind (sref_of w) (fun s => main_area r (Some s)) else main_area r acc
  end.
(** AD 71-74 *)
Fixpoint first_area (ws : list gwing) : result R :=
  match ws with
  | [] => Err UnboundLocalError
  | w :: r => if g_wing w then sref_of w else first_area r
  end.
Definition wing_area (ws : list gwing) : result R :=
  bind (main_area ws None) (fun a => match a with Some s => Ok s | None => first_area ws end).
Definition ref_area (v : gveh) : result R :=
  match v_area v with
  | Some s => if Req_EM_T s 0 then wing_area (v_wings v) else Ok s
  | None => wing_area (v_wings v)
  end.

(** ** windmilling_drag: WD 70-84.  The nacelles' wetted areas; the answer is also put into the state *)
Definition wetted (v : gveh) : R := fold_left (fun s n => s + n) (v_nacelles v) 0.
Definition windmilling_drag (v : gveh) : result (option R) :=
  bind (ref_area v) (fun s => Ok (quo (7274 / 1000000 * wetted v) s)).

(** ** asymmetry_drag: AD 77-120 *)
(** 88-99: the tag of the first vertical wing is kept and the wing is looked up by it *)
Fixpoint vertical_tag (ws : list gwing) : option string :=
  match ws with [] => None | w :: r => if g_vertical w then Some (g_tag w) else vertical_tag r end.
Fixpoint by_tag (ws : list gwing) (t : string) : result gwing :=
  match ws with [] => Err KeyError | w :: r => if String.eqb (g_tag w) t then Ok w else by_tag r t end.
(** 100: a number plus a row minus a row, element by element; a plain number cannot be added to a list *)
Definition lever (w : gwing) (cg : list R) : result (list R) :=
  if g_ac_plain w && g_origin_list w then Err TypeError
  else Ok (map2 (fun o c => g_ac w + o - c) (g_origin w) cg).
(** 103-106: the coefficient given, or the state's if it is 0 and the state has one *)
Definition milling (given : R) (stored : option R) : R :=
  if Req_EM_T given 0 then match stored with Some c => c | None => given end else given.
(** 108-115, for one element of the lever *)
Definition trim (q s y t c h l : R) : option R :=
  match quo (y ^ 2 * (t + c * q * s) ^ 2) (q * (3141593 / 1000000) * (h * l) ^ 2) with
  | Some d => match quo d q with Some e => quo e s | None => None end
  | None => None
  end.
(** 93-96: reading the unset name raises UnboundLocalError, which `except AttributeError` does not catch; 84: python raises on 0 engines only for
    plain floats; numpy's thrust over 0 is inf, which is left out: the number of engines is not 0 *)
Definition asymmetry_drag (v : gveh) (q given : R) (stored : option R) : result (list (option R)) :=
  bind (ref_area v) (fun s =>
  match vertical_tag (v_wings v) with
  | None => Err UnboundLocalError
  | Some t =>
    bind (by_tag (v_wings v) t) (fun w =>
    bind (lever w (v_cg v)) (fun ls =>
    match v_nets v with
    | [] => Err UnboundLocalError
    | n :: _ => Ok (map (trim q s (n_y n) (n_thrust n / n_engines n) (milling given stored) (g_span w)) ls)
    end))
  end).

(** ** estimate_2ndseg_lift_drag_ratio: LD 50-93.  compute_max_lift_coeff's answer comes in as [clmax] *)
Definition aspect (w : gwing) : R := match g_aspect w with Some a => a | None => g_span w ^ 2 / g_area w end.
Fixpoint main_aspect (ws : list gwing) (acc : option R) : option R :=
  match ws with [] => acc | w :: r => main_aspect r (if g_main w then Some (aspect w) else acc) end.
Fixpoint first_aspect (ws : list gwing) : result R :=
  match ws with [] => Err UnboundLocalError | w :: r => if g_wing w then Ok (aspect w) else first_aspect r end.
Definition ratio_2ndseg (ws : list gwing) (v2vs : option R) (clmax : R) : result R :=
  let k := match v2vs with Some r => r | None => 120 / 100 end in
  bind (match main_aspect ws None with Some a => Ok a | None => first_aspect ws end) (fun a =>
  Ok (- (6464 / 1000) * (clmax / k ^ 2) + 7264 / 1000 * sqrt a)).

(** ** Turbofan.engine_out: TF 343-357.  [evaluate]: thrust and mass rate of the network at a throttle setting *)
Definition engine_out (evaluate : list R -> R * R) (n : R) (throttle : list R) : (R * R) * list R :=
  let saved := throttle in
  let full := map (fun _ => 1) throttle in
  let r := evaluate full in
  ((fst r / n * (n - 1), snd r / n * (n - 1)), map2 (fun _ s => s) full saved).

(** ** Stall speed: RE 150-165, ML 120-135, VH 120 *)
Definition stall (rho g mass s clmax : R) : R := sqrt (2 * (mass * g) / (rho * s * clmax)).

(** ** propeller_range_endurance_speeds and maximum_lift_to_drag: RE 120-147, ML 98-117.
    [polar u]: lift and drag coefficient of the single-point mission flown at speed u (RE 70-77 puts altitude and temperature deviation into it).
    [minimise f a b]: scipy's bounded search, the speed it stops at; its function value is that of the function there. *)
(** a lift coefficient that is not positive gives nan in python; [pw] gives 0 there and no theorem uses it *)
Definition three_halves (p : R * R) : R := - pw (fst p) (3 / 2) / snd p.
Definition minus_ld (p : R * R) : R := - fst p / snd p.
Definition best (minimise : (R -> R) -> R -> R -> R) (f : R * R -> R) (polar : R -> R * R) (vs up : R) : R * R :=
  let x := minimise (fun u => f (polar u)) vs up in (x, - f (polar x)).
Definition range_endurance (minimise : (R -> R) -> R -> R -> R) (polar : R -> R * R) (vs up : R) : (R * R) * (R * R) :=
  (best minimise three_halves polar vs up, best minimise minus_ld polar vs up).
Definition maximum_lift_to_drag (minimise : (R -> R) -> R -> R -> R) (polar : R -> R * R) (vs up : R) : R * R :=
  best minimise minus_ld polar vs up.

(** ** electric_V_h_diagram: VH 81-186 *)
(** the number of grid points: 20. by default (28), which numpy's linspace refuses *)
Inductive count := CInt (n : nat) | CFloat (x : R).
(** 107: without the end point *)
Definition open_linspace (a b : R) (n : nat) : list R := map (fun i => a + INR i * ((b - a) / INR n)) (seq 0 n).
(** the aircraft: weight in newtons, area, maximum lift coefficient, propellers' shaft power at an altitude and a speed (temperature deviation 0 whatever was
    asked, 152), whether they are identical, how many engines, and the battery's limit *)
Record eplane := EPlane {
  e_w : R; e_s : R; e_clmax : R; e_props : list (R -> R -> R); e_identical : bool; e_n : nat; e_max : R }.
(** 137-154 *)
Fixpoint laps (ps : list (R -> R -> R)) (n : nat) (h v f acc : R) {struct n} : result R :=
  match n with
  | O => Ok acc
  | S m => match ps with [] => Err IndexError | p :: r => laps r m h v f (acc + p h v * f) end
  end.
Definition power (e : eplane) (h v : R) : result R :=
  if e_identical e then laps (e_props e) 1 h v (INR (e_n e)) 0 else laps (e_props e) (e_n e) h v 1 0.
(** 120-166: one entry; [rho h]: density at the asked temperature deviation; [drag h v]: of the mission flown without one (91-102) *)
Definition climb (e : eplane) (rho : R -> R) (drag : R -> R -> R) (h v : R) : result R :=
  let vs := sqrt (2 * e_w e / (rho h * e_s e * e_clmax e)) in
  if Rltb vs v then
    bind (power e h v) (fun p => Ok (Rmax 0 (1 / e_w e * (Rmin p (e_max e) - drag h v * v))))
  else Ok 0.
Fixpoint mapE {A B} (f : A -> result B) (l : list A) : result (list B) :=
  match l with [] => Ok [] | x :: r => bind (f x) (fun y => bind (mapE f r) (fun ys => Ok (y :: ys))) end.
(** ft/min in m/s (Core/Units.py) *)
Definition fpm : R := 3048 / 10000 / 60.
(** 106-169; the table is given by rows of altitudes here, python stores the transpose: climb_rate[speed_idx, alt_idx] *)
Definition V_h (e : eplane) (rho : R -> R) (drag : R -> R -> R) (ceiling top : R) (n : count) : result (list (list R)) :=
  match n with
  | CFloat _ => Err TypeError
  | CInt k =>
    bind (mapE (fun h => mapE (fun v => climb e rho drag h v) (open_linspace 0 top k)) (linspace 0 ceiling k)) (fun t =>
    Ok (map (map (fun c => c / fpm)) t))
  end.
