(** * Weight build-ups for electric aircraft: model

    Sources under /repo/trunk/SUAVE/Methods/Weights/Buildups: Common/wing.py, Common/prop.py, Common/fuselage.py, Common/wiring.py,
    eVTOL/empty.py, eVTOL/converge_evtol_weight.py.  Numbers are reals; materials and safety factors are parameters. *)
From Coq Require Import Reals List Bool Arith.
From Verif Require Import PyBase M_Opt M_Drag M_Elec.
Import ListNotations.
Local Open Scope R_scope.
Local Open Scope list_scope.

(** ** cross-section of a wing or blade *)
Definition pt := (R * R)%type.
(** wing.py 194-197, prop.py 186-189: half thickness of the symmetric four-digit section *)
Definition naca (toc x : R) : R :=
  5 * toc * (2969 / 10000 * sqrt x - 1260 / 10000 * x - 3516 / 10000 * (x * x) + 2843 / 10000 * (x * x * x) - 1015 / 10000 * (x * x * x * x)).
(** wing.py 195-200, prop.py 187-192: upper surface from the trailing edge, without the first point, then the lower surface; shifted to the
    shear centre.  [xs]: the sorted stations *)
Definition upper (h : R -> R) (xs : list R) : list pt := map (fun x => (x, h x)) xs.
Definition lower (h : R -> R) (xs : list R) : list pt := map (fun x => (x, - h x)) xs.
Definition outline (h : R -> R) (xs : list R) : list pt := rev (upper h (tl xs)) ++ lower h xs.
Definition shift (c : R) (l : list pt) : list pt := map (fun p => (fst p - c, snd p)) l.
Definition scale (c : R) (l : list pt) : list pt := map (fun p => (fst p * c, snd p * c)) l.
(** np.sum(np.sqrt(np.sum(np.diff(box,axis=0)**2,axis=1))): wing.py 266, 315, prop.py 212, 301 *)
Definition dist (p q : pt) : R := sqrt ((fst q - fst p) * (fst q - fst p) + (snd q - snd p) * (snd q - snd p)).
Fixpoint polyline (l : list pt) : R := match l with p :: ((q :: _) as r) => dist p q + polyline r | _ => 0 end.
(** 0.5*np.abs(np.dot(x,np.roll(y,1)) - np.dot(y,np.roll(x,1))): wing.py 263, 316, prop.py 229, 260 *)
Definition cross (p q : pt) : R := fst q * snd p - snd q * fst p.
Fixpoint crosses (p : pt) (l : list pt) : R := match l with q :: r => cross p q + crosses q r | [] => 0 end.
Definition shoelace (l : list pt) : R := / 2 * Rabs (crosses (last l (0, 0)) l).
(** second moment per unit thickness of a cap, wing.py 291-300: lengths times squared distance of the centroids of its pieces; [k] selects the
    coordinate *)
Fixpoint cap_inertia (k : pt -> R) (l : list pt) : R :=
  match l with p :: ((q :: _) as r) => dist p q * (((k q + k p) / 2) * ((k q + k p) / 2)) + cap_inertia k r | _ => 0 end.
(** prop.py 244-247: the slice [0::-1] is the first point alone, so every centroid is taken with the first point of the cap *)
Fixpoint prop_inertia_from (k : pt -> R) (p0 : pt) (l : list pt) : R :=
  match l with p :: ((q :: _) as r) => dist p q * (((k q + k p0) / 2) * ((k q + k p0) / 2)) + prop_inertia_from k p0 r | _ => 0 end.
Definition prop_inertia (k : pt -> R) (l : list pt) : R := match l with p :: _ => prop_inertia_from k p l | [] => 0 end.

(** ** loads along the span *)
(** np.diff *)
Fixpoint diffs (x : list R) : list R := match x with a :: ((b :: _) as r) => (b - a) :: diffs r | _ => [] end.
(** np.append(np.cumsum(w[::-1])[::-1], 0) *)
Fixpoint outboard (w : list R) : list R :=
  match w with [] => [0] | a :: r => let s := outboard r in (a + match s with b :: _ => b | [] => 0 end) :: s end.
(** the load [L] at the stations [x] summed from the tip: np.append(np.cumsum((L[0:-1]*np.diff(x))[::-1])[::-1], 0) *)
Definition summed (x L : list R) : list R := outboard (map2 Rmult L (diffs x)).
Definition total (w : list R) : R := fold_right Rplus 0 w.
Definition maxima (w : list R) : R := fold_right Rmax 0 w.
(** wing.py 218-220: elliptic lift, scaled to the design lift of one half wing *)
Definition elliptic_load (x : list R) (L0 : R) : list R :=
  let top := fold_right Rmax 0 x in
  let e := map (fun y => sqrt (1 - (y / top) * (y / top))) x in
  let s := total (map2 Rmult e (diffs x)) in
  map (fun v => L0 / s * v) e.
(** 111-113, 219; [areas] are those of all wings *)
Definition design_lift (mtow gmax sf area : R) (areas : list R) : R := / 2 * gmax * mtow * (98 / 10) * (area / total areas) * sf.
(** 231-240: thrust shear *)
Definition thrust_shear (x motors : list R) (thrust : R) : list R :=
  map (fun y => fold_left (fun a m => if Rltb m y then a else a + thrust) motors 0) x.

(** ** wing.py *)
(** section properties (262-317) and materials *)
Record section := Section_ {
  k_torsion_area : R; k_torsion_length : R; k_flap_inertia : R; k_flap_length : R; k_drag_inertia : R; k_drag_length : R;
  k_height : R; k_skin : R; k_area : R; k_zmax : R; k_xmax : R }.
Record materials := Materials {
  y_tors_uss : R; y_tors_den : R; y_tors_mgt : R; y_core_den : R; y_core_mgt : R; y_bend_uts : R; y_bend_den : R; y_glue_mgt : R; y_glue_den : R;
  y_cover_mgt : R; y_cover_den : R; y_rib_wid : R; y_rib_mgt : R; y_rib_den : R; y_shear_mgt : R; y_shear_den : R; y_shear_uss : R }.
(** 325-355: mass per unit span at a station, from the torsion moment, bending moment, drag moment and lift shear there.  Line 325 multiplies
    the torsion moment by the first spacing [dx] *)
Definition torsion_skin (y : materials) (k : section) (dx my : R) : R :=
  Rmax (my * dx / (2 * y_tors_uss y * k_torsion_area k)) (y_tors_mgt y).
Definition station_mass (y : materials) (k : section) (dx mx my mz vz : R) : R :=
  let torsion := torsion_skin y k dx my * k_torsion_length k * y_tors_den y in
  let core := y_core_mgt y * k_torsion_length k * y_core_den y in
  let flap := mx * k_zmax k / (k_flap_inertia k * y_bend_uts y) * k_flap_length k * y_bend_den y in
  let drag := mz * k_xmax k / (k_drag_inertia k * y_bend_uts y) * k_drag_length k * y_bend_den y in
  let shear := Rmax (3 / 2 * vz / (y_shear_uss y * k_height k)) (y_shear_mgt y) * k_height k * y_shear_den y in
  let glue := y_glue_mgt y * y_glue_den y * k_torsion_length k + y_glue_mgt y * y_glue_den y * k_flap_length k
              + y_glue_mgt y * y_glue_den y * k_drag_length k in
  let paint := k_skin k * y_cover_mgt y * y_cover_den y in
  torsion + core + flap + drag + shear + glue + paint.
Fixpoint station_masses (y : materials) (k : section) (dx mz : R) (Mx My Vz : list R) : list R :=
  match Mx, My, Vz with
  | a :: mx, b :: my, c :: vz => station_mass y k dx a b mz c :: station_masses y k dx mz mx my vz
  | _, _, _ => []
  end.
(** 218-365, for the stations [x] (206-208) and the design lift [L0] (219) *)
Definition wing_mass (y : materials) (k : section) (x motors : list R) (L0 chord cmocl lod thrust grace : R) : R :=
  let L := elliptic_load x L0 in
  let T := map (fun l => l * chord * cmocl) L in
  let D := map (fun l => l / lod) L in
  let Vx := summed x D in let Vz := summed x L in
  let Vt := thrust_shear x motors thrust in
  let Mx := summed x Vz in let My := summed x T in
  let mz := Rmax (maxima (summed x Vx)) (maxima (summed x Vt)) in
  let dx := match diffs x with d :: _ => d | [] => 0 end in
  let m := station_masses y k dx mz Mx My Vz in
  let rib := (k_area k + k_skin k * y_rib_wid y) * y_rib_mgt y * y_rib_den y in
  2 * (total (map2 Rmult m (diffs x)) + INR (length motors + 2) * rib) * grace.

(** ** prop.py *)
(** 197: np.linspace(0, r, n+1), with [n] intervals *)
Definition blade_stations (r : R) (n : nat) : list R := map (fun i => r * INR i / INR n) (seq 0 (S n)).
(** 205-206: quadratic lift, linear in thrust *)
Definition blade_load (sf thrust r : R) (blades : nat) (x : R) : R := sf * 3 * (thrust / (r * r * r)) * (x * x) / INR blades.
(** 271-320: what the loop keeps fixed: stations, mass per unit span other than the centrifugal part of the caps ([base]), the factor of that
    part (safety factor times squared angular speed, density over strength of the caps), the blades, the ribs, and for the root its radius,
    strength, length, density and bending moment *)
Record blade := Blade {
  b_x : list R; b_base : list R; b_sfw2 : R; b_den_uts : R; b_blades : nat; b_rib : R;
  b_rroot : R; b_ruts : R; b_rlen : R; b_rden : R; b_mx : R }.
(** 312-315: the root from the greatest centrifugal force [cf] and bending moment *)
Definition root_mass (b : blade) (cf : R) : R :=
  2 * PI * b_rroot b * (cf / (2 * PI * b_rroot b * b_ruts b) + b_mx b / (3 * PI * (b_rroot b * b_rroot b) * b_ruts b)) * b_rlen b * b_rden b.
(** 272-273: centrifugal force outboard of each station *)
Definition centrifugal (b : blade) (m : list R) : list R :=
  map (fun s => b_sfw2 b * s) (outboard (map2 Rmult (map2 Rmult m (diffs (b_x b))) (b_x b))).
(** 281-283, 305 *)
Definition blade_step (b : blade) (m : list R) : list R :=
  map2 (fun c d => c + d * b_den_uts b) (b_base b) (centrifugal b m).
(** 308-318; the root is sized for the greatest centrifugal force *)
Definition blade_mass (b : blade) (m m' : list R) : R :=
  INR (b_blades b) * (total (map2 Rmult m' (diffs (b_x b))) + 2 * b_rib b + root_mass b (maxima (centrifugal b m))).
(** 271-320: [fuel] bounds the number of iterations *)
Fixpoint blade_loop (fuel : nat) (b : blade) (tol : R) (m : list R) (old : R) : option R :=
  match fuel with
  | O => None
  | S f => let m' := blade_step b m in let mass := blade_mass b m m' in
           if Rltb tol (Rabs (mass - old)) then blade_loop f b tol m' mass else Some mass
  end.
(** ** fuselage.py 123-165 *)
Record shell := Shell { h_length : R; h_width : R; h_height : R; h_span : R; h_skin : R; h_canopy : R;
  h_rbm_den : R; h_rbm_uts : R; h_shear_den : R; h_shear_uss : R; h_bearing_den : R; h_bearing_ubs : R; h_bolt_uss : R }.
Definition shell_wetted (h : shell) : R :=
  4 * PI * pw ((pw (h_length h * h_width h / 4) (16 / 10) + pw (h_length h * h_height h / 4) (16 / 10) + pw (h_width h * h_height h / 4) (16 / 10)) / 3) (1 / (16 / 10)).
Definition design_load (gmax mtow sf : R) : R := gmax * mtow * (98 / 10) * sf.
Definition keel_bending (h : shell) (gmax mtow sf : R) : R :=
  let bh := h_height h / 10 in
  design_load gmax mtow sf * h_length h / 2 * bh / (4 * h_rbm_uts h * ((bh / 2) * (bh / 2))) * h_length h * h_rbm_den h.
Definition keel_torsion (h : shell) (gmax mtow sf : R) : R :=
  let bh := h_height h / 10 in let bw := h_width h / 3 in
  2 * (bh + bw) * (/ 2 * (design_load gmax mtow sf / 2 * h_span h / 2) / (h_shear_uss h * (bh * bw))) * h_shear_den h.
Definition pads (h : shell) (mtow sf lif : R) : R :=
  let f := sf * mtow * (98 / 10) * lif * (6403 / 10000) in
  let diam := 2 * sqrt (f / h_bolt_uss h / PI) in
  let thk := f / (diam * h_bearing_ubs h) in
  4 * (PI * ((20 * thk) * (20 * thk)) * (thk / 3)) * h_bearing_den h.
Definition shell_mass (h : shell) (gmax mtow sf lif : R) : R :=
  shell_wetted h * h_skin h + 3 * PI * h_height h * h_width h / 4 * h_skin h + shell_wetted h / 8 * h_canopy h
  + (keel_bending h gmax mtow sf + keel_torsion h gmax mtow sf + pads h mtow sf lif).

(** ** wiring.py 64-94; [None]: the wing has no motor_spanwise_locations; a plain list (not an array) has no abs (74) *)
Inductive motor_list := MArray (l : list R) | MList (l : list R).
Definition wiring (motors : option motor_list) (flen fheight span power : R) : result R :=
  match motors with
  | None => Ok 0
  | Some (MList _) => Err TypeError
  | Some (MArray l) =>
      let n := Nat.max (length l) 1 in
      let cable := INR n * (flen / 2 + fheight / 2) + total (map Rabs l) * span / 2 in
      Ok (57 / 10000000 * power * cable + 2 * (460 / 100000) * 6 * (cable + 10 * flen + 4 * span))
  end.

(** ** eVTOL/empty.py *)
(** a propeller or lift rotor with the mass of its motor (261, 278 take the motor of the same rank) *)
Record rotor := Rotor_ { z_tip : R; z_solidity : R; z_pitch : bool; z_motor : R }.
Inductive rotor_kind := KPropeller | KLiftRotor | KOther.
Inductive enetwork :=
| LiftCruise (lifts thrusts : nat) (props rots : list rotor)       (** the two declared numbers of engines, the listed units *)
| BatteryPropeller (units : list (rotor_kind * rotor))
| OtherNetwork.
Record enet := ENet { n_net : enetwork; n_battery : R; n_payload : R }.
(** what the loop over the networks carries: the sums of [output] (95-103), the masses stored in the rotors, and the variables left over from
    the last rotor and the last network *)
Record tally := Tally {
  t_lift : R; t_prop : R; t_lift_motors : R; t_prop_motors : R; t_batt : R; t_pay : R; t_servos : R; t_hubs : R; t_brs : R;
  t_stored : list R; t_last : option (R * R); t_power : option (R * nat) }.
Definition tally0 : tally := Tally 0 0 0 0 0 0 0 0 0 [] None None.
(** 258-272, 274-290: blades, motors, the servo weight once a unit has variable pitch ([servo], not reset), masses stored *)
Fixpoint units_loop (blade_of : rotor -> R) (hub servo_kg : R) (l : list rotor) (servo blades motors : R) (stored : list R) (last_ : option (R * R))
  : R * R * R * list R * option (R * R) :=
  match l with
  | [] => (servo, blades, motors, stored, last_)
  | z :: r => let servo := if z_pitch z then servo_kg else servo in
              let m := blade_of z in
              units_loop blade_of hub servo_kg r servo (blades + m) (motors + z_motor z) (stored ++ [m + hub + servo]) (Some (z_tip z, z_solidity z))
  end.
(** parameters: [blade_of z t] is prop(z, t); take-off weight and thrust to weight ratio, disk area factor, tip speed *)
Record craft := Craft { c_mtow : R; c_tw : R; c_disk : R; c_vtip : R; c_blade : rotor -> R -> R }.
Definition max_lift (c : craft) : R := c_mtow c * c_tw c * (981 / 100).
(** 297-298 *)
Definition lift_power (c : craft) (tip sol : R) : R :=
  let l := max_lift c in let rho := 1225 / 1000 in
  115 / 100 * l * (c_disk c * sqrt (l / (2 * rho * PI * (tip * tip)))
                   + sol * (12 / 1000) / 8 * (c_vtip c * c_vtip c * c_vtip c) / (l / (rho * PI * (tip * tip)))).
Definition count_kind (k : rotor_kind) (l : list (rotor_kind * rotor)) : nat :=
  length (filter (fun u => match fst u, k with KPropeller, KPropeller | KLiftRotor, KLiftRotor => true | _, _ => false end) l).
(** 218-250: the numbers of lift rotors and propellers, and the units weighed as propellers and as lift rotors.  Battery_Propeller networks with
    both kinds have no lift_rotors (276): AttributeError, after the propellers *)
Definition network_units (n : enetwork) : result (nat * nat * list rotor * list rotor) :=
  match n with
  | LiftCruise nl nt props rots => Ok (nl, nt, props, rots)
  | BatteryPropeller us =>
      let nt := count_kind KPropeller us in let nl := count_kind KLiftRotor us in let all := map snd us in
      match nt, nl with
      | S _, S _ => Err AttributeError
      | S _, O => Ok (nl, nt, all, [])
      | O, _ => Ok (nl, nt, [], all)
      end
  | OtherNetwork => Err GenericException
  end.
(** 218-307.  Units that are of neither kind are only weighed beside others.  rTip_ref is unbound when no unit was weighed so far (297) *)
Definition one_enet (c : craft) (acc : result tally) (n : enet) : result tally :=
  bind acc (fun t =>
    bind (network_units (n_net n)) (fun q =>
    let '(nl, nt, props, rots) := q in
    let hub_p := c_mtow c * (4 / 100) in
    let '(servo_p, blades_p, motors_p, st1, last1) :=
      match nt with
      | O => (0, 0, 0, [], t_last t)
      | _ => units_loop (fun z => c_blade c z (max_lift c / 5)) hub_p (52 / 10) props 0 0 0 [] (t_last t)
      end in
    let '(servo_l, blades_l, motors_l, st2, last2) :=
      match nl with
      | O => (0, 0, 0, [], last1)
      | _ => units_loop (fun z => c_blade c z (max_lift c / INR (Nat.max (nl - 1) 1))) 4 (65 / 100) rots 0 0 0 [] last1
      end in
    match last2 with
    | None => Err UnboundLocalError
    | Some (tip, sol) =>
        let power := lift_power c tip sol in
        bind (match nl with
              | 1%nat => match rots with
                         | z :: _ => Ok (c_blade c z (3 / 2 * (power / (c_vtip c / tip)) / (125 / 100 * tip)) * (2 / 10))
                         | [] => Err GenericException
                         end
              | _ => Ok 0
              end) (fun tail =>
        Ok (Tally (t_lift t + blades_l + tail) (t_prop t + blades_p) (t_lift_motors t + motors_l) (t_prop_motors t + motors_p)
              (t_batt t + n_battery n) (t_pay t + n_payload n)
              (t_servos t + (INR nl * servo_l + INR nt * servo_p)) (t_hubs t + (INR nl * 4 + INR nt * hub_p))
              (t_brs t + ((if Nat.ltb 1 (nl + nt) then 16 else 0) + 16))
              (t_stored t ++ st1 ++ st2) (Some (tip, sol)) (Some (power, (nl + nt)%nat))))
    end)).
(** wings: symbolic or not, the wing's own weight for a thrust (wing.py), and its wiring for a power per unit *)
Record ewing := EWing { w_symbolic : bool; w_weight : R; w_wiring : R -> R }.
Record eout := EOut {
  o_lift : R; o_prop : R; o_motors : R; o_battery : R; o_payload : R; o_servos : R; o_hubs : R; o_brs : R; o_seats : R; o_pax : R; o_avionics : R;
  o_gear : R; o_ecs : R; o_wings : R; o_wiring : R; o_fuselage : R; o_structural : R; o_empty : R; o_total : R;
  o_rotor_masses : list R; o_fuselage_mass : R }.
(** 94-367.  [fuse]: the fuselage's weight, if the vehicle has the fuselage called fuselage (351); an eta times no units at all divides by zero,
    which is left out *)
Definition evtol_empty (c : craft) (pax eta contingency : R) (nets : list enet) (wings : list ewing) (fuse : option R) : result eout :=
  bind (fold_left (one_enet c) nets (Ok tally0)) (fun t =>
  bind (fold_left (fun acc w => bind acc (fun a => match t_power t with
                    | None => Err UnboundLocalError
                    | Some (p, n) => Ok (fst a + (if w_symbolic w then 0 else w_weight w), snd a + w_wiring w (p / (eta * INR n)))
                    end)) wings (Ok (0, 0))) (fun ww =>
  match fuse with
  | None => Err AttributeError
  | Some f =>
      let seats := pax * 15 in let people := pax * 70 in let avi := 15 in let gear := c_mtow c * (2 / 100) in let ecs := pax * 7 in
      let motors := t_lift_motors t + t_prop_motors t in
      let structural := t_lift t + t_prop t + t_hubs t + f + gear + fst ww in
      let empty := contingency * (structural + seats + avi + ecs + motors + t_servos t + snd ww + t_brs t) + t_batt t in
      Ok (EOut (t_lift t) (t_prop t) motors (t_batt t) (t_pay t) (t_servos t) (t_hubs t) (t_brs t) seats people avi gear ecs (fst ww) (snd ww) f
            structural empty (empty + t_pay t + people) (t_stored t) (f + people + seats + snd ww + t_brs t))
  end)).

(** ** eVTOL/converge_evtol_weight.py 55-83: [W m] is the build-up mass for the take-off weight [m]; the result is what is returned and the
    vehicle's take-off weight afterwards.  [left]: iterations before number 100 *)
Fixpoint converge_loop (left : nat) (W : R -> R) (mtow diff : R) : bool * R :=
  if Rltb 1 (Rabs diff) then
    let mtow' := mtow - diff in let diff' := mtow' - W mtow' in
    match left with
    | O => (false, mtow')
    | S l => converge_loop l W mtow' diff'
    end
  else (true, mtow).
Definition converge (W : R -> R) (mtow : R) : bool * R := converge_loop 99 W mtow (mtow - W mtow).
