(** * Weight estimation: model

    Sources under /repo/trunk/SUAVE/Methods/Weights/Correlations (Common, Transport, FLOPS, Raymer, Propulsion, General_Aviation,
    BWB, UAV, Human_Powered) and /repo/trunk/SUAVE/Analyses/Weights.  Numbers are reals, in kilograms, metres, newtons, pascals.
    [x ** y] with a base that is not negative is [pw]; other uses are in the comments. *)
From Coq Require Import Reals List Bool Arith.
From Verif Require Import PyBase M_Opt M_Drag M_Stab M_Elec.
Import ListNotations.
Local Open Scope R_scope.
Local Open Scope list_scope.

(** ** units: Plugins/pint/default_en.txt 127, 149, 150, 157, 175, 200 *)
Definition lb : R := 45359237 / 100000000.
Definition inch : R := 254 / 10000.
Definition ft : R := 12 * inch.
Definition nmi : R := 1852.
Definition lbf : R := 980665 / 100000 * lb.
Definition hp : R := 33000 * ft * lbf / 60.
Definition gallon : R := 231 * (inch * inch * inch).
Definition knot : R := nmi / 3600.
(** a number of tenths, hundredths, ... *)
Definition dec (n d : Z) : R := IZR n / IZR (10 ^ d).

(** ** the vehicle, as far as the correlations look at it *)
(** vehicle.systems.accessories and vehicle.systems.control: strings compared with these literals *)
Inductive accessories := ShortRange | MediumRange | LongRange | Business | Cargo | Commuter | Sst | OtherAcc.
Inductive control := FullyPowered | PartiallyPowered | OtherControl.
(** wing.t_tail: compared with the string "yes" (Transport, General_Aviation) or tested for truth (Raymer) *)
Inductive t_tail := TFalse | TTrue | TYes.
Inductive wkind := MainWing | HorizontalTail | VerticalTail | PlainWing.
Record seg := Seg { g_y : R; g_chord : R; g_tc : R; g_sweep : R }.
Record wing := Wing {
  w_kind : wkind; w_span : R; w_taper : R; w_sweep : R; w_area : R; w_tc : R; w_root : R; w_mac : option R; w_ac : option R;
  w_exposed : R; w_wetted : R; w_ar : R; w_ttail : t_tail; w_flap : R; w_segs : list seg; w_tanks : nat }.
Record fuse := Fuse {
  f_press : R; f_width : R; f_height : R; f_length : R; f_wetted : R; f_coach : R; f_tanks : nat }.
(** wing_mounted is one flag or a list of flags, one for each engine *)
Inductive mounted := OneFlag (b : bool) | Flags (l : list bool).
(** n_jet: Turbofan, Turbojet_Super or Propulsor_Surrogate; n_total: the key 'total_weight' if present; n_ys: the lateral
    coordinates of the engines in [origin] *)
Record network := Net {
  n_jet : bool; n_engines : nat; n_thrust : R; n_total : option R; n_mounted : mounted; n_ys : list R }.
Record nacelle := Nac { c_diameter : R; c_length : R }.
Record vehicle := Vehicle {
  v_mtow : R; v_mzf : R; v_cargo : R; v_pax : R; v_sref : R; v_nult : R; v_nlim : R;
  v_acc : accessories; v_control : control;
  v_mach : option R; v_range : option R; v_alt : option R;
  v_wings : list wing; v_fuses : list fuse; v_nets : list network; v_nacelles : list nacelle }.

(** [wings['main_wing']], [fuselages['fuselage']]: the first of the list; a vehicle without one raises (KeyError) *)
Definition main_of (v : vehicle) : option wing :=
  find (fun w => match w_kind w with MainWing => true | _ => false end) (v_wings v).
Definition mach_of (v : vehicle) : R := match v_mach v with Some m => m | None => 0 end.
Definition range_of (v : vehicle) : R := match v_range v with Some m => m | None => 0 end.

(** what the correlations return *)
Record payload := Payload { p_total : R; p_pax : R; p_bag : R; p_cargo : R }.
Record opitems := Opitems { o_items : R; o_crew : R; o_att : R; o_total : R }.
Record gear := Gear { r_main : R; r_nose : R }.
Record sysw := Sysw {
  s_ctrl : R; s_apu : R; s_hyd : R; s_instr : R; s_avi : R; s_elec : R; s_ac : R; s_furn : R; s_ice : R; s_total : R }.
Record propw := Propw { q_prop : R; q_rev : R; q_start : R; q_ctrl : R; q_fuel : R; q_nac : R; q_eng : R }.

(** ** Common and Transport *)
(** Propulsion/engine_jet.py 39-44 *)
Definition engine_jet (thrust : R) : R := dec 4054 4 * pw (thrust / lbf) (dec 9255 4) * lb.
(** Propulsion/integrated_propulsion.py 37 *)
Definition integrated_propulsion (engine : R) (n : nat) : R := engine * INR n * dec 16 1.
(** Common/payload.py 51-63, with the default passenger and baggage weights *)
Definition payload_common (v : vehicle) : payload :=
  let wp := 195 * lb * v_pax v in let wb := 30 * lb * v_pax v in
  Payload (wp + wb + v_cargo v) wp wb (v_cargo v).
(** Common/landing_gear.py 37-41 *)
Definition landing_gear (v : vehicle) : gear :=
  let weight := dec 4 2 * v_mtow v in Gear (weight * dec 9 1) (weight * dec 1 1).
(** Transport/operating_items.py 48-65: service items *)
Definition oper_items (v : vehicle) : R :=
  match v_acc v with
  | ShortRange | Commuter => 17 * v_pax v * lb
  | MediumRange | LongRange | Business | OtherAcc => 28 * v_pax v * lb
  | Cargo => 56 * lb
  | Sst => 40 * v_pax v * lb
  end.
(** Transport/operating_items.py 67-70; also FLOPS and Raymer *)
Definition flight_crew (v : vehicle) : R := if Rltb (v_pax v) 150 then 2 else 3.
(** Transport/operating_items.py 72-75; also FLOPS *)
Definition attendants (v : vehicle) : R := if Rltb (v_pax v) 51 then 1 else 1 + Rfloor (v_pax v / 40).
(** 77-86 *)
Definition operating_items (v : vehicle) : opitems :=
  let i := oper_items v in let c := flight_crew v * (190 + 50) * lb in let a := attendants v * (170 + 40) * lb in
  Opitems i c a (i + c + a).
(** Common/systems.py 62-70 *)
Definition is_tail (w : wing) : bool := match w_kind w with HorizontalTail | VerticalTail => true | _ => false end.
Definition is_main (w : wing) : bool := match w_kind w with MainWing => true | _ => false end.
Definition tail_area (v : vehicle) : R :=
  let s := fold_left (fun a w => if is_tail w then a + w_area w else a) (v_wings v) 0 in
  if zero s then fold_left (fun a w => if is_main w then a + w_area w * dec 1 2 else a) (v_wings v) s else s.
(** Common/systems.py 55-146 *)
Definition systems_common (v : vehicle) : sysw :=
  let n := v_pax v in
  let sref := v_sref v / (ft * ft) in
  let area_hv := tail_area v / (ft * ft) in
  let scaler := match v_control v with FullyPowered => dec 35 1 | PartiallyPowered => dec 25 1 | OtherControl => dec 17 1 end in
  let ctrl := scaler * area_hv * lb in
  let apu := Rmax (if Rltb n 6 then 0 else 7 * n * lb) 70 in
  let hyd := dec 65 2 * sref * lb in
  let elec := match v_acc v with Cargo => 1950 * lb | _ => 13 * n * lb end in
  let furn0 := ((dec 437 1 - dec 37 3 * Rmin n 300) * n + 46 * n) * lb in
  let furn := match v_acc v with LongRange | Sst => furn0 + 23 * n * lb | _ => furn0 end in
  let ac := 15 * n * lb in
  let instr := match v_acc v with LongRange | Sst => 1200 * lb | Business => 100 * lb | Commuter => 300 * lb | _ => 800 * lb end in
  let avi := match v_acc v with LongRange | Sst => 1500 * lb | Business => 300 * lb | Commuter => 500 * lb | _ => 900 * lb end in
  Sysw ctrl apu hyd instr avi elec ac furn 0 (ctrl + apu + hyd + ac + avi + elec + furn + instr).
(** Transport/tube.py 61-67: pressure index, bending index and the index used *)
Definition pressure_index (f : fuse) : R := dec 15 4 * (f_press f / (lbf / (ft * ft))) * (f_width f / ft).
Definition bending_index (v : vehicle) (f : fuse) (root wt_wing wt_prop : R) : R :=
  dec 191 6 * v_nlim v * ((v_mzf v - wt_wing - wt_prop) / lb) * ((f_length f - root / 2) / ft) / ((f_height f / ft) * (f_height f / ft)).
Definition fuse_index (ip ib : R) : R := if Rltb ib ip then ip else (ip * ip + ib * ib) / (2 * ib).
(** 48-72 *)
Definition tube (v : vehicle) (f : fuse) (root wt_wing wt_prop : R) : R :=
  (dec 1051 3 + dec 102 3 * fuse_index (pressure_index f) (bending_index v f root wt_wing wt_prop)) * (f_wetted f / (ft * ft)) * lb.
(** Transport/tail_vertical.py 51-71, with the default rudder fraction 0.25 *)
Definition tail_vertical (v : vehicle) (w : wing) : R :=
  let span := w_span w / ft in let area := w_area w / (ft * ft) in let mtow := v_mtow v / lb in let sref := v_sref v / (ft * ft) in
  let t := match w_ttail w with TYes => dec 125 2 | _ => 1 end in
  let english := t * (dec 262 2 * area + dec 15 6 * v_nult v * (span * span * span) * (8 + dec 44 2 * mtow / sref)
                      / (w_tc w * (cos (w_sweep w) * cos (w_sweep w)))) in
  let tail := english * lb in
  tail + tail * dec 25 2 * dec 16 1.
(** Transport/tail_horizontal.py 49-72.  [None] is not-a-number in a chord or position of the main wing or tail (59-62); with no arm between
    wing and tail the code returns an infinity or not-a-number, which the model leaves out *)
Definition minus_nan (a b : option R) : R := match a, b with Some x, Some y => x - y | _, _ => 0 end.
Definition tail_horizontal (v : vehicle) (m w : wing) : R :=
  let span := w_span w / ft in let area := w_area w / (ft * ft) in let mtow := v_mtow v / lb in
  let exposed := w_exposed w / w_wetted w in
  let l_w := match w_mac m with Some c => c / ft | None => 0 end in
  let arm := minus_nan (w_ac w) (w_ac m) / ft in
  (dec 525 2 * area + dec 8 7 * v_nult v * (span * span * span) * mtow * l_w * sqrt (exposed * area)
     / (w_tc w * (cos (w_sweep w) * cos (w_sweep w)) * arm * pw area (dec 15 1))) * lb.
(** Common/wing_main.py 117-127, computation_type 'simple' (also used when the wing has no segments) *)
Definition wing_simple (v : vehicle) (w : wing) : R :=
  let area := w_area w / (ft * ft) in let span := w_span w / ft in
  let mtow := v_mtow v / lb in let zfw := v_mzf v / lb in
  (dec 422 2 * area + dec 1642 9 * v_nult v * (span * span * span) * sqrt (mtow * zfw) * (1 + 2 * w_taper w)
     / (w_tc w * (cos (w_sweep w) * cos (w_sweep w)) * area * (1 + w_taper w))) * lb.
(** Common/wing_main.py 89-92: a segment of constant chord [c] and thickness ratio [g] between the stations y1 and y2 *)
Definition prim (y : R) : R := 1 / 8 * (y * (5 - 2 * (y * y)) * sqrt (1 - y * y) + 3 * asin y).
Definition straight_segment (g c sweep y1 y2 : R) : R :=
  1 / (g * c * (cos sweep * cos sweep)) * (1 / 3) * (prim y2 - prim y1).
(** 77-109: sum over the segments.  [big] is the function big_integral (132-175), real part taken, a parameter here *)
Fixpoint segments_sum (big : R -> R -> R -> R -> R) (root : R) (l : list seg) : R :=
  match l with
  | a :: ((b :: _) as rest) =>
      (if zero (g_chord a - g_chord b) && zero (g_tc a - g_tc b) then
         straight_segment (g_tc b) (g_chord b * root) (g_sweep a) (g_y a) (g_y b)
       else let A := root * g_chord a * g_tc a in let B := (A - root * g_chord b * g_tc b) / (g_y b - g_y a) in
            (big (g_y b) A B (g_y a) - big (g_y a) A B (g_y a)) / (cos (g_sweep a) * cos (g_sweep a)))
      + segments_sum big root rest
  | _ => 0
  end.
(** Attributes/Solids/Aluminum.py: density and yield_tensile_strength, used by weight_transport.py 250-251 *)
Definition al_density : R := 2700.
Definition al_yield : R := dec 276 0 * 1000000.
(** 55-113, 127 *)
Definition wing_segmented (big : R -> R -> R -> R -> R) (v : vehicle) (w : wing) : R :=
  match w_segs w with
  | [] => wing_simple v w
  | l => let rho_sigma := al_density * dec 981 2 / al_yield in
         let l_tot := v_nult v * sqrt (v_mtow v * v_mzf v) * dec 981 2 in
         let L0 := w_area w / v_sref v * 2 * l_tot / (w_span w * PI) in
         let factor := rho_sigma * (w_span w * w_span w) * L0 * segments_sum big (w_root w) l / 2 in
         (dec 422 2 * w_area w / (ft * ft) + factor / lb) * lb
  end.

(** ** FLOPS *)
(** FLOPS/payload.py 41-58 *)
Definition payload_flops (v : vehicle) : payload :=
  let wp := v_pax v * (165 * lb) in
  let rng := range_of v / nmi in
  let bpp := if Rltb 900 rng then (if Rltb 2900 rng then 44 * lb else 40 * lb) else 35 * lb in
  let wb := bpp * v_pax v in
  Payload (wp + wb + v_cargo v / lb) wp wb (v_cargo v).
(** engines counted with half of an odd one, prop_system.py 111, 139 *)
Definition odd_up (n : nat) : R := INR n + 1 / 2 * (INR n - 2 * Rfloor (INR n / 2)).
(** FLOPS/prop_system.py 206-247; THRUST equals THRSO *)
Definition engine_flops (v : vehicle) (n : network) : R :=
  let t := n_thrust n * 1 / lbf in
  let base := match v_acc v with ShortRange | Commuter => t / dec 105 1 | _ => t / dec 55 1 end in
  base * pw (t / t) (dec 115 2) * lb.
(** 110-116: the number of engines is the length of the list of origins *)
Definition nacelle_flops (n : network) (c : nacelle) : R :=
  dec 25 2 * odd_up (length (n_ys n)) * (c_diameter c / ft) * (c_length c / ft) * pw (n_thrust n * 1 / lbf) (dec 36 2) * lb.
Definition reverser_flops (n : network) : R := dec 34 3 * (n_thrust n * 1 / lbf) * odd_up (n_engines n) * lb.
Definition controls_flops (n : network) : R := dec 26 2 * INR (n_engines n) * pw (n_thrust n * 1 / lbf) (dec 5 1) * lb.
Definition starter_flops (v : vehicle) (n : network) (c : nacelle) : R :=
  11 * INR (n_engines n) * pw (mach_of v) (dec 32 2) * pw (c_diameter c / ft) (dec 16 1) * lb.
(** 182-203; the same in Raymer/prop_system.py 132-153 *)
Definition fuel_system_flops (v : vehicle) (n : network) : R :=
  dec 107 2 * pw (v_mzf v / lb) (dec 58 2) * pw (INR (n_engines n)) (dec 43 2) * pw (mach_of v) (dec 34 2) * lb.
(** 62-80 *)
Definition prop_flops (v : vehicle) (c : nacelle) (n : network) : propw :=
  let nac := nacelle_flops n c in let fuel := fuel_system_flops v n in let eng := engine_flops v n in
  let ctl := controls_flops n in let st := starter_flops v n c in let rev := reverser_flops n in
  Propw (INR (n_engines n) * eng + fuel + ctl + st + rev + nac) rev st ctl fuel nac (eng * INR (n_engines n)).
(** FLOPS/operating_items.py 65-109; [f] is fuselages['fuselage'], [n] the first network.  A fuselage always has number_coach_seats
    (Components/Fuselages/Fuselage.py 62), so the first branch of 75 is taken *)
Definition seats_first (v : vehicle) (f : fuse) : R := (v_pax v - f_coach f) / 4.
Definition seats_business (v : vehicle) (f : fuse) : R := v_pax v - seats_first v f - f_coach f.
Definition tanks (v : vehicle) : nat :=
  let n := (fold_left (fun a w => a + w_tanks w) (v_wings v) 0 + fold_left (fun a f => a + f_tanks f) (v_fuses v) 0)%nat in
  match n with O => 5%nat | _ => n end.
Definition galley_crew (v : vehicle) : R := if Rltb (v_pax v) 150 then 0 else 1 + Rfloor (v_pax v / 250).
Definition oper_flops (v : vehicle) (f : fuse) (n : network) : opitems :=
  let thrust := n_thrust n * 1 / lbf in
  let wuf := dec 115 1 * INR (n_engines n) * pw thrust (dec 2 1) + dec 7 2 * (v_sref v / (ft * ft))
             + dec 16 1 * INR (tanks v) * pw (v_mzf v / lb) (dec 28 2) in
  let woil := dec 82 3 * INR (n_engines n) * pw thrust (dec 65 2) in
  let wsrv := (dec 5164 3 * seats_first v f + dec 3846 3 * seats_business v f + dec 2529 3 * f_coach f)
              * pw (range_of v / nmi / mach_of v) (dec 255 3) in
  let wcon := 175 * Rceil (v_cargo v / lb * 1 / 950) in
  let i := wuf * lb + woil * lb + wsrv * lb + wcon * lb in
  let c := flight_crew v * 225 * lb in
  let a := (attendants v * 155 + galley_crew v * 200) * lb in
  Opitems i c a (i + c + a).
(** FLOPS/wing.py 438-450: the literal "short_range" is not "short-range", so short-range aircraft are in the other case *)
Definition flops_constants (a : accessories) : R * R * R * R * R * R * R :=
  match a with
  | Business | Commuter => (30, 0, dec 25 2, dec 5 1, dec 5 1, dec 16 2, dec 12 1)
  | _ => (dec 88 1, dec 625 2, dec 68 2, dec 34 2, dec 6 1, dec 35 3, dec 15 1)
  end.
(** FLOPS/wing.py 62-98, complexity 'Simple': tangent and sine of the sweep of the three-quarter chord line, bending factor.
    [fa], [fs]: aeroelastic tailoring and strut bracing factors *)
Definition flops_tan34 (sweep ar tr : R) : R := tan sweep - 2 * (1 - tr) / (ar * (1 + tr)).
Definition flops_sin34 (tlam : R) : R := tlam / sqrt (1 + tlam * tlam).
Definition flops_bending (fa fs : R) (w : wing) : R :=
  let span := w_span w / ft in let sw := w_area w / (ft * ft) in
  let ar := span * span / sw in let tr := w_taper w in
  let caya := if Rltb 5 ar then ar - 5 else 0 in
  let slam := flops_sin34 (flops_tan34 (w_sweep w) ar tr) in
  let c6 := dec 5 1 * fa - dec 16 2 * fs in let c4 := 1 - dec 5 1 * fa in
  let cayl := (1 - slam * slam) * (1 + c6 * (slam * slam) + dec 3 2 * caya * c4 * slam) in
  dec 215 3 * (dec 37 2 + dec 7 1 * tr) * pw (span * span / sw) (1 - dec 25 2 * fs) / (cayl * w_tc w).
(** 210-231: wing weight in pounds from the bending factor [bt], the load relief [caye], the fuselage factor [cayf] and the share [pctl]
    of the load.  [fc]: composite utilisation *)
Definition flops_w1nir (fa fc ulf cayf pctl bt : R) (v : vehicle) (w : wing) : R :=
  let '(a0, a1, _, _, _, _, _) := flops_constants (v_acc v) in let span := w_span w / ft in
  a0 * bt * (1 + sqrt (a1 / span)) * ulf * span * (1 - dec 4 1 * fc) * (1 - dec 1 1 * fa) * cayf * 1 * pctl / 1000000.
Definition flops_w2 (fc : R) (v : vehicle) (w : wing) : R :=
  let '(_, _, a2, a3, a4, _, _) := flops_constants (v_acc v) in
  a2 * (1 - dec 17 2 * fc) * pw (w_flap w * (w_area w / (ft * ft))) a3 * pw (v_mtow v / lb) a4.
Definition flops_w3 (fc : R) (v : vehicle) (w : wing) : R :=
  let '(_, _, _, _, _, a5, a6) := flops_constants (v_acc v) in a5 * (1 - dec 3 1 * fc) * pw (w_area w / (ft * ft)) a6.
Definition flops_wing_lb (fa fc ulf cayf pctl bt caye : R) (v : vehicle) (w : wing) : R :=
  let w1nir := flops_w1nir fa fc ulf cayf pctl bt v w in let w2 := flops_w2 fc v w in let w3 := flops_w3 fc v w in
  let w1 := (v_mtow v / lb * caye * w1nir + w2 + w3) / (1 + w1nir) - w2 - w3 in
  w1 + w2 + w3.
(** 202-204, complexity other than 'Simple': the denominator of the bending factor, where "SA ** 2 / + .03 * CAYA * ..." divides by 0.03 *)
Definition flops_den (fa fs ar sa : R) : R :=
  let caya := if Rltb 5 ar then ar - 5 else 0 in
  pw ar (dec 25 2 * fs) * (1 + (dec 50 2 * fa - dec 160 3 * fs) * (sa * sa) / (dec 3 2) * caya * (1 - dec 50 2 * fa) * sa).

(** ** Raymer *)
(** Raymer/prop_system.py 91-101; WENG is in kilograms *)
Definition nacelle_raymer (v : vehicle) (c : nacelle) (weng : R) : R :=
  let nlt := c_length c / ft in let nw := c_diameter c / ft in
  let wec := dec 2331 3 * pw weng (dec 901 3) * dec 118 2 in
  let sn := 2 * PI * nw / 2 * nlt + PI * (nw * nw) / 4 * 2 in
  dec 6724 4 * 1 * pw nlt (dec 1 1) * pw nw (dec 294 3) * pw (v_nult v) (dec 119 3) * pw wec (dec 611 3)
  * INR (length (v_nacelles v)) * dec 984 3 * pw sn (dec 224 3) * lb.
(** 104-129 *)
Definition controls_raymer (f : fuse) (n : network) : R :=
  (5 * INR (n_engines n) + dec 8 1 * (INR (n_engines n) * f_length f / ft)) * lb.
Definition starter_raymer (n : network) (weng : R) : R := dec 4919 2 * pw (INR (n_engines n) * weng / 1000) (dec 541 3) * lb.
(** 47-63 *)
Definition prop_raymer (v : vehicle) (c : nacelle) (f : fuse) (n : network) : propw :=
  let fuel := fuel_system_flops v n in let eng := engine_flops v n in let nac := nacelle_raymer v c eng in
  let ctl := controls_raymer f n in let st := starter_raymer n eng in
  Propw (INR (n_engines n) * eng + fuel + ctl + st + 0 + nac) 0 st ctl fuel nac (eng * INR (n_engines n)).

(** ** the weight statement: Common/weight_transport.py *)
Inductive method := SUAVE | NewSUAVE | FLOPS_Simple | FLOPS_Complex | Raymer | OtherMethod.
Definition is_flops (m : method) : bool := match m with FLOPS_Simple | FLOPS_Complex => true | _ => false end.
(** the correlations the statement calls: any functions of the vehicle.  A wing weight [None] is not-a-number; [k_fuse] also takes the
    wing and propulsion totals (tube).  [k_prop] is used by FLOPS and Raymer *)
Record book := Book {
  k_prop : vehicle -> network -> propw;
  k_payload : vehicle -> payload; k_oper : vehicle -> opitems; k_sys : vehicle -> sysw;
  k_wing : vehicle -> wing -> option R; k_htail : vehicle -> wing -> R; k_vtail : vehicle -> wing -> R;
  k_fuse : vehicle -> fuse -> R -> R -> R; k_gear : vehicle -> gear }.
(** settings.weight_reduction_factors; [t_struct = None]: the key 'structural' is absent *)
Record factors := Factors { t_wing : R; t_emp : R; t_fuse : R; t_struct : option R; t_sys : option R }.
(** 151-168; [None]: no settings.  The result is stored back in the settings *)
Definition settle (o : option factors) : factors :=
  match o with
  | None => Factors 0 0 0 (Some 0) (Some 0)
  | Some t => match t_struct t with
              | Some s => if zero s then Factors (t_wing t) (t_emp t) (t_fuse t) (Some 0) (Some 0)
                          else Factors 0 0 0 (Some s) (Some 0)
              | None => Factors (t_wing t) (t_emp t) (t_fuse t) (Some 0) (Some 0)
              end
  end.
Definition opt0 (o : option R) : R := match o with Some x => x | None => 0 end.
(** 178-182 *)
Definition mounted_ok (n : network) : bool :=
  match n_mounted n with OneFlag _ => true | Flags l => Nat.eqb (length l) (n_engines n) end.
(** 175-201: masses of the networks, their total and the last propulsion data *)
Record nets := Nets { a_masses : list (option R); a_total : R; a_data : option propw }.
Definition one_net (m : method) (k : book) (v : vehicle) (acc : result nets) (n : network) : result nets :=
  bind acc (fun a =>
    if n_jet n then
      if mounted_ok n then
        let '(w, d) := match n_total n with
                       | Some t => (t, a_data a)
                       | None => match m with
                                 | FLOPS_Simple | FLOPS_Complex | Raymer => let d := k_prop k v n in (q_prop d, Some d)
                                 | _ => (integrated_propulsion (engine_jet (n_thrust n)) (n_engines n), a_data a)
                                 end
                       end in
        let w := match n_engines n with O => 0 | _ => w end in
        Ok (Nets (a_masses a ++ [Some w]) (a_total a + w) d)
      else Err ValueError
    else Ok (Nets (a_masses a ++ [None]) (a_total a) (a_data a))).
Definition all_nets (m : method) (k : book) (v : vehicle) : result nets :=
  fold_left (one_net m k v) (v_nets v) (Ok (Nets [] 0 None)).
(** 258-303: the mass given to each wing, and the three totals *)
Record wings_out := Wings { b_masses : list (option R); b_main : R; b_h : R; b_v : R }.
Definition one_wing (m : method) (k : book) (t : factors) (v : vehicle) (acc : result wings_out) (w : wing) : result wings_out :=
  bind acc (fun a =>
    match w_kind w with
    | MainWing => match m with
                  | OtherMethod => Err ValueError
                  | _ => let x := match k_wing k v w with
                                  | None => 0
                                  | Some x => x * (1 - t_wing t) * (1 - opt0 (t_struct t))
                                  end in
                         Ok (Wings (b_masses a ++ [Some x]) (b_main a + x) (b_h a) (b_v a))
                  end
    | HorizontalTail => let x := k_htail k v w * (1 - t_emp t) * (1 - opt0 (t_struct t)) in
                        Ok (Wings (b_masses a ++ [Some x]) (b_main a) (b_h a + x) (b_v a))
    | VerticalTail => let x := k_vtail k v w * (1 - t_emp t) * (1 - opt0 (t_struct t)) in
                      Ok (Wings (b_masses a ++ [Some x]) (b_main a) (b_h a) (b_v a + x))
    | PlainWing => Ok (Wings (b_masses a ++ [None]) (b_main a) (b_h a) (b_v a))
    end).
Definition all_wings (m : method) (k : book) (t : factors) (v : vehicle) : result wings_out :=
  fold_left (one_wing m k t v) (v_wings v) (Ok (Wings [] 0 0 0)).
(** 306-316 *)
Definition all_fuses (k : book) (t : factors) (v : vehicle) (wt_wing wt_prop : R) : list R * R :=
  fold_left (fun a f => let x := k_fuse k v f wt_wing wt_prop * (1 - t_fuse t) * (1 - opt0 (t_struct t)) in
                        (fst a ++ [x], snd a + x)) (v_fuses v) ([], 0).
(** 230-231 *)
Definition scale_sys (c : R) (s : sysw) : sysw :=
  Sysw (s_ctrl s * c) (s_apu s * c) (s_hyd s * c) (s_instr s * c) (s_avi s * c) (s_elec s * c) (s_ac s * c) (s_furn s * c) (s_ice s * c)
       (s_total s * c).
(** 327-384: the statement *)
Record statement := Statement {
  e_wing : R; e_htail : R; e_vtail : R; e_fuse : R; e_main_gear : R; e_nose_gear : R; e_nacelle : R; e_paint : R; e_structures : R;
  e_prop : R; e_engines : R; e_reversers : R; e_misc : R; e_fuel_system : R;
  e_ctrl : R; e_apu : R; e_elec : R; e_avi : R; e_hyd : R; e_furn : R; e_ac : R; e_instr : R; e_systems : R;
  e_payload : payload; e_oper : opitems;
  e_empty : R; e_oe : R; e_zfw : R; e_fuel : R; e_mtow : R }.
(** 386-423: the masses stored in the vehicle: networks, wings, fuselages, payload (passengers, baggage, cargo), and the systems: control,
    electrical, avionics, furnishings, air conditioner, fuel, apu, hydraulics, optionals.  The landing gear gets its weight in [mass], not
    in mass_properties *)
Record stored := Stored {
  x_nets : list (option R); x_wings : list (option R); x_fuses : list R; x_pax : R; x_bag : R; x_cargo : R;
  x_ctrl : R; x_elec : R; x_avi : R; x_furn : R; x_ac : R; x_fuel : R; x_apu : R; x_hyd : R; x_opt : R;
  x_main_gear : R; x_nose_gear : R }.
(** 134-140 *)
Definition flops_ready (m : method) (v : vehicle) : bool :=
  if is_flops m then match v_mach v, v_range v, v_alt v with Some _, Some _, Some _ => true | _, _, _ => false end else true.
(** 339-383 *)
Definition statement_of (w : wings_out) (fuses : R) (g : gear) (a : nets) (s : sysw) (p : payload) (o : opitems) (mtow : R) : statement :=
  let nac := match a_data a with None => 0 | Some d => q_nac d end in
  let structures := b_main w + b_h w + b_v w + fuses + r_main g + r_nose g + 0 + nac in
  let ac := s_ac s + s_ice s in
  let systems := s_ctrl s + s_apu s + s_elec s + s_avi s + s_hyd s + s_furn s + ac + s_instr s in
  let empty := structures + a_total a + systems in
  let oe := empty + o_total o in
  let zfw := oe + p_total p in
  Statement (b_main w) (b_h w) (b_v w) fuses (r_main g) (r_nose g) nac 0 structures
    (a_total a)
    (match a_data a with None => 0 | Some d => q_eng d end)
    (match a_data a with None => 0 | Some d => q_rev d end)
    (match a_data a with None => 0 | Some d => q_ctrl d + q_start d end)
    (match a_data a with None => 0 | Some d => q_fuel d end)
    (s_ctrl s) (s_apu s) (s_elec s) (s_avi s) (s_hyd s) (s_furn s) ac (s_instr s) systems
    p o empty oe zfw (mtow - zfw) mtow.
(** 42-425.  The pod weight WPOD of FLOPS Complex (234-243), which needs propulsion data, only enters the wing correlation *)
Definition empty_weight (m : method) (k : book) (o : option factors) (v : vehicle) : result (statement * stored) :=
  if flops_ready m v then
    let t := settle o in
    bind (all_nets m k v) (fun a =>
    let p := k_payload k v in let op := k_oper k v in
    let s := scale_sys (1 - opt0 (t_sys t)) (k_sys k v) in
    bind (match m, a_data a with FLOPS_Complex, None => Err AttributeError | _, _ => Ok tt end) (fun _ =>
    bind (all_wings m k t v) (fun w =>
    let fs := all_fuses k t v (b_main w) (a_total a) in
    let e := statement_of w (snd fs) (k_gear k v) a s p op (v_mtow v) in
    Ok (e, Stored (a_masses a) (b_masses w) (fst fs) (p_pax p) (p_bag p) (p_cargo p)
                  (e_ctrl e) (e_elec e) (e_avi e + e_instr e) (e_furn e) (e_ac e) (e_fuel e) (e_apu e) (e_hyd e) (o_items op)
                  (e_main_gear e) (e_nose_gear e)))))
  else Err ValueError.
(** the correlations of the methods 'SUAVE' and 'New SUAVE'.  [big] as in [segments_sum].  tube.py 53 and tail_horizontal.py 54-58 take
    the wing called main_wing *)
Definition root_of (v : vehicle) : R := match main_of v with Some w => w_root w | None => 0 end.
Definition suave_book (big : R -> R -> R -> R -> R) (simple : bool) : book := {|
  k_prop := fun _ _ => Propw 0 0 0 0 0 0 0;
  k_payload := payload_common; k_oper := operating_items; k_sys := systems_common;
  k_wing := fun v w => Some (if simple then wing_simple v w else wing_segmented big v w);
  k_htail := fun v w => match main_of v with Some m => tail_horizontal v m w | None => 0 end;
  k_vtail := tail_vertical;
  k_fuse := fun v f ww wp => tube v f (root_of v) ww wp;
  k_gear := landing_gear |}.
(** Analyses/Weights/Weights_Transport.py 83-113 and Weights.py 86-99: the vehicle's operating_empty is set to the statement's [empty] *)
Definition analysis_operating_empty (e : statement) : R := e_empty e.

(** ** General_Aviation *)
(** Propulsion/engine_piston.py 36-39, integrated_propulsion_general_aviation.py 34-38 *)
Definition engine_piston (power : R) : R := dec 522 2 * pw (power / hp) (dec 780 3) * lb.
Definition integrated_ga (engine : R) (n : nat) : R := dec 2575 3 * pw (engine / lb) (dec 922 3) * INR n * lb.
(** fuel.py data used by empty.py 209-215: mass, density, internal volume, number of tanks *)
Record ga_fuel := GFuel { gf_mass : R; gf_density : R; gf_internal : R; gf_tanks : nat }.
Inductive ga_engine := GTurbofan (thrust : R) | GPiston (power : R) | GOther (mass : R).
Record ga_fuse := GFuse { gu_wetted : R; gu_press : R; gu_width : R; gu_height : R; gu_length : R; gu_volume : R; gu_seats : R }.
Record ga := GA {
  ga_sref : R; ga_nult : R; ga_mtow : R; ga_pax : R; ga_cargo : R; ga_q : R; ga_mach : R;
  ga_engines : nat; ga_engine_kind : ga_engine; ga_fuel_of : option ga_fuel;
  ga_main : wing; ga_htail : option wing; ga_vtail : option wing; ga_tail_arm : R; ga_fuse_of : ga_fuse;
  ga_gear : option (R * R); ga_avionics : option R; ga_ac : bool }.
(** wing_main.py 42-53: q is divided by pounds of mass per square foot *)
Definition ga_wing (g : ga) (m_fuel : R) : R :=
  let w := ga_main g in let c := cos (w_sweep w) in
  dec 36 3 * pw (ga_sref g / (ft * ft)) (dec 758 3) * pw (m_fuel / lb) (dec 35 4) * pw (w_span w * w_span w / ga_sref g / (c * c)) (dec 6 1)
  * pw (ga_q g / (lb / (ft * ft))) (dec 6 3) * pw (w_taper w) (dec 4 2) * Rpower (100 * w_tc w / c) (- dec 3 1)
  * pw (ga_nult g * (ga_mtow g / lb)) (dec 49 2) * lb.
(** tail_horizontal.py 42-50, called from empty.py 238-245 with the span in the place of the taper *)
Definition ga_h (s ar sweep q taper tc nult tow : R) : R :=
  let c := cos sweep in
  dec 16 3 * pw (nult * (tow / lb)) (dec 414 3) * pw (q / (lbf / (ft * ft))) (dec 168 3) * pw (s / (ft * ft)) (dec 896 3)
  * Rpower (100 * tc / c) (- dec 12 2) * pw (ar / (c * c)) (dec 43 3) * Rpower taper (- dec 2 2) * lb.
Definition ga_htail_weight (g : ga) : R :=
  match ga_htail g with
  | None => 0
  | Some w => ga_h (w_area w) (w_span w * w_span w / w_area w) (w_sweep w) (ga_q g) (w_span w) (w_tc w) (ga_nult g) (ga_mtow g)
  end.
(** tail_vertical.py 48-65 *)
Definition ga_v (s ar sweep q taper tc nult tow : R) (t : t_tail) : R :=
  let c := cos sweep in let factor := match t with TYes => 1 | _ => 0 end in
  dec 73 3 * (1 + dec 2 1 * factor) * pw (nult * (tow / lb)) (dec 376 3) * pw (q / (lbf / (ft * ft))) (dec 122 3)
  * pw (s / (ft * ft)) (dec 873 3) * Rpower (100 * tc / c) (- dec 49 2) * pw (ar / (c * c)) (dec 357 3) * pw taper (dec 39 3) * lb.
Definition ga_vtail_weight (g : ga) : R :=
  match ga_vtail g with
  | None => 0
  | Some w => ga_v (w_area w) (w_span w * w_span w / w_area w) (w_sweep w) (ga_q g) (w_taper w) (w_tc w) (ga_nult g) (ga_mtow g) (w_ttail w)
  end.
(** fuselage.py 46-62: the pressure term uses the volume in cubic metres *)
Definition ga_fuselage (g : ga) : R :=
  let u := ga_fuse_of g in
  let d_str := dec 25 3 * ((gu_height u + gu_width u) / 2) + 1 * inch in
  (dec 52 3 * pw (gu_wetted u / (ft * ft)) (dec 1086 3) * pw (ga_nult g * (ga_mtow g / lb)) (dec 177 3)
   * Rpower (Rabs (ga_tail_arm g) / ft) (- dec 51 3) * Rpower (gu_length u / d_str) (- dec 72 3)
   * pw (ga_q g / (lbf / (ft * ft))) (dec 241 3)
   + dec 119 1 * pw (gu_volume u * (gu_press u / (lbf / (ft * ft)))) (dec 271 3)) * lb.
(** landing_gear.py 37-48.  [output] there is the class Data itself: see [class_attributes] *)
Definition ga_landing_gear (landing nult lm ln : R) : gear :=
  Gear (dec 95 3 * pw (nult * (landing / lb)) (dec 768 3) * pw (lm / inch / 12) (dec 409 3) * lb)
       (dec 125 3 * pw (nult * (landing / lb)) (dec 566 3) * pw (ln / inch / 12) (dec 845 3) * lb).
(** payload.py 41-52, default weights *)
Definition ga_payload (g : ga) : payload :=
  let wp := 225 * lb * ga_pax g in let wb := 0 * ga_pax g in Payload (wp + wb + ga_cargo g) wp wb (ga_cargo g).
(** systems.py 49-90; the wrong parenthesis of line 61 is kept.  0/0 in the fuel term (no fuel and no internal tank) is excluded *)
Record ga_sys := GSys { gs_ctrl : R; gs_hyd : R; gs_avi : R; gs_elec : R; gs_ac : R; gs_furn : R; gs_fuel : R; gs_total : R }.
Definition ga_systems (w_uav v_fuel v_int : R) (n_tank n_eng : nat) (l span tow nult seats mach : R) (has_ac : bool) : ga_sys :=
  let qt := v_fuel / gallon in let qi := v_int / gallon in let w0 := tow / lb in
  let fuel := dec 249 2 * pw qt (dec 726 3) * pw (qt / (qt + qi)) (dec 363 3) * pw (INR n_tank) (dec 242 3) * pw (INR n_eng) (dec 157 3) * lb in
  let ctrl := dec 53 3 * pw (l / ft) (dec 1536 3) * pw (span / ft) (dec 371 3) * pw (nult * pw w0 (dec 1 4)) (dec 8 1) * lb in
  let hyd := dec 1 3 * w0 * lb in
  let avi := dec 2117 3 * pw (w_uav / lb) (dec 933 3) * lb in
  let elec := dec 1257 2 * pw (avi / lb + fuel / lb) (dec 51 2) * lb in
  let ac := (if has_ac then 1 else 0) * dec 265 3 * pw w0 (dec 52 2) * pw (1 * seats) (dec 68 2) * pw (avi / lb) (dec 17 2) * pw mach (dec 8 2) * lb in
  let furn := (dec 582 4 * w0 - 65) * lb in
  GSys ctrl hyd avi elec ac furn fuel (ctrl + hyd + ac + avi + elec + furn + fuel).
(** empty.py 168-414.  With landing gear but without fuel the name landing_weight is unbound (211, 293); without a horizontal tail the
    name l_w2h is (244, 278) *)
Record ga_out := GOut {
  go_wing : R; go_h : R; go_v : R; go_fuse : R; go_gear : gear; go_structures : R; go_prop : R; go_fuel_system : R; go_sys : ga_sys;
  go_systems : R; go_payload : payload; go_empty : R; go_oe : R; go_zfw : R; go_fuel : R }.
Definition ga_prop_weight (g : ga) : R :=
  match ga_engine_kind g with
  | GTurbofan t => integrated_propulsion (engine_jet t) (ga_engines g)
  | GPiston p => integrated_ga (engine_piston p) (ga_engines g)
  | GOther m => m
  end.
Definition ga_empty (g : ga) : result ga_out :=
  let prop := ga_prop_weight g in
  let '(m_fuel, v_fuel, v_int, n_tank) := match ga_fuel_of g with
                                          | None => (0, 0, 0, O)
                                          | Some f => (gf_mass f, gf_mass f / gf_density f, gf_internal f, gf_tanks f)
                                          end in
  bind (match ga_htail g with None => Err UnboundLocalError | Some _ => Ok tt end) (fun _ =>
  bind (match ga_gear g with
        | None => Ok (Gear 0 0)
        | Some (lm, ln) => match ga_fuel_of g with
                           | None => Err UnboundLocalError
                           | Some f => Ok (ga_landing_gear (ga_mtow g - gf_mass f) (ga_nult g) lm ln)
                           end
        end) (fun gr =>
  let ww := ga_wing g m_fuel in let wh := ga_htail_weight g in let wv := ga_vtail_weight g in let wf := ga_fuselage g in
  let s := ga_systems (match ga_avionics g with Some a => a | None => 0 end) v_fuel v_int n_tank (ga_engines g) (gu_length (ga_fuse_of g))
             (w_span (ga_main g)) (ga_mtow g) (ga_nult g) (gu_seats (ga_fuse_of g)) (ga_mach g) (ga_ac g) in
  let p := ga_payload g in
  let structures := ww + wh + wv + wf + r_main gr + r_nose gr + 0 + 0 in
  let systems := gs_ctrl s + 0 + gs_elec s + gs_avi s + gs_hyd s + gs_furn s + gs_ac s + 0 + 0 in
  let empty := structures + prop + systems in
  let oe := empty + 0 in
  let zfw := oe + p_total p in
  Ok (GOut ww wh wv wf gr structures prop (gs_fuel s) s systems p empty oe zfw (ga_mtow g - zfw)))).
(** landing_gear.py 44-46 assigns main and nose to the class Data itself, not to a new object: from then on every Data object answers
    with these numbers for an attribute it does not own (Core/Data.py 66-69).  The class holds [class_gear] *)
Definition class_gear := option gear.
(** a vehicle's landing_gear owns its main and nose gear (components) or not *)
Inductive legs := Owned | NotOwned.
(** reading an attribute such as landing_gear.nose: a component, a number left in the class, or AttributeError *)
Inductive found := Component | Number.
Definition read_leg (c : class_gear) (l : legs) : result found :=
  match l with Owned => Ok Component | NotOwned => match c with Some _ => Ok Number | None => Err AttributeError end end.
(** weight_transport.py 396-401 and General_Aviation/empty.py 387-392: hasattr, create the component if missing, assign to its [mass];
    a number has no attributes to assign to.  Result: the vehicle's gear afterwards *)
Definition store_leg (c : class_gear) (l : legs) : result legs :=
  match read_leg c l with
  | Err _ => Ok Owned
  | Ok Component => Ok l
  | Ok Number => Err AttributeError
  end.
(** General_Aviation/empty.py 283-296 for a vehicle with landing gear: strut lengths are read from the components *)
Definition ga_legs (c : class_gear) (l : legs) (landing nult lm ln : R) : class_gear * result legs :=
  match read_leg c l with
  | Ok Component => (Some (ga_landing_gear landing nult lm ln), Ok l)
  | _ => (c, Err AttributeError)
  end.
(** the estimates made in one session: of a transport, whose gear is owned or not, and of a light aircraft *)
Inductive estimate := Transport (l : legs) | LightAircraft (l : legs) (landing nult lm ln : R).
Definition session_step (c : class_gear) (e : estimate) : class_gear * result legs :=
  match e with
  | Transport l => (c, store_leg c l)
  | LightAircraft l w n lm ln => let '(c', r) := ga_legs c l w n lm ln in (c', bind r (fun l' => store_leg c' l'))
  end.
(** the session starts with the class untouched *)
Definition session (l : list estimate) : class_gear := fold_left (fun c e => fst (session_step c e)) l None.

(** ** BWB *)
(** cabin.py 41-49 *)
Definition bwb_cabin (area tow : R) : R := dec 5698865 6 * dec 316422 6 * pw (tow / lb) (dec 166552 6) * pw (area / (ft * ft)) (dec 1061158 6) * lb.
(** aft_centerbody.py 46-56 *)
Definition bwb_aft (n : nat) (area taper tow : R) : R :=
  (1 + dec 5 2 * INR n) * dec 53 2 * (area / (ft * ft)) * pw (tow / lb) (dec 2 1) * (taper + dec 5 1) * lb.
(** empty.py 88-192: structures, propulsion, systems, empty, operating empty, zero fuel, fuel.  [prop] is the propulsion weight,
    [ww] the wing's *)
Record bwb_out := BOut { bo_wing : R; bo_aft : R; bo_cabin : R; bo_gear : gear; bo_structures : R; bo_prop : R; bo_systems : R; bo_oper : opitems;
  bo_payload : payload; bo_empty : R; bo_oe : R; bo_zfw : R; bo_fuel : R; bo_fuselage_mass : R }.
Definition bwb_empty (v : vehicle) (n : nat) (prop ww cabin_area aft_area aft_taper : R) : bwb_out :=
  let g := landing_gear v in let cab := bwb_cabin cabin_area (v_mtow v) in let aft := bwb_aft n aft_area aft_taper (v_mtow v) in
  let s := systems_common v in let p := payload_common v in let o := operating_items v in
  let structures := ww + aft + cab + r_main g + r_nose g + 0 + 0 in
  let systems := s_ctrl s + s_apu s + s_elec s + s_avi s + s_hyd s + s_furn s + s_ac s + s_instr s + 0 in
  let empty := structures + prop + systems in
  BOut ww aft cab g structures prop systems o p empty (empty + o_total o) (empty + o_total o + p_total p)
       (v_mtow v - (empty + o_total o + p_total p)) cab.
(** Analyses/Weights/Weights.py 91 calls [empty(vehicle, settings)]; BWB/empty.py 31 defines [empty(vehicle)], UAV, Human_Powered and eVTOL
    accept two positional arguments *)
Inductive weights_analysis := W_BWB | W_UAV | W_eVTOL.
Definition arity_ok (a : weights_analysis) (given : nat) : bool :=
  match a with W_BWB => Nat.eqb given 1 | _ => Nat.leb 1 given && Nat.leb given 2 end.
Definition analysis_evaluate {A} (a : weights_analysis) (r : A) : result A := if arity_ok a 2 then Ok r else Err TypeError.

(** ** UAV/empty.py 44-58; g is Earth's sea level gravity, Attributes/Planets/Earth.py *)
Definition uav_empty (s ar : R) : R := dec 558 2 * pw s (dec 159 2) * pw ar (dec 71 2) / dec 980665 5.

(** ** Human_Powered *)
(** wing.py 47-64 *)
Definition hp_wing (s b c nr tc ner nult gw : R) : R :=
  let delta := b * b / (s * nr) in
  (b * dec 117 3 + dec 11 3 * (b * b)) * (1 + (nult * gw / 100 - 2) / 4)
  + nr * (c * c * tc * dec 550 4 + c * dec 191 5) + ner * (c * c * tc * dec 662 3 + c * dec 657 5)
  + dec 456 3 * (s * s * pw delta (4 / 3) / b) + b * dec 277 4 + s * dec 308 4.
(** tail.py 42-54 *)
Definition hp_tail (s b c nr tc q : R) : R :=
  let delta := b * b / (s * nr) in
  (b * dec 415 4 + b * b * dec 391 5) * (1 + (q * s / dec 785 1 - 1) / 12)
  + nr * (c * c * tc * dec 116 3 + c * dec 401 5) + dec 174 3 * (s * s * pw delta (4 / 3) / b) + s * dec 193 4.
(** fuselage.py 36 *)
Definition hp_fuselage (s q l : R) : R := (l * dec 114 3 + dec 196 4 * (l * l)) * (1 + (q * s / dec 785 1 - 1) / 2).
(** empty.py 86-147.  A fuselage without horizontal tail: S_h unbound (136).  Line 137 stores in vehicle.Fuselages, which does not exist *)
Definition hp_empty (main h vt : option R) (fuselage : option (option R)) : result R :=
  match fuselage with
  | None => Ok (opt0 h + 0 + opt0 vt + opt0 main)
  | Some o => match h with None => Err UnboundLocalError | Some _ => Err AttributeError end
  end.

(** ** Propulsion: motors *)
(** air_cooled_motor.py 44, hts_motor.py 40, nasa_motor.py 41-44 *)
Definition air_cooled_motor (p : R) : R := dec 196 2 * pw (p / 1000) (dec 8897 4) * lb.
Definition hts_motor (p : R) : R := dec 228 2 * pw (p / 1000) (dec 6616 4) * lb.
Definition nasa_motor (q : R) : R := dec 3928 4 * pw (q / (ft * lbf)) (dec 8587 4) * lb.
