(** * Drag build-up: model

    Sources under /repo/trunk/SUAVE/Methods/Aerodynamics (CF0 = Common/Fidelity_Zero) and
    /repo/trunk/SUAVE/Analyses/Aerodynamics/Fidelity_Zero.py 91-110, which runs the functions in order.

    One control point is modelled: every array operation is element by element.  Numbers are reals;
    [a / 0] has no meaning in the theorems, which assume the denominators they need. *)
From Coq Require Import Reals List Bool Arith String.
From Verif Require Import PyBase M_Opt M_Util.
Import ListNotations.
Local Open Scope R_scope.
Local Open Scope list_scope.

(** numpy log10 of a positive number *)
Definition lg (x : R) : R := ln x / ln 10.
(** [x ** y] for a base that is not negative and a positive exponent *)
Definition pw (x y : R) : R := if Rltb 0 x then Rpower x y else 0.

(** ** skin friction *)
(** CF0/Helper_Functions/compressible_turbulent_flat_plate.py 47-53 and, the same,
    compressible_mixed_flat_plate.py 73-79: (k_comp, k_reyn) *)
Definition plate_factors (Re Ma Tc : R) : R * R :=
  let Tw := Tc * (1 + 178 / 1000 * Ma ^ 2) in
  let Td := Tc * (1 + 35 / 1000 * Ma ^ 2 + 45 / 100 * (Tw / Tc - 1)) in
  let k_comp := Tc / Td in
  let Rd_w := Re * pw (Td / Tc) (15 / 10) * ((Td + 216) / (Tc + 216)) in
  let k_reyn := pw (Re / Rd_w) (2 / 10) in
  (k_comp, k_reyn).
(** skin friction, compressibility factor, Reynolds factor *)
Record friction := Friction { f_cf : R; f_comp : R; f_reyn : R }.
(** compressible_turbulent_flat_plate.py 44-58 *)
Definition compressible_turbulent_flat_plate (Re Ma Tc : R) : friction :=
  let cf_inc := 455 / 1000 / pw (lg Re) (258 / 100) in
  let (k_comp, k_reyn) := plate_factors Re Ma Tc in
  Friction (cf_inc * k_comp * k_reyn) k_comp k_reyn.
(** compressible_mixed_flat_plate.py 48-84 *)
Definition compressible_mixed_flat_plate (Re Ma Tc xt : R) : result friction :=
  if (Rltb xt 0 || Rltb 1 xt)%bool then Err ValueError
  else
    let Rex := if Req_EM_T (Re * xt) 0 then 1 / 10000 else Re * xt in
    let theta := 671 / 1000 * xt / pw Rex (1 / 2) in
    let xeff := pw (2778 / 100 * theta * pw Re (2 / 10)) (125 / 100) in
    let Rext := Re * (1 - xt + xeff) in
    let cf_turb := 455 / 1000 / pw (lg Rext) (258 / 100) in
    let cf_lam := 1328 / 1000 / pw Rex (1 / 2) in
    let cf_start := if Rltb 0 xt then 455 / 1000 / pw (lg (Re * xeff)) (258 / 100) else 0 in
    let cf_inc := cf_lam * xt + cf_turb * (1 - xt + xeff) - cf_start * xeff in
    let (k_comp, k_reyn) := plate_factors Re Ma Tc in
    Ok (Friction (cf_inc * k_comp * k_reyn) k_comp k_reyn).

(** ** the vehicle, the flow and the results *)
(** Mach number, temperature and Reynolds number per length *)
Record flow := Flow { fl_M : R; fl_T : R; fl_re : R }.
(** what the wing functions read of a segment *)
Record seg := Seg { sg_mac : R; sg_ref : R; sg_wet : R; sg_sweep : R }.
(** what they read of a wing; the last three are results of the lift analysis for it *)
Record wing := Wing {
  w_tag : string; w_ref : R; w_wet : R; w_mac : R; w_sweep : R; w_tc : R; w_root : R; w_tip : R; w_span : R;
  w_sym : bool; w_offset : R; w_xtu : R; w_xtl : R; w_ar : R; w_segs : list seg; w_cl : R; w_clc : R; w_cdi : R }.
Record fuselage := Fuselage { fu_tag : string; fu_front : R; fu_wet : R; fu_len : R; fu_diam : R }.
Record nacelle := Nacelle { na_tag : string; na_diam : R; na_len : R; na_wet : R; na_origins : nat }.
Record vehicle := Vehicle {
  v_wings : list wing; v_fuselages : list fuselage; v_nacelles : list nacelle; v_networks : nat; v_ref : R }.
Record settings := Settings {
  t_wing_ff : R; t_fus_ff : R; t_recalc : bool; t_K : R; t_osw : option R; t_span : option R; t_trim : R;
  t_inc : R; t_spoiler : R; t_ld : R }.
(** an entry of drag_breakdown.parasite *)
Record entry := Entry { e_wet : R; e_ref : R; e_cd : R; e_cf : R; e_comp : R; e_reyn : R; e_ff : R }.
Definition breakdown := dict entry.

(** ** CF0/Drag/parasite_drag_wing.py *)
(** 233-246 *)
Definition wing_form_factor (C tc sweep M : R) : R :=
  let cos_sweep := cos sweep in
  let cos2 := cos_sweep * cos_sweep in
  let k_w := if Rltb 1 M then 1
             else 1 + 2 * C * (tc * cos2) / sqrt (1 - M * M * cos2)
                  + C * C * cos2 * tc * tc * (1 + 5 * cos2) / (2 * (1 - (M * cos_sweep) ^ 2)) in
  let h := blend (95 / 100) 1 M in
  k_w * h + 1 * (1 - h).
Record surface := Surface { s_cd : R; s_k : R; s_up : friction; s_low : friction }.
(** 224-252 *)
Definition compute_parasite_drag (re mac M T xtu xtl sweep tc Sref Swet C : R) : result surface :=
  let Re_w := re * mac in
  bind (compressible_mixed_flat_plate Re_w M T xtu) (fun up =>
  bind (compressible_mixed_flat_plate Re_w M T xtl) (fun low =>
  let k_w := wing_form_factor C tc sweep M in
  Ok (Surface (k_w * f_cf up * Swet / Sref / 2 + k_w * f_cf low * Swet / Sref / 2) k_w up low))).
(** 105-126: the segments but the last, each with its area *)
Fixpoint segment_drags (fl : flow) (w : wing) (C : R) (l : list seg) : result (list (R * surface)) :=
  match l with
  | [] => Ok []
  | s :: r =>
      bind (compute_parasite_drag (fl_re fl) (sg_mac s) (fl_M fl) (fl_T fl) (w_xtu w) (w_xtl w) (sg_sweep s) (w_tc w)
              (sg_ref s) (sg_wet s) C) (fun d =>
      bind (segment_drags fl w C r) (fun ds => Ok ((sg_ref s, d) :: ds)))
  end.
(** 119-135 *)
Definition area_mean (Sref : R) (f : surface -> R) (ds : list (R * surface)) : R :=
  fold_left (fun total d => total + f (snd d) * fst d) ds 0 / Sref.
(** 147-164: the wetted area used, kept in the wing *)
Definition wetted_area (t : settings) (w : wing) : R :=
  let wing_root := w_root w + w_offset w * ((w_tip w - w_root w) / w_span w) in
  if (t_recalc t || (if Req_EM_T (w_wet w) 0 then true else false))%bool then
    let S_exposed := if w_sym w then w_ref w - (w_root w + wing_root) * w_offset w
                     else w_ref w - 1 / 2 * (w_root w + wing_root) * w_offset w in
    if Rltb (w_tc w) (5 / 100) then 2003 / 1000 * S_exposed else (1977 / 1000 + 52 / 100 * w_tc w) * S_exposed
  else w_wet w.
Definition with_wet (a : R) (w : wing) : wing :=
  Wing (w_tag w) (w_ref w) a (w_mac w) (w_sweep w) (w_tc w) (w_root w) (w_tip w) (w_span w) (w_sym w) (w_offset w)
       (w_xtu w) (w_xtl w) (w_ar w) (w_segs w) (w_cl w) (w_clc w) (w_cdi w).
(** 68-182: the wing (its wetted area may be new), the breakdown and the coefficient returned.
    Simplification: with segments, a recalculation of their wetted areas (101-102) is taken as already done. *)
Definition parasite_drag_wing (t : settings) (fl : flow) (w : wing) (b : breakdown) : result (wing * breakdown * R) :=
  let C := t_wing_ff t in
  match w_segs w with
  | [] =>
      let Swet := wetted_area t w in
      let w' := with_wet Swet w in
      bind (compute_parasite_drag (fl_re fl) (w_mac w) (fl_M fl) (fl_T fl) (w_xtu w) (w_xtl w) (w_sweep w) (w_tc w)
              (w_ref w) Swet C) (fun d =>
      Ok (w', dset (w_tag w) (Entry Swet (w_ref w) (s_cd d) ((f_cf (s_up d) + f_cf (s_low d)) / 2)
                   ((f_comp (s_up d) + f_comp (s_low d)) / 2) ((f_reyn (s_up d) + f_reyn (s_low d)) / 2) (s_k d)) b, s_cd d))
  | segs =>
      bind (segment_drags fl w C (removelast segs)) (fun ds =>
      let mean f := area_mean (w_ref w) f ds in
      Ok (w, dset (w_tag w) (Entry (w_wet w) (w_ref w) (mean s_cd)
                   ((mean (fun d => f_cf (s_up d)) + mean (fun d => f_cf (s_low d))) / 2)
                   ((mean (fun d => f_comp (s_up d)) + mean (fun d => f_comp (s_low d))) / 2)
                   ((mean (fun d => f_reyn (s_up d)) + mean (fun d => f_reyn (s_low d))) / 2)
                   (mean s_k)) b, mean s_cd))
  end.

(** ** CF0/Drag/parasite_drag_fuselage.py *)
(** numpy arctanh between -1 and 1 *)
Definition arctanh (x : R) : R := 1 / 2 * ln ((1 + x) / (1 - x)).
(** 79-81 and 83-85 *)
Definition speed_up (d_d M : R) : R :=
  if Rltb M (95 / 100) then
    let D := sqrt (1 - (1 - M ^ 2) * d_d ^ 2) in
    let a := 2 * (1 - M ^ 2) * d_d ^ 2 * (arctanh D - D) / D ^ 3 in
    a / ((2 - a) * sqrt (1 - M ^ 2))
  else
    let D := sqrt (1 - d_d ^ 2) in
    let a := 2 * d_d ^ 2 * (arctanh D - D) / D ^ 3 in
    a / (2 - a).
(** 87 *)
Definition fuselage_form_factor (C d_d M : R) : R := (1 + C * speed_up d_d M) ^ 2.
(** 50-106 *)
Definition parasite_drag_fuselage (t : settings) (fl : flow) (f : fuselage) (b : breakdown) : breakdown * R :=
  let c := compressible_turbulent_flat_plate (fl_re fl * fu_len f) (fl_M fl) (fl_T fl) in
  let k := fuselage_form_factor (t_fus_ff t) (fu_diam f / fu_len f) (fl_M fl) in
  let cd := k * f_cf c * fu_wet f / fu_front f in
  (dset (fu_tag f) (Entry (fu_wet f) (fu_front f) cd (f_cf c) (f_comp c) (f_reyn c) k) b, cd).

(** ** CF0/Drag/parasite_drag_nacelle.py 54-93 *)
Definition nacelle_ref (n : nacelle) : R := na_diam n ^ 2 / 4 * PI.
Definition parasite_drag_nacelle (fl : flow) (n : nacelle) (b : breakdown) : breakdown * R :=
  let c := compressible_turbulent_flat_plate (fl_re fl * na_len n) (fl_M fl) (fl_T fl) in
  let k := 1 + 35 / 100 / (na_len n / na_diam n) in
  let cd := k * f_cf c * na_wet n / nacelle_ref n in
  (dset (na_tag n) (Entry (na_wet n) (nacelle_ref n) cd (f_cf c) (f_comp c) (f_reyn c) k) b, cd).

(** ** CF0/Drag/parasite_drag_pylon.py 49-87 *)
Fixpoint nacelle_entries (b : breakdown) (l : list nacelle) : result (list (nacelle * entry)) :=
  match l with
  | [] => Ok []
  | n :: r => match dget (na_tag n) b with
              | Some e => bind (nacelle_entries b r) (fun es => Ok ((n, e) :: es))
              | None => Err KeyError
              end
  end.
(** the division (70) of the number 0.0 by no networks raises; of an array it does not (simplification: the means
    are then meaningless numbers) *)
Definition parasite_drag_pylon (v : vehicle) (b : breakdown) : result (breakdown * R) :=
  bind (nacelle_entries b (v_nacelles v)) (fun es =>
  if (Nat.eqb (v_networks v) 0 && match es with [] => true | _ => false end)%bool then Err ZeroDivisionError
  else
    let acc f := fold_left (fun t x => t + f x) es 0 in
    let cd := acc (fun x => 20 / 100 * e_cd (snd x) * (nacelle_ref (fst x) / v_ref v)) in
    let n := INR (v_networks v) in
    Ok (dset "pylon" (Entry (acc (fun x => 20 / 100 * e_wet (snd x))) (v_ref v) cd (acc (fun x => e_cf (snd x)) / n)
                      (acc (fun x => e_comp (snd x)) / n) (acc (fun x => e_reyn (snd x)) / n)
                      (acc (fun x => e_ff (snd x)) / n)) b, cd)).

(** ** CF0/Drag/parasite_total.py *)
Definition with_cd (c : R) (e : entry) : entry :=
  Entry (e_wet e) (e_ref e) c (e_cf e) (e_comp e) (e_reyn e) (e_ff e).
(** 58-61, 64-69, 72-76: read an entry, store it referred to the vehicle's area, add it up *)
Definition refer (Sref : R) (tag : string) (area : R) (st : breakdown * R) : result (breakdown * R) :=
  let (b, total) := st in
  match dget tag b with
  | Some e => Ok (dset tag (with_cd (e_cd e * area / Sref) e) b, total + e_cd e * area / Sref)
  | None => Err KeyError
  end.
Fixpoint refer_all (Sref : R) (l : list (string * R)) (st : breakdown * R) : result (breakdown * R) :=
  match l with
  | [] => Ok st
  | (tag, area) :: r => bind (refer Sref tag area st) (refer_all Sref r)
  end.
(** the components in the order of the three loops *)
Definition counted (v : vehicle) : list (string * R) :=
  map (fun w => (w_tag w, w_ref w)) (v_wings v) ++
  map (fun f => (fu_tag f, fu_front f)) (filter (fun f => negb (String.eqb (fu_tag f) "fuselage_bwb")) (v_fuselages v)) ++
  map (fun n => (na_tag n, nacelle_ref n)) (v_nacelles v).
(** 48-89 *)
Definition parasite_total (v : vehicle) (b : breakdown) : result (breakdown * R) :=
  bind (refer_all (v_ref v) (counted v) (b, 0)) (fun st =>
  let (b, total) := st in
  Ok (b, total + match dget "pylon" b with Some e => e_cd e | None => 0 end)).

(** ** CF0/Drag/induced_drag_aircraft.py *)
Record induced := Induced { in_total : R; in_viscous : R; in_e : R }.
(** 92-120: viscous and inviscid sum, greatest area and its aspect ratio *)
Fixpoint induced_sums (t : settings) (Sref : R) (b : breakdown) (l : list wing) (vis inv area ar : R)
  : result (R * R * R) :=
  match l with
  | [] => Ok (vis, inv, ar)
  | w :: r =>
      match dget (w_tag w) b with
      | None => Err KeyError
      | Some e =>
          let cdi_v := t_K t * e_cd e * w_cl w ^ 2 in
          let cdi_i := match t_span t with None => w_cdi w | Some es => w_cl w ^ 2 / (PI * w_ar w * es) end in
          let bigger := Rltb area (e_ref e) in
          induced_sums t Sref b r (vis + cdi_v * (e_ref e / Sref)) (inv + cdi_i * (e_ref e / Sref))
            (if bigger then e_ref e else area) (if bigger then w_ar w else ar)
      end
  end.
(** 131-136 *)
Fixpoint largest (l : list wing) (S ar : R) : R :=
  match l with
  | [] => ar
  | w :: r => if Rltb S (w_ref w) then largest r (w_ref w) (w_ar w) else largest r S ar
  end.
(** 69-148; [CL] and [CDi] the vehicle's lift and inviscid induced drag coefficients *)
Definition induced_drag_aircraft (t : settings) (v : vehicle) (b : breakdown) (CL CDi : R) : result induced :=
  match t_osw t with
  | None =>
      bind (induced_sums t (v_ref v) b (v_wings v) 0 0 0 (1 / 100)) (fun s =>
      let '(vis, inv, AR) := s in
      let total := vis + inv in
      Ok (Induced total vis (CL ^ 2 / (PI * AR * total))))
  | Some e =>
      let AR := largest (v_wings v) 0 (1 / 100) in
      let total := CL ^ 2 / (PI * AR * e) in
      Ok (Induced total (total - CDi) e)
  end.

(** ** CF0/Drag/compressibility_drag_wing.py *)
(** 65-77: the crest-critical Mach number *)
Definition crest_critical (t_c sweep cl_w : R) : R :=
  let cos_sweep := cos sweep in
  let tc := t_c / cos_sweep in
  let cl := cl_w / (cos_sweep * cos_sweep) in
  (922321524499352 / 10 ^ 15 - 1153885166170620 / 10 ^ 15 * tc - 304541067183461 / 10 ^ 15 * cl
   + 332881324404729 / 10 ^ 15 * tc * tc + 467317361111105 / 10 ^ 15 * tc * cl + 87490431201549 / 10 ^ 15 * cl * cl)
  / cos_sweep.
(** 80 *)
Definition divergence (mcc sweep : R) : R := mcc * (102 / 100 + 8 / 100 * (1 - cos sweep)).
(** 83-89 *)
Definition drag_rise (mcc sweep M : R) : R :=
  19 / 10000 * pw (M / mcc) (14641 / 1000) * cos sweep * cos sweep * cos sweep.
Definition compressibility_drag_wing (fl : flow) (w : wing) : R :=
  drag_rise (crest_critical (w_tc w) (w_sweep w) (w_clc w)) (w_sweep w) (fl_M fl).
(** CF0/Drag/compressibility_drag_wing_total.py 46-57 *)
Definition compressibility_drag_wing_total (fl : flow) (v : vehicle) : R :=
  fold_left (fun total w => total + compressibility_drag_wing fl w * (w_ref w / v_ref v)) (v_wings v) 0.

(** ** CF0/Drag/miscellaneous_drag_aircraft_ESDU.py 50-79 *)
Definition total_wetted (v : vehicle) : R :=
  let s := fold_left (fun s w => s + w_wet w) (v_wings v) 0 in
  let s := fold_left (fun s f => s + fu_wet f) (v_fuselages v) s in
  let s := fold_left (fun s n => s + na_wet n * INR (na_origins n)) (v_nacelles v) s in
  s * (110 / 100).
Definition excrescence (swet Sref : R) : R :=
  40 / 100 * (184 / 10000 + 469 / 1000000 * swet - 113 / 100 / 10 ^ 7 * swet ^ 2) / Sref.
Definition miscellaneous_drag (v : vehicle) : R := excrescence (total_wetted v) (v_ref v).

(** ** the whole build-up: Analyses/Aerodynamics/Fidelity_Zero.py 92-110 *)
(** Process_Geometry.py 70-78 over the wings: every function is called on each in turn *)
Fixpoint all_wings (t : settings) (fl : flow) (l : list wing) (b : breakdown) : result (list wing * breakdown) :=
  match l with
  | [] => Ok ([], b)
  | w :: r =>
      bind (parasite_drag_wing t fl w b) (fun x =>
      let '(w', b', _) := x in
      bind (all_wings t fl r b') (fun y => Ok (w' :: fst y, snd y)))
  end.
Definition with_wings (ws : list wing) (v : vehicle) : vehicle :=
  Vehicle ws (v_fuselages v) (v_nacelles v) (v_networks v) (v_ref v).
Record drag := Drag {
  d_parasite : R; d_induced : induced; d_compressible : R; d_misc : R; d_untrimmed : R; d_trimmed : R; d_total : R }.
(** untrimmed.py 39-48, trim.py 40, spoiler_drag.py 42, total_aircraft.py 43-57 *)
Definition add_up (t : settings) (parasite : R) (ind : induced) (compressible misc : R) : drag :=
  let untrimmed := parasite + in_total ind + compressible + misc in
  let trimmed := t_trim t * untrimmed in
  Drag parasite ind compressible misc untrimmed trimmed ((trimmed + t_inc t + t_spoiler t) / (1 + t_ld t)).
(** the vehicle and the breakdown afterwards, and the results *)
Definition evaluate_drag (t : settings) (fl : flow) (CL CDi : R) (v : vehicle) (b : breakdown)
  : result (vehicle * breakdown * drag) :=
  bind (all_wings t fl (v_wings v) b) (fun x =>
  let v := with_wings (fst x) v in
  let b := fold_left (fun b f => fst (parasite_drag_fuselage t fl f b)) (v_fuselages v) (snd x) in
  let b := fold_left (fun b n => fst (parasite_drag_nacelle fl n b)) (v_nacelles v) b in
  bind (parasite_drag_pylon v b) (fun y =>
  bind (parasite_total v (fst y)) (fun z =>
  let (b, parasite) := z in
  bind (induced_drag_aircraft t v b CL CDi) (fun ind =>
  Ok (v, b, add_up t parasite ind (compressibility_drag_wing_total fl v) (miscellaneous_drag v)))))).
