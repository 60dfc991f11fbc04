(** * Model: gas-turbine components, the turbofan and turbojet networks, shocks

    Every array quantity of the code is treated element by element: the model describes one
    control point.  A floating-point value that may turn out not to be a number (the square
    root or fractional power of a negative number, a division by zero) is modelled by
    [None]; the reals replace the floating-point numbers.  An infinity is also [None]
    (simplification: an infinity that is later divided away is not tracked). *)
From Coq Require Import Reals List String Bool.
From Verif Require Import M_Opt.
Import ListNotations.
Local Open Scope R_scope.

Definition num := option R.
Definition nadd (a b : num) : num :=
  match a, b with Some x, Some y => Some (x + y) | _, _ => None end.
Definition nsub (a b : num) : num :=
  match a, b with Some x, Some y => Some (x - y) | _, _ => None end.
Definition nmul (a b : num) : num :=
  match a, b with Some x, Some y => Some (x * y) | _, _ => None end.
Definition ndiv (a b : num) : num :=
  match a, b with
  | Some x, Some y => if Req_EM_T y 0 then None else Some (x / y)
  | _, _ => None
  end.
Definition nsqrt (a : num) : num :=
  match a with Some x => if Rltb x 0 then None else Some (sqrt x) | None => None end.
(** [x ** y] with a fractional exponent *)
Definition npow (a b : num) : num :=
  match a, b with
  | Some x, Some y =>
      if Rltb 0 x then Some (Rpower x y)
      else if Rltb x 0 then None
      else if Rltb 0 y then Some 0 else if Rltb y 0 then None else Some 1
  | _, _ => None
  end.
(** comparisons with a value that is not a number are false *)
Definition nltb (a b : num) : bool :=
  match a, b with Some x, Some y => Rltb x y | _, _ => false end.
Definition nleb (a b : num) : bool :=
  match a, b with Some x, Some y => negb (Rltb y x) | _, _ => false end.
(** numpy.fmax: the number, if only one of the two is a number *)
Definition nfmax (a b : num) : num :=
  match a, b with
  | Some x, Some y => Some (Rmax x y)
  | Some x, None => Some x
  | None, _ => b
  end.

Declare Scope num_scope.
Delimit Scope num_scope with num.
Bind Scope num_scope with num.
Notation "# x" := (Some x%R) (at level 1, x at level 0, format "# x") : num_scope.
Infix "+" := nadd : num_scope.
Infix "-" := nsub : num_scope.
Infix "*" := nmul : num_scope.
Infix "/" := ndiv : num_scope.
Infix "**" := npow (at level 30, right associativity) : num_scope.
Local Open Scope num_scope.

(** the working fluid: heat-capacity ratio and specific heat as functions of temperature and
    pressure, and the gas constant (compute_gamma, compute_cp, gas_specific_constant) *)
Record fluid := Fluid { fl_gamma : R -> R -> num; fl_cp : R -> R -> num; fl_R : R }.
(** conditions.freestream and conditions.propulsion.throttle at one control point *)
Record flight := Flight {
  x_p : R; x_T : R; x_M : R; x_u : R; x_a : R; x_g : R; x_throttle : R }.
(** what Ram adds to conditions.freestream *)
Record stream := Stream {
  s_gamma : num; s_cp : num; s_R : num; s_Tt : num; s_Pt : num }.
(** a stagnation state handed from one component to the next *)
Record station := Station { tt : num; pt : num }.

(** Components/Energy/Converters/Ram.py 97-128 *)
Definition ram (fl : fluid) (x : flight) : stream :=
  let Po := #(x_p x) in let To := #(x_T x) in let M := #(x_M x) in
  let gamma := fl_gamma fl (x_T x) (x_p x) in
  let cp := fl_cp fl (x_T x) (x_p x) in
  Stream gamma cp #(fl_R fl)
    (To * (#1 + ((gamma - #1) / #2 * M * M)))
    (Po * ((#1 + (gamma - #1) / #2 * M * M) ** (gamma / (gamma - #1)))).
Definition ram_out (s : stream) : station := Station (s_Tt s) (s_Pt s).

(** the outputs of a nozzle *)
Record jet := Jet {
  j_Tt : num; j_Pt : num; j_ht : num; j_M : num; j_T : num; j_h : num; j_u : num;
  j_P : num; j_rho : num; j_area : num }.

(** Converters/Compression_Nozzle.py, the parameters read in 123-126 *)
Record inlet_p := InletP { in_pr : R; in_eff : R; in_rec : R; in_comp : bool }.
(** Compression_Nozzle.compute, lines 112-181; [P_out] of line 157 is not an output *)
Definition inlet (q : inlet_p) (s : stream) (x : flight) (i : station) : jet :=
  let gamma := s_gamma s in let cp := s_cp s in
  let Po := #(x_p x) in let Mo := #(x_M x) in
  let pid := #(in_pr q) in let rec := #(in_rec q) in
  let Tt_out := tt i * (pid * rec) ** ((gamma - #1) / (gamma * #(in_eff q))) in
  let ht_out := cp * Tt_out in
  let '(Pt_out, Mach, T_out) :=
    if in_comp q then
      if nleb Mo #1 then
        let Pt_out := pt i * pid in
        let Mach := nsqrt ((((Pt_out / Po) ** ((gamma - #1) / gamma)) - #1) * #2
                           / (gamma - #1)) in
        (Pt_out, Mach, Tt_out / (#1 + (gamma - #1) / #2 * Mach * Mach))
      else
        let Mach := nsqrt ((#1 + (gamma - #1) / #2 * (Mo * Mo))
                           / (gamma * (Mo * Mo) - (gamma - #1) / #2)) in
        (pid * pt i * ((((gamma + #1) * (Mo * Mo)) / ((gamma - #1) * (Mo * Mo) + #2))
                         ** (gamma / (gamma - #1)))
             * (((gamma + #1) / (#2 * gamma * (Mo * Mo) - (gamma - #1)))
                 ** (#1 / (gamma - #1))),
         Mach, Tt_out / (#1 + (gamma - #1) / #2 * Mach * Mach))
    else
      let Pt_out := pt i * pid * rec in
      let Pt_out := if nltb Pt_out Po then Po else Pt_out in
      let Mach := nsqrt ((((Pt_out / Po) ** ((gamma - #1) / gamma)) - #1) * #2
                         / (gamma - #1)) in
      (Pt_out, Mach, Tt_out / (#1 + (gamma - #1) / #2 * Mach * Mach)) in
  let h_out := cp * T_out in
  Jet Tt_out Pt_out ht_out Mach T_out h_out (nsqrt (#2 * (ht_out - h_out))) None None None.

(** Converters/Compressor.py 99-125 and Converters/Fan.py 100-127: the same code *)
Record comp_p := CompP { co_pr : R; co_eff : R }.
Record comp_o := CompO { co_Tt : num; co_Pt : num; co_ht : num; co_work : num }.
Definition compressor (q : comp_p) (s : stream) (i : station) : comp_o :=
  let gamma := s_gamma s in let cp := s_cp s in
  let ht_in := cp * tt i in
  let Pt_out := pt i * #(co_pr q) in
  let Tt_out := tt i * #(co_pr q) ** ((gamma - #1) / (gamma * #(co_eff q))) in
  let ht_out := cp * Tt_out in
  CompO Tt_out Pt_out ht_out (ht_out - ht_in).
Definition comp_out (o : comp_o) : station := Station (co_Tt o) (co_Pt o).

(** Converters/Combustor.py 120-158 ([compute]); [nondim] is inputs.nondim_mass_ratio *)
Record comb_p := CombP { cb_Tt4 : R; cb_pr : R; cb_eff : R; cb_fuel : R }.
Record comb_o := CombO { cb_Tt : num; cb_Pt : num; cb_ht : num; cb_f : num }.
Definition combustor (q : comb_p) (nondim : num) (s : stream) (i : station) : comb_o :=
  let cp := s_cp s in
  let ht4 := cp * #(cb_Tt4 q) * nondim in
  let ht_in := cp * tt i * nondim in
  let f := (ht4 - ht_in) / (#(cb_eff q) * #(cb_fuel q) - ht4) in
  CombO #(cb_Tt4 q) (pt i * #(cb_pr q)) (cp * #(cb_Tt4 q)) f.
Definition comb_out (o : comb_o) : station := Station (cb_Tt o) (cb_Pt o).

(** Converters/Turbine.py 106-140; [take] is the work of the shaft power off-take, absent
    when inputs.shaft_power_off_take is None *)
Record turb_p := TurbP { tu_mech : R; tu_eff : R }.
Record turb_o := TurbO { tu_Tt : num; tu_Pt : num; tu_ht : num }.
Definition turbine (q : turb_p) (s : stream) (i : station)
    (alpha f compressor_work fan_work : num) (take : option num) : turb_o :=
  let gamma := s_gamma s in let cp := s_cp s in
  let shaft := match take with Some w => w | None => #0 end in
  let deltah := #(-1) / (#1 + f) * #1 / #(tu_mech q)
                * (compressor_work + shaft + alpha * fan_work) in
  let Tt_out := tt i + deltah / cp in
  let Pt_out := pt i * (Tt_out / tt i) ** (gamma / ((gamma - #1) * #(tu_eff q))) in
  TurbO Tt_out Pt_out (cp * Tt_out).
Definition turb_out (o : turb_o) : station := Station (tu_Tt o) (tu_Pt o).

(** Methods/Propulsion/fm_id.py 30-35 *)
Definition fm_id (M gamma : num) : num :=
  let m0 := (gamma + #1) / (#2 * (gamma - #1)) in
  let m1 := ((gamma + #1) / #2) ** m0 in
  let m2 := (#1 + (gamma - #1) / #2 * M * M) ** m0 in
  m1 * M / m2.

(** Converters/Expansion_Nozzle.py 119-188.  Line 154 presets [P_out] to [Mach/Mach]; both
    branches of 157-162 overwrite it unless [Mach] is not a number *)
Record nozz_p := NozzP { no_pr : R; no_eff : R }.
Definition expansion (q : nozz_p) (s : stream) (x : flight) (i : station) : jet :=
  let gamma := s_gamma s in let cp := s_cp s in let Rg := s_R s in
  let Po := #(x_p x) in let Mo := #(x_M x) in
  let Pto := s_Pt s in let Tto := s_Tt s in
  let Pt_out := pt i * #(no_pr q) in
  let Tt_out := tt i * #(no_pr q) ** ((gamma - #1) / gamma * #(no_eff q)) in
  let ht_out := cp * Tt_out in
  let Pt_out := if nltb Pt_out Po then Po else Pt_out in
  let Mach := nsqrt ((((Pt_out / Po) ** ((gamma - #1) / gamma)) - #1) * #2
                     / (gamma - #1)) in
  let '(P_out, Mach) :=
    match Mach with
    | None => (None, None)
    | Some m =>
        if Rltb m 1 then (Po, Mach)
        else (Pt_out / (#1 + (gamma - #1) / #2 * #1 * #1) ** (gamma / (gamma - #1)), #1)
    end in
  let Mach := if nleb Mach #0 then #(1/1000) else Mach in
  let T_out := Tt_out / (#1 + (gamma - #1) / #2 * Mach * Mach) in
  let h_out := cp * T_out in
  let u_out := nsqrt (#2 * (ht_out - h_out)) in
  let rho_out := P_out / (Rg * T_out) in
  let area := fm_id Mo gamma / fm_id Mach gamma * (#1 / (Pt_out / Pto))
              * nsqrt (Tt_out / Tto) in
  Jet Tt_out Pt_out ht_out Mach T_out h_out u_out P_out rho_out area.
Definition jet_out (o : jet) : station := Station (j_Tt o) (j_Pt o).

(** Converters/Supersonic_Nozzle.py 123-180 ([compute]): fully expanded, and no test that the
    total pressure is above the ambient one.  [P_out] stays at [Mach/Mach = 1] pascal when
    the Mach number is 10 or more (155-158) *)
Record snoz_p := SnozP { sn_pr : R; sn_eff : R; sn_rec : R }.
Definition supersonic (q : snoz_p) (s : stream) (x : flight) (i : station) : jet :=
  let gamma := s_gamma s in let cp := s_cp s in let Rg := s_R s in
  let Po := #(x_p x) in let Mo := #(x_M x) in
  let Pto := s_Pt s in let Tto := s_Tt s in
  let Pt_out := pt i * #(sn_pr q) * #(sn_rec q) in
  let Tt_out := tt i * (#(sn_pr q) * #(sn_rec q)) ** ((gamma - #1) / gamma * #(sn_eff q)) in
  let ht_out := cp * Tt_out in
  let Mach := nsqrt ((((Pt_out / Po) ** ((gamma - #1) / gamma)) - #1) * #2
                     / (gamma - #1)) in
  let P_out := if nltb Mach #10 then Po else Mach / Mach in
  let T_out := Tt_out / (#1 + (gamma - #1) / #2 * Mach * Mach) in
  let h_out := cp * T_out in
  let u_out := nsqrt (#2 * (ht_out - h_out)) in
  let rho_out := P_out / (Rg * T_out) in
  let area := fm_id Mo gamma / fm_id Mach gamma * (#1 / (Pt_out / Pto))
              * nsqrt (Tt_out / Tto) in
  Jet Tt_out Pt_out ht_out Mach T_out h_out u_out P_out rho_out area.

(** Processes/Thrust.py: the settings (155-158, total_design) *)
Record thrust_p := ThrustP {
  th_Tref : R; th_Pref : R; th_mdhc : num; th_sfc_adj : R; th_design : R; th_flow : num }.
(** Thrust.inputs *)
Record thrust_i := ThrustI {
  ti_f : num; ti_Tref : num; ti_Pref : num; ti_core : jet; ti_fan : jet;
  ti_engines : R; ti_bypass : num; ti_through_core : num; ti_through_fan : num }.
Record thrust_o := ThrustO {
  to_thrust : num; to_tsfc : num; to_nd : num; to_mdot : num; to_fuel : num;
  to_power : num; to_isp : num }.
(** Core/Units: one hour *)
Definition hour : num := #3600.
(** Thrust.compute, lines 130-200 *)
Definition thrust (q : thrust_p) (s : stream) (x : flight) (i : thrust_i) : thrust_o :=
  let gamma := s_gamma s in
  let u0 := #(x_u x) in let a0 := #(x_a x) in let M0 := #(x_M x) in
  let p0 := #(x_p x) in let g := #(x_g x) in let throttle := #(x_throttle x) in
  let f := ti_f i in let bypass := ti_bypass i in
  let core_nd := ti_through_core i *
    (gamma * M0 * M0 * (j_u (ti_core i) / u0 - #1)
     + j_area (ti_core i) * (j_P (ti_core i) / p0 - #1)) in
  let fan_nd := ti_through_fan i *
    (gamma * M0 * M0 * (j_u (ti_fan i) / u0 - #1)
     + j_area (ti_fan i) * (j_P (ti_fan i) / p0 - #1)) in
  let Thrust_nd := core_nd + fan_nd in
  let Fsp := #1 / (gamma * M0) * Thrust_nd in
  let Isp := Fsp * a0 * (#1 + bypass) / (f * g) in
  let TSFC := f * g / (Fsp * a0 * (#1 + bypass)) * (#1 - #(th_sfc_adj q)) * hour in
  let mdot := th_mdhc q * nsqrt (#(th_Tref q) / ti_Tref i) * (ti_Pref i / #(th_Pref q)) in
  let FD2 := Fsp * a0 * (#1 + bypass) * mdot * #(ti_engines i) * throttle in
  let fuel := nfmax (FD2 * TSFC / g) #0 * #1 / hour in
  ThrustO FD2 TSFC Fsp mdot fuel (FD2 * u0) Isp.
(** Thrust.size, lines 343-368 *)
Definition size_thrust (q : thrust_p) (s : stream) (x : flight) (i : thrust_i) : thrust_p :=
  let a0 := #(x_a x) in
  let Fsp := to_nd (thrust q s x i) in
  let mdot := #(th_design q) / (Fsp * a0 * (#1 + ti_bypass i) * #(ti_engines i) * #1) in
  let mdhc := mdot / (nsqrt (#(th_Tref q) / ti_Tref i) * (ti_Pref i / #(th_Pref q))) in
  ThrustP (th_Tref q) (th_Pref q) mdhc (th_sfc_adj q) (th_design q) mdot.

(** Converters/Shaft_Power_Off_Take.py 74-92: the settings and the work per unit of core
    mass flow *)
Record take_p := TakeP { sp_draw : R; sp_Tref : R; sp_Pref : R }.
Definition off_take (q : take_p) (mdhc : num) (i : station) : num :=
  if Req_EM_T (sp_draw q) 0 then #0
  else
    let mdot := mdhc * nsqrt (#(sp_Tref q) / tt i) * (pt i / #(sp_Pref q)) in
    match mdot with
    | Some m => if Req_EM_T m 0 then #0 else #(sp_draw q) / mdot
    | None => None
    end.

(** the parts of a turbofan.  [e_take] is the optional attribute Shaft_Power_Off_Take;
    [e_kept] is what the low-pressure turbine still has in inputs.shaft_power_off_take *)
Record turbofan := Turbofan {
  e_fluid : fluid; e_inlet : inlet_p; e_lpc : comp_p; e_hpc : comp_p; e_fan : comp_p;
  e_comb : comb_p; e_hpt : turb_p; e_lpt : turb_p; e_core : nozz_p; e_fann : nozz_p;
  e_thrust : thrust_p; e_bypass : R; e_engines : R;
  e_take : option take_p; e_kept : option num }.
(** what the components hold after an evaluation *)
Record cycle := Cycle {
  c_stream : stream; c_inlet : jet; c_lpc : comp_o; c_hpc : comp_o; c_fan : comp_o;
  c_comb : comb_o; c_hpt : turb_o; c_lpt : turb_o; c_core : jet; c_fann : jet;
  c_inputs : thrust_i; c_taken : option num }.
(** the chain of components, Networks/Turbofan.py 132-259 and, with [sizing], the same chain
    in Methods/Propulsion/turbofan_sizing.py 86-193, which has no shaft power off-take *)
Definition cycle_of (sizing : bool) (e : turbofan) (x : flight) : cycle :=
  let s := ram (e_fluid e) x in
  let i := inlet (e_inlet e) s x (ram_out s) in
  let lpc := compressor (e_lpc e) s (jet_out i) in
  let hpc := compressor (e_hpc e) s (comp_out lpc) in
  let fan := compressor (e_fan e) s (jet_out i) in
  let cb := combustor (e_comb e) #1 s (comp_out hpc) in
  let taken :=
    if sizing then e_kept e
    else match e_take e with
         | Some t => Some (off_take t (th_mdhc (e_thrust e)) (comp_out lpc))
         | None => e_kept e
         end in
  let hpt := turbine (e_hpt e) s (comb_out cb) #0 (cb_f cb) (co_work hpc) (co_work fan) None in
  let lpt := turbine (e_lpt e) s (turb_out hpt) #(e_bypass e) (cb_f cb) (co_work lpc)
                     (co_work fan) taken in
  let core := expansion (e_core e) s x (turb_out lpt) in
  let fann := expansion (e_fann e) s x (comp_out fan) in
  let b := #(e_bypass e) in
  Cycle s i lpc hpc fan cb hpt lpt core fann
    (ThrustI (cb_f cb) (co_Tt lpc) (co_Pt lpc) core fann (e_engines e) b
             (#1 / (#1 + b)) (b / (#1 + b))) taken.
(** what the network returns (thrust along the body x axis, fuel mass flow) *)
Record net_o := NetO { n_thrust : num; n_fuel : num }.
(** Networks/Turbofan.py 79-298 *)
Definition evaluate (e : turbofan) (x : flight) : net_o :=
  let c := cycle_of false e x in
  let o := thrust (e_thrust e) (c_stream c) x (c_inputs c) in
  NetO (to_thrust o) (to_fuel o).
(** the engine after an evaluation: only the off-take is remembered *)
Definition evaluated (e : turbofan) (x : flight) : turbofan :=
  Turbofan (e_fluid e) (e_inlet e) (e_lpc e) (e_hpc e) (e_fan e) (e_comb e) (e_hpt e)
    (e_lpt e) (e_core e) (e_fann e) (e_thrust e) (e_bypass e) (e_engines e) (e_take e)
    (c_taken (cycle_of false e x)).
Definition with_thrust (e : turbofan) (q : thrust_p) : turbofan :=
  Turbofan (e_fluid e) (e_inlet e) (e_lpc e) (e_hpc e) (e_fan e) (e_comb e) (e_hpt e)
    (e_lpt e) (e_core e) (e_fann e) q (e_bypass e) (e_engines e) (e_take e) (e_kept e).
(** Methods/Propulsion/turbofan_sizing.py 69-199: size the engine at flight conditions [x]
    (throttle 1); the sea-level evaluation of 224-260 follows on the sized engine *)
Definition sized (e : turbofan) (x : flight) : turbofan :=
  let c := cycle_of true e x in
  with_thrust e (size_thrust (e_thrust e) (c_stream c) x (c_inputs c)).
(** turbofan_sizing 258-260: sealevel_static_thrust, for the sea-level state [sls] *)
Definition sls_thrust (e : turbofan) (sls : flight) : num :=
  n_thrust (evaluate e sls) / #(e_engines e).

Definition at_throttle (t : R) (x : flight) : flight :=
  Flight (x_p x) (x_T x) (x_M x) (x_u x) (x_a x) (x_g x) t.
(** Networks/Turbofan.py 324-357 (and Turbojet_Super.py 275-308): engine_out over all control
    points; returns the results and the state the caller is left with.  [ev] is
    evaluate_thrust of the network *)
Definition engine_out (engines : R) (ev : list flight -> list net_o) (xs : list flight)
  : list net_o * list flight :=
  let temp := map x_throttle xs in
  let full := map (at_throttle 1) xs in
  let res := ev full in
  let back := map2 at_throttle temp full in
  (map (fun r => NetO (n_thrust r / #engines * (#engines - #1))
                      (n_fuel r / #engines * (#engines - #1))) res, back).

(** Networks/Turbojet_Super.py: the parts *)
Record turbojet := Turbojet {
  y_fluid : fluid; y_inlet : inlet_p; y_lpc : comp_p; y_hpc : comp_p; y_comb : comb_p;
  y_hpt : turb_p; y_lpt : turb_p; y_after : comb_p; y_active : bool; y_core : snoz_p;
  y_thrust : thrust_p; y_engines : R; y_after_nondim : R }.
(** jets that the sizing presets for engines without a fan (turbojet_sizing.py 168-171) *)
Definition no_jet : jet := Jet None None None None None None #0 #0 None #0.
(** the chain, Turbojet_Super.py 131-229.  Line 195 stores [1 + f] in inputs.nondim_ratio,
    which the combustor never reads; it reads inputs.nondim_mass_ratio ([y_after_nondim],
    1 unless the user sets it).  The turbines' fan work and bypass ratio are those of
    turbojet_sizing.py (none) *)
Record jcycle := JCycle {
  d_stream : stream; d_inlet : jet; d_lpc : comp_o; d_hpc : comp_o; d_comb : comb_o;
  d_hpt : turb_o; d_lpt : turb_o; d_after : comb_o; d_core : jet; d_inputs : thrust_i }.
Definition jcycle_of (e : turbojet) (x : flight) : jcycle :=
  let s := ram (y_fluid e) x in
  let i := inlet (y_inlet e) s x (ram_out s) in
  let lpc := compressor (y_lpc e) s (jet_out i) in
  let hpc := compressor (y_hpc e) s (comp_out lpc) in
  let cb := combustor (y_comb e) #1 s (comp_out hpc) in
  let hpt := turbine (y_hpt e) s (comb_out cb) #0 (cb_f cb) (co_work hpc) #0 None in
  let lpt := turbine (y_lpt e) s (turb_out hpt) #0 (cb_f cb) (co_work lpc) #0 None in
  let ab := combustor (y_after e) #(y_after_nondim e) s (turb_out lpt) in
  let core := supersonic (y_core e) s x
                (if y_active e then comb_out ab else turb_out lpt) in
  let f := if y_active e then cb_f cb + cb_f ab else cb_f cb in
  JCycle s i lpc hpc cb hpt lpt ab core
    (ThrustI f (co_Tt lpc) (co_Pt lpc) core no_jet (y_engines e) #0 #1 #0).
Definition jevaluate (e : turbojet) (x : flight) : net_o :=
  let c := jcycle_of e x in
  let o := thrust (y_thrust e) (d_stream c) x (d_inputs c) in
  NetO (to_thrust o) (to_fuel o).

(** Networks/Network.py 107-148: one network is a flag (has_additional_fuel_type) and the
    named results of its evaluate_thrust; the container's results *)
Record network := Net { w_extra : bool; w_results : list (string * R) }.
Definition look (k : string) (d : list (string * R)) : option R :=
  match find (fun e => String.eqb k (fst e)) d with Some e => Some (snd e) | None => None end.
(** setting an attribute of a Data: in place, or appended *)
Fixpoint put (k : string) (v : R) (d : list (string * R)) : list (string * R) :=
  match d with
  | [] => [(k, v)]
  | (k', v') :: d' => if String.eqb k k' then (k, v) :: d' else (k', v') :: put k v d'
  end.
Open Scope string_scope.
Definition thrust_key := "thrust_force_vector".
Definition mass_key := "vehicle_mass_rate".
Definition turn_key := "network_y_axis_rotation".
Definition extra_key := "vehicle_additional_fuel_rate".
Definition fuel_key := "vehicle_fuel_rate".
Close Scope string_scope.
(** lines 145-146: [None] is the KeyError *)
Fixpoint add_all (res : list (string * R)) (from : list (string * R))
  : option (list (string * R)) :=
  match res with
  | [] => Some []
  | (k, v) :: res' =>
      match look k from, add_all res' from with
      | Some w, Some rest => Some ((k, (v + w)%R) :: rest)
      | _, _ => None
      end
  end.
Definition one_net (acc : option (list (string * R))) (n : network)
  : option (list (string * R)) :=
  match acc with
  | None => None
  | Some res =>
      let res := if w_extra n then put fuel_key 0 (put extra_key 0 res) else res in
      add_all res (w_results n)
  end.
Definition all_nets (ns : list network) : option (list (string * R)) :=
  fold_left one_net ns (Some [(thrust_key, 0%R); (mass_key, 0%R); (turn_key, 0%R)]).

(** ** Shocks *)
Local Close Scope num_scope.
(** Methods/Propulsion/nozzle_calculations.py 96 *)
Definition normal_shock (M1 gamma : R) : R :=
  sqrt ((((gamma - 1) * M1 ^ 2) + 2) / (2 * gamma * M1 ^ 2 - (gamma - 1))).
(** Methods/Aerodynamics/Common/Gas_Dynamics/Oblique_Shock.py 49-58: Mach number, and ratios
    of static pressure, static temperature and stagnation pressure *)
Record shock := Shock { k_M : R; k_P : R; k_T : R; k_Pt : R }.
Definition oblique (M0 gamma theta beta : R) : shock :=
  let Mn := M0 * sin beta in
  let M1n := sqrt (((gamma - 1) * Mn * Mn + 2) / (2 * gamma * Mn * Mn - (gamma - 1))) in
  let Pr := (2 * gamma * Mn * Mn - (gamma - 1)) / (gamma + 1) in
  let Tr := Pr * ((((gamma - 1) * Mn * Mn) + 2) / ((gamma + 1) * Mn * Mn)) in
  let Ptr := Rpower (((gamma + 1) * Mn * Mn) / ((gamma - 1) * Mn * Mn + 2))
                    (gamma / (gamma - 1))
             * Rpower ((gamma + 1) / (2 * gamma * Mn * Mn - (gamma - 1)))
                      (1 / (gamma - 1)) in
  Shock (M1n / sin (beta - theta)) Pr Tr Ptr.
(** Oblique_Shock.py 85-95; [n = 0] is the weak shock *)
Definition wave_angle (M0 gamma theta : R) (n : nat) : R :=
  let mu := asin (1 / M0) in
  let c := tan mu * tan mu in
  let a := ((gamma - 1) / 2 + (gamma + 1) * c / 2) * tan theta in
  let b := ((gamma + 1) / 2 + (gamma + 3) * c / 2) * tan theta in
  let d := sqrt ((4 * (1 - 3 * a * b) ^ 3) / (27 * a * a * c + 9 * a * b - 2) ^ 2 - 1) in
  atan ((b + 9 * a * c) / (2 * (1 - 3 * a * b))
        - (d * (27 * a ^ 2 * c + 9 * a * b - 2)) / (6 * a * (1 - 3 * a * b))
          * tan (INR n * PI / 3 + 1 / 3 * atan (1 / d))).
(** Methods/Propulsion/shock_train.py 42-58: the temperature and stagnation-pressure ratios
    after a train of shocks with the turning angles [thetas] (theta[0], theta[1], ...) *)
Fixpoint shock_train_from (M0 gamma : R) (thetas : list R) (T_ratio Pt_ratio : R) : R * R :=
  match thetas with
  | [] => (T_ratio, Pt_ratio)
  | th :: rest =>
      let k := oblique M0 gamma th (wave_angle M0 gamma th 0) in
      shock_train_from (k_M k) gamma rest (T_ratio * k_T k) (Pt_ratio * k_Pt k)
  end.
Definition shock_train (M0 gamma : R) (thetas : list R) : R * R :=
  shock_train_from M0 gamma thetas 1 1.
