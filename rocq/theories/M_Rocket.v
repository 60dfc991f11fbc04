(** * Model: rockets, ramjets and scramjets

    One control point, as in M_Engine.  The reals replace floating-point numbers.  Where a
    component calls scipy's [fsolve], the model takes the Mach number it returns as an
    argument: the code's only demand on it is that it makes the residual vanish, and that is
    the hypothesis under which theorems use it. *)
From Coq Require Import Reals List String Bool.
From Verif Require Import PyBase M_Opt M_Engine.
Import ListNotations.
Local Open Scope R_scope.

(** ** Equations handed to the solver *)
(** Methods/Propulsion/fm_solver.py 37 *)
Definition fm_residual (area_ratio M0 gamma M1 : R) : R :=
  M0 / M1 * Rpower ((1 + (gamma - 1) / 2 * M1 * M1) / (1 + (gamma - 1) / 2 * M0 * M0))
                   ((gamma + 1) / (2 * (gamma - 1))) - area_ratio.
(** Methods/Propulsion/rayleigh.py 34 *)
Definition rayleigh_residual (gamma M0 TtR M1 : R) : R :=
  ((1 + gamma * M0 * M0) ^ 2 * M1 * M1 * (1 + (gamma - 1) / 2 * M1 * M1))
  / ((1 + gamma * M1 * M1) ^ 2 * M0 * M0 * (1 + (gamma - 1) / 2 * M0 * M0)) - TtR.
(** rayleigh.py 53, the stagnation-pressure ratio for the Mach number found *)
Definition rayleigh_Ptr (gamma M0 M1 : R) : R :=
  (1 + gamma * M0 * M0) / (1 + gamma * M1 * M1)
  * Rpower ((1 + (gamma - 1) / 2 * M1 * M1) / (1 + (gamma - 1) / 2 * M0 * M0))
           (gamma / (gamma - 1)).
(** Methods/Propulsion/nozzle_calculations.py 67 (mach_area) *)
Definition mach_area_residual (area_ratio gamma Me : R) : R :=
  area_ratio ^ 2
  - (1 / Me) ^ 2 * Rpower ((2 / (gamma + 1)) * (1 + ((gamma - 1) / 2) * Me ^ 2))
                          ((gamma + 1) / (gamma - 1)).
(** nozzle_calculations.py 123 (pressure_ratio_isentropic, given the Mach number) *)
Definition pressure_ratio_isentropic (gamma Me : R) : R :=
  Rpower (1 + ((gamma - 1) / 2) * Me ^ 2) (- gamma / (gamma - 1)).
(** nozzle_calculations.py 148-150 (pressure_ratio_shock_in_nozzle, given the Mach number) *)
Definition pressure_ratio_shock (area_ratio gamma Me : R) : R :=
  let M2 := normal_shock Me gamma in
  / (area_ratio * Rpower ((gamma + 1) / 2) ((gamma + 1) / (2 * (gamma - 1))) * M2
     * Rpower (1 + ((gamma - 1) / 2) * M2 ^ 2) (1 / 2)).

(** ** Liquid rocket *)
(** Converters/Rocket_Combustor.py 93-105: what it hands on *)
Record chamber := Chamber { ch_P : R; ch_T : R; ch_gamma : R; ch_R : R }.
(** Converters/de_Laval_Nozzle.py 54-61, 113-116: [pressure_ratio] is not among the defaults *)
Record laval := Laval {
  la_converge : option R; la_diverge : option R; la_pressure_ratio : option R;
  la_eff : R; la_expansion : R; la_throat : R }.
(** de_Laval_Nozzle.py 123-130: the state in the throat *)
Record gas := Gas { ga_Pt : R; ga_Tt : R; ga_M : R; ga_P : R; ga_T : R; ga_U : R; ga_rho : R }.
Definition throat (c : chamber) (pi eta : R) : gas :=
  let gamma := ch_gamma c in
  let Pt := ch_P c * pi in
  let Tt := ch_T c * Rpower pi ((gamma - 1) / gamma * eta) in
  let T := Tt / (1 + (gamma - 1) / 2) in
  let P := Pt / Rpower (1 + (gamma - 1) / 2) (gamma / (gamma - 1)) in
  Gas Pt Tt 1 P T (sqrt (gamma * ch_R c * T)) (P / (ch_R c * T)).
(** de_Laval_Nozzle.py 134-144: the state in the exit; [Me] is fm_solver's answer (138) *)
Definition exit (c : chamber) (pi eta Me : R) : gas :=
  let gamma := ch_gamma c in
  let t := throat c pi eta in
  let Pt := ga_Pt t * pi in
  let Tt := ga_Tt t * Rpower pi ((gamma - 1) / gamma * eta) in
  let T := Tt / (1 + (gamma - 1) / 2 * Me * Me) in
  let P := Pt / Rpower (1 + (gamma - 1) / 2 * Me * Me) (gamma / (gamma - 1)) in
  Gas Pt Tt Me P T (Me * sqrt (gamma * ch_R c * T)) (P / (ch_R c * T)).
(** de_Laval_Nozzle.py 107-157: reading a pressure ratio that was never set fails *)
Definition nozzle (c : chamber) (n : laval) (Me : R) : result gas :=
  match la_pressure_ratio n with
  | Some pi => Ok (exit c pi (la_eff n) Me)
  | None => Err AttributeError
  end.
(** Processes/Rocket_Thrust.py 95-132 *)
Record ambient := Ambient { am_p : R; am_g : R; am_throttle : R }.
Record rocket_out := RocketOut { ro_thrust : R; ro_mdot : R; ro_isp : R }.
Definition clip0 (x : R) : R := if Rltb x 0 then 0 else x.
Definition rocket_thrust (a : ambient) (gamma area_throat expansion engines : R) (e : gas) : rocket_out :=
  let gmm := gamma * ga_M e * ga_M e in
  let C := ga_U e * (1 + 1 / gmm * (1 - am_p a / ga_P e)) in
  let Ae := area_throat * expansion in
  let mdot := am_throttle a * ga_rho e * ga_U e * Ae in
  RocketOut (clip0 (engines * mdot * C)) (clip0 mdot) (C / am_g a).
(** the thrust component's design values (Rocket_Thrust.py 162-177) and the network
    (Networks/Liquid_Rocket.py) *)
Record rocket := Rocket {
  rk_chamber : chamber; rk_nozzle : laval; rk_engines : R;
  rk_design : R; rk_isp_design : R; rk_mass_flow : option R }.
(** Networks/Liquid_Rocket.py 92-133 (the axial component of the force vector) *)
Definition evaluate_rocket (r : rocket) (a : ambient) (Me : R) : result rocket_out :=
  match nozzle (rk_chamber r) (rk_nozzle r) Me with
  | Ok e => Ok (rocket_thrust a (ch_gamma (rk_chamber r)) (la_throat (rk_nozzle r))
                              (la_expansion (rk_nozzle r)) (rk_engines r) e)
  | Err x => Err x
  end.
(** Processes/Rocket_Thrust.py 162-177 *)
Definition size_thrust (r : rocket) (a : ambient) : rocket :=
  Rocket (rk_chamber r) (rk_nozzle r) (rk_engines r) (rk_design r) (rk_isp_design r)
         (Some (rk_design r / (rk_isp_design r * am_g a) * rk_engines r)).
(** Methods/Propulsion/liquid_rocket_sizing.py 18-110: [conditions] given by the caller, or
    built from an altitude by [atmo]; [planet] is bound only in the second case and line 101
    reads it.  Returns the sized network and its sea-level static thrust per engine. *)
Definition liquid_rocket_sizing (atmo : R -> ambient) (sls : ambient) (r : rocket)
    (conditions : option ambient) (altitude : option R) (Me : R) : result (rocket * R) :=
  match conditions with
  | Some c =>
      match nozzle (rk_chamber r) (rk_nozzle r) Me with
      | Ok _ => Err UnboundLocalError
      | Err x => Err x
      end
  | None =>
      match altitude with
      | None => Err NameError
      | Some h =>
          match nozzle (rk_chamber r) (rk_nozzle r) Me with
          | Err x => Err x
          | Ok _ =>
              let r' := size_thrust r (atmo h) in
              match evaluate_rocket r' sls Me with
              | Ok o => Ok (r', ro_thrust o / rk_engines r)
              | Err x => Err x
              end
          end
      end
  end.

(** ** Ramjet combustor: Converters/Combustor.py 198-252 (compute_rayleigh) *)
Record burner := Burner { bu_Tt4 : R; bu_eff : R; bu_fuel : R; bu_area : R }.
Record burned := Burned { bd_Tt : R; bd_Pt : R; bd_ht : R; bd_f : R; bd_M : R }.
(** Combustor.py 225 *)
Definition choking_Tt (gamma M Tt_in : R) : R :=
  Tt_in * (1 + gamma * M * M) ^ 2 / ((2 * (1 + gamma) * M * M) * (1 + (gamma - 1) / 2 * M * M)).
(** Combustor.py 228-229 *)
Definition burner_Tt4 (b : burner) (gamma M Tt_in : R) : R :=
  let ray := choking_Tt gamma M Tt_in in if Rltb (bu_Tt4 b) ray then bu_Tt4 b else ray.
(** Combustor.py 222-252; [M] is fm_solver's answer (222), [M_out] the one of rayleigh (232) *)
Definition burn (b : burner) (gamma Cp Tt_in Pt_in M M_out : R) : burned :=
  let Tt4 := burner_Tt4 b gamma M Tt_in in
  Burned Tt4 (rayleigh_Ptr gamma M M_out * Pt_in) (Cp * Tt4)
         ((Cp * Tt4 - Cp * Tt_in) / (bu_eff b * bu_fuel b - Cp * Tt4)) M_out.

(** ** Ramjet nozzle: Converters/Supersonic_Nozzle.py 230-337 (compute_limited_geometry) *)
Record limited := Limited { li_pid : R; li_eff : R; li_max : R; li_min : R }.
(** the answers of mach_area for the mean area ratio (subsonic, supersonic: 261-263) and for
    the largest and smallest one (264-265) *)
Record machs := Machs { ma_sub : R; ma_sup : R; ma_max : R; ma_min : R }.
(** Supersonic_Nozzle.py 298, 303, 308, 313, 318 *)
Definition mach_from (gamma Pt P : R) : num :=
  nsqrt (Some ((Rpower (Pt / P) ((gamma - 1) / gamma) - 1) * 2 / (gamma - 1))).
(** Supersonic_Nozzle.py 252-319: exit pressure and Mach number; the masks are applied in
    turn, so that of overlapping ones the last wins.  269, 271: both start as 1. *)
Definition limited_exit (gamma Po Pt_out : R) (l : limited) (m : machs) : R * num :=
  let area := (li_max l + li_min l) / 2 in
  let sub := pressure_ratio_isentropic gamma (ma_sub m) in
  let shock := pressure_ratio_shock area gamma (ma_sup m) in
  let sup_max := pressure_ratio_isentropic gamma (ma_max m) in
  let sup_min := pressure_ratio_isentropic gamma (ma_min m) in
  let q := Po / Pt_out in
  let P0 := 1 in let M0 := Some 1 in
  let '(P1, M1) := if negb (Rltb q sub) then (Po, mach_from gamma Pt_out Po) else (P0, M0) in
  let '(P2, M2) := if Rltb q sub && negb (Rltb q shock)
                   then (Po, mach_from gamma Pt_out Po) else (P1, M1) in
  let '(P3, M3) := if Rltb q shock && Rltb sup_min q
                   then (sup_min * Pt_out, mach_from gamma Pt_out (sup_min * Pt_out)) else (P2, M2) in
  let '(P4, M4) := if negb (Rltb sup_min q) && negb (Rltb q sup_max)
                   then (Po, mach_from gamma Pt_out Po) else (P3, M3) in
  if Rltb q sup_max
  then (sup_max * Pt_out, mach_from gamma Pt_out (sup_max * Pt_out)) else (P4, M4).
(** Supersonic_Nozzle.py 252-253, 299.., 322-337 *)
Definition limited_nozzle (l : limited) (gamma Cp r Po Tt_in Pt_in : R) (m : machs) : jet :=
  let Pt_out := Pt_in * li_pid l in
  let Tt_out := Tt_in * Rpower (li_pid l) ((gamma - 1) / gamma * li_eff l) in
  let '(P, M) := limited_exit gamma Po Pt_out l m in
  let A := ndiv (Some 1) (fm_id M (Some gamma)) in
  let T := ndiv (Some Tt_out) (nadd (Some 1) (nmul (nmul (Some ((gamma - 1) / 2)) M) M)) in
  Jet (Some Tt_out) (Some Pt_out) (Some (Cp * Tt_out)) M T (nmul (Some Cp) T)
      (nmul M (nsqrt (nmul (Some (gamma * r)) T))) (Some P)
      (ndiv (Some P) (nmul (Some r) T)) A.

(** ** Scramjet *)
(** Converters/Compression_Nozzle.py 249-274 (compute_scramjet) *)
Record air := Air { ai_gamma : R; ai_cp : R; ai_R : R; ai_p : R; ai_T : R; ai_M : R; ai_u : R; ai_a : R }.
Record inflow := Inflow { if_Tt : R; if_Pt : R; if_M : R; if_T : R; if_P : R; if_u : R }.
Definition scramjet_inlet (x : air) (eta : R) (thetas : list R) (Tt Pt : R) : inflow :=
  let '(psi, Ptr) := shock_train (ai_M x) (ai_gamma x) thetas in
  let T := psi * ai_T x in
  Inflow Tt (Ptr * Pt)
    (sqrt (2 / (ai_gamma x - 1) * (ai_T x / T * (1 + (ai_gamma x - 1) / 2 * ai_M x * ai_M x) - 1)))
    T (ai_p x * Rpower (psi / (psi * (1 - eta) + eta)) (ai_cp x / ai_R x))
    (sqrt (ai_u x * ai_u x - 2 * ai_cp x * ai_T x * (psi - 1))).
(** Converters/Combustor.py 306-357 (compute_supersonic_combustion) *)
Record scram := Scram {
  sc_fuel : R; sc_eff : R; sc_axial : R; sc_ratio : R; sc_drag : R; sc_hf : R; sc_phi : R; sc_stoich : R }.
Record hot := Hot { ho_Tt : R; ho_Pt : R; ho_f : R; ho_T : R; ho_P : R; ho_V : R; ho_M : R; ho_cp : R; ho_gamma : R }.
Definition supersonic_combustion (s : scram) (x : air) (i : inflow) : hot :=
  let cp := ai_cp x * (145 / 100) in
  let gamma := (cp / ai_R x) / (cp / ai_R x - 1) in
  let f := sc_phi s * sc_stoich s in
  let V := if_u i * ((1 + f * sc_axial s) / (1 + f) - sc_drag s / (2 * (1 + f))) in
  let T := (if_T i / (1 + f))
           * (1 + 1 / (cp * if_T i)
                  * (sc_eff s * f * sc_fuel s + f * sc_hf s + f * cp * ai_T x
                     + (1 + f * sc_ratio s * sc_ratio s) * if_u i * if_u i / 2))
           - V * V / (2 * cp) in
  let M := V / sqrt (gamma * ai_R x * T) in
  let Tt := T * (1 + (gamma - 1) / 2) * M * M in
  let Pt := if_Pt i
            * Rpower (((gamma + 1) * M ^ 2) / ((gamma - 1) * M ^ 2 + 2)) (gamma / (gamma - 1))
            * Rpower ((gamma + 1) / (2 * gamma * M ^ 2 - (gamma - 1))) (1 / (gamma - 1)) in
  Hot Tt Pt f T (if_P i) V M cp gamma.
(** Converters/Supersonic_Nozzle.py 405-419 (compute_scramjet); [cp], [gamma] are inputs *)
Record plume := Plume { pl_Tt : R; pl_Pt : R; pl_T : R; pl_P : R; pl_u : R; pl_area : R; pl_M : R }.
Definition scramjet_nozzle (eta expansion : R) (x : air) (h : hot) (cp gamma : R) : plume :=
  let P := ai_p x * expansion in
  let T := ho_T h * (1 - eta * (1 - Rpower ((P / ai_p x) * (ai_p x / ho_P h)) (ai_R x / cp))) in
  let u := sqrt (ho_V h * ho_V h + 2 * cp * (ho_T h - T)) in
  let area := (1 + ho_f h) * (ai_p x / P) * (T / ai_T x) * (ai_u x / u) in
  Plume (ho_Tt h) (ho_Pt h) T P u area (u / sqrt (gamma * ai_R x * T)).
(** Processes/Thrust.py 261-314 (compute_stream_thrust): [Tt_ref], [Pt_ref] are
    inputs.total_temperature_reference and total_pressure_reference *)
Record st_out := StOut { so_thrust : R; so_tsfc : R; so_nd : R; so_mdot : R; so_fuel : R; so_power : R; so_isp : R }.
Record st_set := StSet { ss_Tref : R; ss_Pref : R; ss_mdhc : R; ss_design : R }.
Definition stream_thrust (q : st_set) (x : air) (g throttle engines f Tt_ref Pt_ref : R) (p : plume) : st_out :=
  let Sa0 := ai_u x * (1 + ai_R x * ai_T x / ai_u x ^ 2) in
  let Sa10 := pl_u p * (1 + ai_R x * pl_T p / pl_u p ^ 2) in
  let Fsp := ((1 + f) * Sa10 - Sa0 - ai_R x * ai_T x / ai_u x * (pl_area p - 1)) / ai_a x in
  let tsfc := f * g / (Fsp * ai_a x) in
  let mdot := ss_mdhc q * sqrt (ss_Tref q / Tt_ref) * (Pt_ref / ss_Pref q) in
  let FD := Fsp * ai_a x * mdot * engines * throttle in
  StOut FD tsfc Fsp mdot (Rmax (FD * tsfc / g) 0) (FD * ai_u x) (Fsp * ai_a x / (f * g)).
(** Processes/Thrust.py 404-429 (size_stream_thrust): the new compressor_nondimensional_massflow *)
Definition size_stream (q : st_set) (x : air) (g throttle engines f Tt_ref Pt_ref : R) (p : plume) : st_set :=
  let Fsp := so_nd (stream_thrust q x g throttle engines f Tt_ref Pt_ref p) in
  let mdot := ss_design q / (Fsp * ai_a x * engines * 1) in
  StSet (ss_Tref q) (ss_Pref q) (mdot / (sqrt (ss_Tref q / Tt_ref) * (Pt_ref / ss_Pref q))) (ss_design q).
(** a scramjet network: its parts; whether the nozzle's inputs are the combustor's outputs (the
    same object, after Methods/Propulsion/scramjet_sizing.py 97), and the reference stagnation
    state its thrust component remembers (scramjet_sizing.py 105-106) *)
Record scramjet := Scramjet {
  sj_eta : R; sj_thetas : list R; sj_burner : scram; sj_nozzle_eta : R; sj_expansion : R;
  sj_engines : R; sj_set : st_set;
  sj_linked : bool; sj_ref : option (R * R) }.
(** the stagnation state delivered by the Ram (Ram.py 97-128) *)
Definition ram_Tt (x : air) : R := ai_T x * (1 + (ai_gamma x - 1) / 2 * ai_M x * ai_M x).
Definition ram_Pt (x : air) : R :=
  ai_p x * Rpower (1 + (ai_gamma x - 1) / 2 * ai_M x * ai_M x) (ai_gamma x / (ai_gamma x - 1)).
Definition flame (j : scramjet) (x : air) : hot :=
  supersonic_combustion (sj_burner j) x
    (scramjet_inlet x (sj_eta j) (sj_thetas j) (ram_Tt x) (ram_Pt x)).
(** Networks/Scramjet.py 111-169: the nozzle's specific heat and the reference stagnation state
    are read, not set (126-131, 147-148 set other names); the first comes through the shared
    object, if there is one *)
Definition evaluate_scramjet (j : scramjet) (x : air) (g throttle : R) : result st_out :=
  let h := flame j x in
  if sj_linked j then
    let p := scramjet_nozzle (sj_nozzle_eta j) (sj_expansion j) x h (ho_cp h) (ho_gamma h) in
    match sj_ref j with
    | None => Err AttributeError
    | Some (Tt, Pt) => Ok (stream_thrust (sj_set j) x g throttle (sj_engines j) (ho_f h) Tt Pt p)
    end
  else Err AttributeError.
(** scramjet_sizing.py 77-119 *)
Definition size_scramjet (j : scramjet) (x : air) (g : R) : scramjet :=
  let h := flame j x in
  let p := scramjet_nozzle (sj_nozzle_eta j) (sj_expansion j) x h (ho_cp h) (ho_gamma h) in
  Scramjet (sj_eta j) (sj_thetas j) (sj_burner j) (sj_nozzle_eta j) (sj_expansion j) (sj_engines j)
    (size_stream (sj_set j) x g 1 (sj_engines j) (ho_f h) (pl_Tt p) (pl_Pt p) p)
    true (Some (pl_Tt p, pl_Pt p)).

(** ** Emissions: Methods/Propulsion/turbofan_emission_index.py 53-87.  [p3] in psi, [T3], [T4]
    in degrees Rankine, one per control point; [I] is one row of the integration matrix *)
Definition nox_index (p3 T3 T4 : R) : R :=
  4194 / 1000000 * T4 * Rpower (p3 / 439) (37 / 100) * exp ((T3 - 1471) / 345) * (1 / 1000).
Definition dot (u v : list R) : R := fold_right Rplus 0 (map2 Rmult u v).
Record emission := Emission { em_nox : R; em_co2 : R; em_h2o : R; em_so2 : R }.
Definition emission_total (I mdot nox : list R) : emission :=
  Emission (dot I (map2 Rmult mdot nox)) (dot I (map (fun m => m * (3155 / 1000)) mdot))
           (dot I (map (fun m => m * (1240 / 1000)) mdot)) (dot I (map (fun m => m * (8 / 10000)) mdot)).
