(** * Cryogenic coolers, coolants, current leads, dynamos and superconducting rotors
    CM = trunk/SUAVE/Methods/Cryogenics/Cryocooler/cryocooler_model.py, CU = Methods/Weights/Cooling/Cryogen/Consumption/Coolant_use.py,
    LC = Methods/Cryogenics/Leads/lead_calculations.py, CL = Components/Energy/Distributors/Cryogenic_Lead.py,
    DE = Methods/Cryogenics/Dynamo/dynamo_efficiency.py, DB = Distributors/HTS_DC_Dynamo_Basic.py, DS = Distributors/HTS_Dynamo_Supply.py,
    PS = Distributors/HTS_DC_Supply.py, MR = Converters/Motor_HTS_Rotor.py, HX = Energy/Cooling/Cryogenic_Heat_Exchanger.py,
    H2 = Attributes/Cryogens/Liquid_H2.py
    Floats are reals, scipy's quad is the Riemann integral; warnings printed are left out. *)
From Coq Require Import Reals List Bool.
From Coquelicot Require Import Hierarchy RInt.
From Verif Require Import PyBase M_Opt P_Opt.
Import ListNotations.
Local Open Scope R_scope.

(** scipy.integrate.quad(f, a, b)[0] *)
Definition quad (f : R -> R) (a b : R) : R := RInt (V := R_CompleteNormedModule) f a b.

(** ** The cryocooler *)
(** CM 82-112: the kinds of cooler known; anything else is [Other] *)
Inductive cooler := FPS | GM | SPT | DPT | Other.
(** CM 84,92,100,108 *)
Definition room_min (k : cooler) : R := match k with FPS => 35 | GM => 54 / 10 | SPT => 16 | DPT => 8 | Other => 0 end.
(** CM 86,94,102,110 *)
Definition slope (k : cooler) : R := match k with FPS => 14 / 10000 | GM => 5 / 10000 | SPT => 2 / 10000 | DPT => 1 / 100000 | Other => 0 end.
(** CM 88,96,104,112 *)
Definition cooler_mass (k : cooler) (p : R) : R := match k with
  | FPS => 98 / 10000 * p + 10769 / 10000 | GM => 129 / 10000 * p + 6308 / 100 | SPT => 79 / 10000 * p + 51124 / 1000
  | DPT => 111 / 10000 * p + 73809 / 1000 | Other => 0 end.
(** CM 53-55: one point of the arrays handed in *)
Record cpoint := CP { cp_amb : R; cp_load : R; cp_tgt : R }.
(** CM 59-62: one target below 1 K lifts every target to 5 K or more *)
Definition targets (l : list cpoint) : list cpoint :=
  if existsb (fun p => Rltb (cp_tgt p) 1) l then map (fun p => CP (cp_amb p) (cp_load p) (Rmax (cp_tgt p) 5)) l else l.
(** CM 70,85: [temp_diff] (73-79) is never used again and is left out *)
Definition temp_min (k : cooler) (amb : R) : R := room_min k - (29215 / 100 - amb).
(** CM 86-88: a zero efficiency gives inf or nan, here [None] *)
Definition cool_point (k : cooler) (p : cpoint) : option (R * R) :=
  let eff := slope k * (cp_tgt p - temp_min k (cp_amb p)) in
  if Req_EM_T eff 0 then None else Some (cp_load p / eff, cooler_mass k (cp_load p / eff)).
(** CM 117, 122-131 *)
Inductive reply := Zeros | Unreachable | Powers (l : list (option (R * R))).
(** CM 23-131 (arrays of one point or more) *)
Definition cryocooler (k : cooler) (l : list cpoint) : reply :=
  let l := targets l in
  match k with Other => Zeros | _ =>
    if existsb (fun p => Rltb (cp_tgt p - temp_min k (cp_amb p)) 0) l then Unreachable else Powers (map (cool_point k) l) end.

(** ** The coolant *)
(** H2 56-91 *)
Record cryogen := Cryogen { lc0 : R; lc1 : R; lc2 : R; lc3 : R; gc0 : R; gc1 : R; gc2 : R; gc3 : R;
  an_a : R; an_b : R; an_c : R; h0 : R; h1 : R; h2 : R; h3 : R }.
Definition liquid_h2 : cryogen := Cryogen (- 312 / 10) (556 / 100) (- 272 / 1000) (476 / 100000)
  (103 / 10) (- 739 / 100000) (221 / 1000000) (- 516 / 1000000000) (854314 / 100000) (99395 / 1000) (7726 / 1000)
  464 (- 176 / 1000000) (523 / 10000000000000) (- 100 / 1000000000000000000).
Definition cubic (c0 c1 c2 c3 t : R) : R := c3 * t ^ 3 + c2 * t ^ 2 + c1 * t + c0.
(** CU 71, 76, 81 *)
Definition liquid_cp (g : cryogen) := cubic (lc0 g) (lc1 g) (lc2 g) (lc3 g).
Definition gas_cp (g : cryogen) := cubic (gc0 g) (gc1 g) (gc2 g) (gc3 g).
Definition latent (g : cryogen) := cubic (h0 g) (h1 g) (h2 g) (h3 g).
(** CU 42, positive pressures *)
Definition boil_temp (g : cryogen) (p : R) : R := an_b g / (an_a g - ln p / ln 10) - an_c g.
(** CU 45-84: the heat, in J, that one kilogram takes up *)
Definition heat_per_kg (g : cryogen) (t_in t_out p : R) : R :=
  let b := boil_temp g p in
  let gas := Rltb b t_out in let liq := Rltb t_in b in
  let l := if liq then quad (liquid_cp g) t_in (if gas then b else t_out) else 0 in
  let s := if gas then quad (gas_cp g) (if liq then b else t_in) t_out else 0 in
  let e := if (gas && liq)%bool then latent g p else 0 in
  1000 * (l + e + s).
(** CU 87; HX 91-105 stores and returns the same number. A numpy load over zero gives inf, here the error *)
Definition coolant_use (g : cryogen) (t_in t_out load p : R) : result R :=
  let h := heat_per_kg g t_in t_out p in if Req_EM_T h 0 then Err ZeroDivisionError else Ok (load / h).

(** ** The current lead *)
Record material := Mat { m_k : R -> R; m_s : R -> R; m_rho : R }.
(** LC 48: the value, where the temperatures differ *)
Definition q_val (m : material) (c h i : R) : R :=
  i * sqrt (2 * (1 / (h - c) * quad (fun t => m_k m t / m_s m t) c h) * (h - c)).
(** LC 25-59: a negative base makes python answer with a complex number, here a TypeError *)
Definition q_min (m : material) (c h i : R) : result R :=
  if Req_EM_T (h - c) 0 then Err ZeroDivisionError
  else if Rltb (2 * (1 / (h - c) * quad (fun t => m_k m t / m_s m t) c h) * (h - c)) 0 then Err TypeError
  else Ok (q_val m c h i).
(** scipy.misc.derivative with its default step of 1 *)
Definition derivative (f : R -> R) (x : R) : R := (f (x + 1) - f (x - 1)) / 2.
(** LC 61-89: quad does not evaluate its end points *)
Definition la_ratio (m : material) (c h i q : R) : result R :=
  if Req_EM_T (i ^ 2) 0 then Err ZeroDivisionError
  else Ok ((m_s m c * q + quad (fun t => q_val m t h i * derivative (m_s m) t) c h) / i ^ 2).
(** CL 49-62; [le_un] is outputs.unpowered_Q and [le_own] the attribute unpowered_Q written at CL 118 *)
Record lead := Lead { le_cold : R; le_hot : R; le_cur : R; le_len : R; le_mat : material; le_mass : R;
  le_area : R; le_opt : R; le_min : R; le_un : R; le_q : R; le_own : option R }.
(** CL 49-62 with the user's temperatures, current, length and material *)
Definition new_lead (c h i l : R) (m : material) : lead := Lead c h i l m 0 0 0 0 0 0 None.
(** CL 120-166 *)
Definition q_unpowered (l : lead) : result (R * R) :=
  if Req_EM_T (le_len l) 0 then Err ZeroDivisionError else Ok (quad (m_k (le_mat l)) (le_cold l) (le_hot l) * le_area l / le_len l, 0).
(** CL 64-118 *)
Definition initialize_lead (l : lead) : result lead :=
  bind (q_min (le_mat l) (le_cold l) (le_hot l) (le_cur l)) (fun q =>
  bind (la_ratio (le_mat l) (le_cold l) (le_hot l) (le_cur l) q) (fun la =>
  if Req_EM_T la 0 then Err ZeroDivisionError else
  let a := le_len l / la in
  let l1 := Lead (le_cold l) (le_hot l) (le_cur l) (le_len l) (le_mat l) (a * le_len l * m_rho (le_mat l)) a (le_cur l) q (le_un l) (le_q l) (le_own l) in
  bind (q_unpowered l1) (fun u =>
  Ok (Lead (le_cold l1) (le_hot l1) (le_cur l1) (le_len l1) (le_mat l1) (le_mass l1) (le_area l1) (le_opt l1) (le_min l1) (le_un l1) (fst u) (Some (fst u)))))).
(** LC 148-157 *)
Definition test_length (l : lead) (i tm : R) : result (R * R * R) :=
  bind (q_min (le_mat l) (le_hot l) tm i) (fun wq =>
  bind (la_ratio (le_mat l) (le_hot l) tm i wq) (fun wl =>
  bind (q_min (le_mat l) (le_cold l) tm i) (fun cq =>
  bind (la_ratio (le_mat l) (le_cold l) tm i cq) (fun cl =>
  Ok (wq, cq, le_area l * wl + le_area l * cl))))).
(** LC 146-175: [None] while the loop still runs after n rounds *)
Fixpoint lead_loop (n : nat) (l : lead) (i tm diff : R) (over : bool) : option (result (R * R)) :=
  match n with O => None | S n =>
    match test_length l i tm with
    | Err e => Some (Err e)
    | Ok (wq, cq, tl) =>
      if Req_EM_T (le_len l) 0 then Some (Err ZeroDivisionError) else
      let error := Rabs ((tl - le_len l) / le_len l) in
      let '(tm', diff', over') :=
        if Rltb (le_len l) tl then (if over then (tm + diff, diff, true) else (2 * tm, tm, false)) else (tm - diff, diff, true) in
      if Rltb (1 / 100) error then lead_loop n l i tm' (1 / 2 * diff') over' else Some (Ok (cq, wq + cq))
    end
  end.
(** LC 91-177: heat at the cold end and electrical power *)
Definition calc_current (n : nat) (l : lead) (i : R) : option (result (R * R)) :=
  if Rltb (le_opt l) i then lead_loop n l i (2 * le_hot l) (le_hot l) false
  else if Req_EM_T (le_opt l) 0 then Some (Err ZeroDivisionError)
  else Some (Ok (le_un l + i / le_opt l * (le_min l - le_un l), le_min l / le_opt l ^ 2 * i ^ 2)).

(** ** The dynamo, its supply and the rotor *)
(** DB 52-54 *)
Record dynamo := Dynamo { dy_eff : R; dy_cur : R }.
(** DE 19-49: [None] stands for the single 0 returned when any current is out of range *)
Definition efficiency_curve (d : dynamo) (xs : list R) : option (list R) :=
  if existsb (fun x => (Rltb (dy_cur d * (18 / 10)) x || Rltb x (dy_cur d * (2 / 10)))%bool) xs then None
  else Some (map (fun x => - (dy_eff d / dy_cur d ^ 2) * (x - dy_cur d) ^ 2 + dy_eff d) xs).
(** numpy's quotient: [None] is inf or nan *)
Definition quo (a b : R) : option R := if Req_EM_T b 0 then None else Some (a / b).
Definition effs (d : dynamo) (xs : list R) : list R := match efficiency_curve d xs with Some es => es | None => map (fun _ => 0) xs end.
(** DB 63-108 *)
Definition shaft_power (d : dynamo) (xs outs : list R) : list (option R * option R) :=
  map2 (fun e o => let i := if Req_EM_T o 0 then Some 0 else quo o e in (i, match i with Some p => Some (p - o) | None => None end)) (effs d xs) outs.
(** DS 59-104: the speed (93-94) is not used *)
Definition dynamo_supply (d : dynamo) (rpm : R) (xs outs : list R) : list (option R) := map2 (fun e o => quo o e) (effs d xs) outs.
(** PS 74-84 *)
Definition supply_power (eff out : R) : result R := if Req_EM_T eff 0 then Err ZeroDivisionError else Ok (out / eff).
(** MR 52-62 *)
Record rotor := Rotor { ro_temp : R; ro_res : R; ro_area : R; ro_rval : R }.
(** MR 68-126: coil power, coil voltage and heat load *)
Definition rotor_power (r : rotor) (cur amb : R) : result (R * R * R) :=
  if Req_EM_T (ro_area r) 0 then Err ZeroDivisionError else if Req_EM_T (ro_rval r / ro_area r) 0 then Err ZeroDivisionError else
  let p := ro_res r * cur ^ 2 in Ok (p, cur * ro_res r, p + (amb - ro_temp r) / (ro_rval r / ro_area r)).
