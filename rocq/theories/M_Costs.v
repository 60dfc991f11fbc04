(** * Industrial costs

    Sources under /repo/trunk/SUAVE/Methods/Costs/Correlations/Industrial_Costs:
      IC = compute_industrial_costs.py, DN = distribute_non_recurring_cost.py, EF = estimate_escalation_factor.py, HR = estimate_hourly_rates.py
    Numbers are reals and powers of 0 are 0; development_total_years is a natural number (the code truncates); strings are lower case. *)
From Coq Require Import Reals List Bool Arith String.
From Verif Require Import PyBase M_Opt M_Drag M_Field.
Import ListNotations.
Local Open Scope R_scope.
Local Open Scope list_scope.

(** EF 34-37 *)
Definition escalation_table : list (R * R) := [(1915, 33 / 500); (1920, 29 / 250); (1925, 13 / 125); (1930, 101 / 1000); (1935, 83 / 1000); (1940, 93 / 1000); (1945, 113 / 1000); (1950, 153 / 1000); (1955, 79 / 500); (1960, 91 / 500); (1965, 97 / 500); (1970, 47 / 200); (1975, 63 / 200); (1980, 259 / 500); (1985, 651 / 1000); (1990, 159 / 200); (1998, 1); (2000, 131 / 125); (2005, 1189 / 1000); (2010, 166 / 125); (2015, 1451 / 1000); (2020, 379 / 250); (2025, 1581 / 1000); (2030, 1647 / 1000); (2035, 214 / 125); (2040, 1777 / 1000); (2100, 5 / 2)].
Definition escalation (year : R) : R := interp year escalation_table.
(** HR 41-44 *)
Record hourly := { h_engineering : R; h_tooling : R; h_manufacturing : R; h_quality : R }.
Definition hourly_rates (year : R) : hourly :=
  {| h_engineering := 2576 / 1000 * year - 5058; h_tooling := 2883 / 1000 * year - 5666; h_manufacturing := 2316 / 1000 * year - 4552; h_quality := 2600 / 1000 * year - 5112 |}.
(** IC 85-130: what is read; empty weight in pounds, thrust in pounds of force *)
Record program := { p_year : R; p_units : R; p_amortize : option R; p_prototypes : R; p_years : nat; p_type : string;
  p_avionics : R; p_test : R; p_plant : R; p_diff : R; p_cad : R; p_stealth : R; p_material : R;
  p_weight : R; p_engines : R; p_thrust : R; p_pax : R; p_mach : R }.
(** IC 193-205 and 262-269 *)
Record once := { o_engineering : R; o_support : R; o_test : R; o_engines : R; o_avionics : R; o_tooling : R; o_tooling_production : R;
  o_labor : R; o_material : R; o_quality : R; o_test_facilities : R; o_plant : R; o_total : R }.
Record each := { e_engineering : R; e_interior : R; e_labor : R; e_material : R; e_quality : R; e_engines : R; e_avionics : R; e_total : R }.
(** IC 222-231: no other type sets the variable *)
Definition interior_index (t : string) : result R :=
  if String.eqb t "military" then Ok 0 else if String.eqb t "general aviation" then Ok 500 else if String.eqb t "regional" then Ok 1000
  else if String.eqb t "commercial" then Ok 2000 else if String.eqb t "business" then Ok 3000 else Err UnboundLocalError.
(** IC 111, 118, 130 *)
Definition ampr (p : program) : R := 62 / 100 * p_weight p.
Definition dollars (p : program) : R := escalation (p_year p) / escalation 1970.
Definition keas (p : program) : R := p_mach p * (32132 / 100).
(** IC 137, 144, 151, 155, 158: the correlations that are used for both phases, as functions of the number built *)
Definition engineering_hours (p : program) (n : R) : R := 396 / 10000 * pw (ampr p) (791 / 1000) * pw (keas p) (1526 / 1000) * pw n (183 / 1000) * p_diff p * p_cad p.
Definition engine_cost (p : program) : R := 520 * pw (p_thrust p) (8356 / 10000) * dollars p * (235 / 1000).
Definition labor_hours (p : program) (n : R) : R := 28984 / 1000 * pw (ampr p) (74 / 100) * pw (keas p) (543 / 1000) * pw n (524 / 1000) * p_diff p.
Definition material_cost (p : program) (n : R) : R := 2 * (37632 / 1000) * p_material p * pw (ampr p) (689 / 1000) * pw (keas p) (624 / 1000) * pw n (792 / 1000) * dollars p.
Definition tooling_hours (p : program) (n : R) : R := 40127 / 10000 * pw (ampr p) (764 / 1000) * pw (keas p) (899 / 1000) * pw n (178 / 1000) * Rpower (33 / 100) (66 / 1000) * p_diff p.
(** IC 137-205 *)
Definition non_recurring (p : program) : once :=
  let r := hourly_rates (p_year p) in let n := p_prototypes p in
  let aengcd := engineering_hours p n * h_engineering r in
  let dsc := 8325 / 1000000 * pw (ampr p) (873 / 1000) * pw (keas p) (189 / 100) * pw n (346 / 1000) * p_diff p * dollars p in
  let ecd := engine_cost p * n * p_engines p * (11 / 10) in
  let av := p_avionics p * n in
  let mlcd := labor_hours p n * h_manufacturing r in
  let mmed := material_cost p n in
  let tcd := tooling_hours p n * h_tooling r in
  let tcp := tooling_hours p (p_units p) * h_tooling r - tcd in
  let qccd := 130 / 1000 * labor_hours p n * h_quality r in
  let ftc := 1244 / 1000000 * pw (ampr p) (116 / 100) * pw (keas p) (1371 / 1000) * pw n (1281 / 1000) * p_diff p * (1 + 3 * p_stealth p) * dollars p in
  {| o_engineering := aengcd; o_support := dsc; o_test := ftc; o_engines := ecd; o_avionics := av; o_tooling := tcd; o_tooling_production := tcp; o_labor := mlcd; o_material := mmed; o_quality := qccd;
     o_test_facilities := p_test p; o_plant := p_plant p; o_total := aengcd + dsc + ftc + ecd + av + tcd + tcp + mlcd + mmed + qccd + p_test p + p_plant p |}.
(** IC 212-269 *)
Definition recurring (p : program) (index : R) : each :=
  let r := hourly_rates (p_year p) in let n := p_prototypes p in let m := p_units p in
  let eng := 2 * engineering_hours p (n + m) * h_engineering r - engineering_hours p n * h_engineering r in
  let ecp := engine_cost p * m * p_engines p in
  let av := p_avionics p * m in
  let int := index * p_pax p * m * dollars p * (296 / 1000) in
  let lab := 13 / 10 * labor_hours p m * h_manufacturing r - labor_hours p n * h_manufacturing r in
  let mat := material_cost p m - material_cost p n in
  let qc := 130 / 1000 * (13 / 10 * labor_hours p m) * h_quality r in
  {| e_engineering := eng; e_interior := int; e_labor := lab; e_material := mat; e_quality := qc; e_engines := ecp; e_avionics := av; e_total := eng + int + lab + mat + qc + ecp + av |}.
(** IC 93-96: None and 0 are false *)
Definition amortized (p : program) : R := match p_amortize p with Some u => if Req_EM_T u 0 then p_units p else u | None => p_units p end.

(** DN 68, 69 *)
Definition nd_engineering : list (R * R) := [(0, 0); (1 / 40, 2609 / 250000); (3 / 40, 937 / 31250); (1 / 8, 12003 / 250000); (7 / 40, 63051 / 1000000); (9 / 40, 9329 / 125000); (11 / 40, 10331 / 125000); (13 / 40, 43591 / 500000); (3 / 8, 44221 / 500000); (17 / 40, 43359 / 500000); (19 / 40, 82367 / 1000000); (21 / 40, 75797 / 1000000); (23 / 40, 13491 / 200000); (5 / 8, 28913 / 500000); (27 / 40, 47833 / 1000000); (29 / 40, 37841 / 1000000); (31 / 40, 2747 / 100000); (33 / 40, 359 / 20000); (7 / 8, 4941 / 500000); (37 / 40, 971 / 250000); (39 / 40, 147 / 250000); (1, 0)].
(** DN 68, 70 *)
Definition nd_manuf_engineering : list (R * R) := [(0, 0); (1 / 40, 7591 / 1000000); (3 / 40, 27399 / 1000000); (1 / 8, 6177 / 125000); (7 / 40, 69671 / 1000000); (9 / 40, 86167 / 1000000); (11 / 40, 19567 / 200000); (13 / 40, 104193 / 1000000); (3 / 8, 52597 / 500000); (17 / 40, 101133 / 1000000); (19 / 40, 46293 / 500000); (21 / 40, 643 / 8000); (23 / 40, 65537 / 1000000); (5 / 8, 24651 / 500000); (27 / 40, 17271 / 500000); (29 / 40, 19781 / 1000000); (31 / 40, 8029 / 1000000); (33 / 40, 1249 / 1000000); (7 / 8, 0); (37 / 40, 0); (39 / 40, 0); (1, 0)].
(** DN 68, 71 *)
Definition nd_tooling_design : list (R * R) := [(0, 0); (1 / 40, 0); (3 / 40, 0); (1 / 8, 0); (7 / 40, 0); (9 / 40, 1431 / 1000000); (11 / 40, 24631 / 1000000); (13 / 40, 80421 / 1000000); (3 / 8, 147639 / 1000000); (17 / 40, 198853 / 1000000); (19 / 40, 106139 / 500000); (21 / 40, 22369 / 125000); (23 / 40, 108137 / 1000000); (5 / 8, 7943 / 250000); (27 / 40, 7943 / 500000); (29 / 40, 0); (31 / 40, 0); (33 / 40, 0); (7 / 8, 0); (37 / 40, 0); (39 / 40, 0); (1, 0)].
(** DN 68, 72 *)
Definition nd_tooling_production : list (R * R) := [(0, 0); (1 / 40, 0); (3 / 40, 0); (1 / 8, 0); (7 / 40, 0); (9 / 40, 0); (11 / 40, 1539 / 500000); (13 / 40, 34057 / 1000000); (3 / 8, 87407 / 1000000); (17 / 40, 17487 / 125000); (19 / 40, 1401 / 8000); (21 / 40, 7353 / 40000); (23 / 40, 163857 / 1000000); (5 / 8, 120213 / 1000000); (27 / 40, 35357 / 500000); (29 / 40, 4243 / 200000); (31 / 40, 307 / 500000); (33 / 40, 0); (7 / 8, 0); (37 / 40, 0); (39 / 40, 0); (1, 0)].
(** DN 68, 73 *)
Definition nd_support : list (R * R) := [(0, 0); (1 / 40, 2601 / 125000); (3 / 40, 34207 / 1000000); (1 / 8, 42527 / 1000000); (7 / 40, 389 / 8000); (9 / 40, 53283 / 1000000); (11 / 40, 2843 / 50000); (13 / 40, 59553 / 1000000); (3 / 8, 61479 / 1000000); (17 / 40, 15677 / 250000); (19 / 40, 31641 / 500000); (21 / 40, 63219 / 1000000); (23 / 40, 15629 / 250000); (5 / 8, 61151 / 1000000); (27 / 40, 1839 / 31250); (29 / 40, 1767 / 31250); (31 / 40, 5287 / 100000); (33 / 40, 6011 / 125000); (7 / 8, 8363 / 200000); (37 / 40, 33189 / 1000000); (39 / 40, 18429 / 1000000); (1, 0)].
(** DN 83-89: for one category; [ndim[ndim_time<=t]] *)
Definition upto (tab : list (R * R)) (t : R) : R := fold_left (fun s e => if Rltb t (fst e) then s else s + snd e) tab 0.
Fixpoint yearly (tab : list (R * R)) (years : nat) (left : nat) (t : nat) (spent : R) : list R :=
  match left with O => [] | S k => let e := upto tab (1 / INR years * (INR t + 1)) - spent in e :: yearly tab years k (S t) (spent + e) end.
Definition shares (tab : list (R * R)) (years : nat) : list R := yearly tab years years 0 0.
(** DN 58-64, 92-109; facilities (97) multiplies the tooling money, not its shares *)
Record cash := { c_engineering : list R; c_labor : list R; c_tooling : list R; c_tooling_production : list R; c_support : list R; c_facilities : list R; c_total : list R }.
Definition times (k : R) (l : list R) : list R := map (fun x => x * k) l.
Definition distribute (o : once) (years : nat) : cash :=
  let eng := times (o_engineering o + o_test o + o_engines o + o_avionics o) (shares nd_engineering years) in
  let lab := times (o_labor o + o_material o) (shares nd_manuf_engineering years) in
  let td := times (o_tooling o) (shares nd_tooling_design years) in
  let tp := times (o_tooling_production o) (shares nd_tooling_production years) in
  let sup := times (o_support o + o_quality o) (shares nd_support years) in
  let fac := map (fun x => (o_test_facilities o + o_plant o) * x) td in
  let add := map2 Rplus in
  {| c_engineering := eng; c_labor := lab; c_tooling := td; c_tooling_production := tp; c_support := sup; c_facilities := fac; c_total := add (add (add (add (add eng lab) td) tp) sup) fac |}.
(** IC 272-288: unit cost, both breakdowns, cash flow (0 years means 5) *)
Definition industrial_costs (p : program) : result (R * once * each * cash) :=
  bind (interior_index (p_type p)) (fun index =>
  let o := non_recurring p in let e := recurring p index in
  Ok (e_total e / p_units p + o_total o / amortized p, o, e, distribute o (match p_years p with O => 5%nat | n => n end))).
