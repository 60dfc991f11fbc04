(** * Flight envelope (V-n diagram): model

    Source: /repo/trunk/SUAVE/Methods/Performance/V_n_diagram.py.  Numbers are reals; writing of the log and result
    files and plotting (post_processing, 835-939) are left out. *)
From Coq Require Import Reals List Bool Arith String.
From Verif Require Import PyBase M_Opt.
Import ListNotations.
Local Open Scope R_scope.
Local Open Scope list_scope.

(** ** 157-231: limit manoeuvre load factors *)
(** 164-176 and 188-198 *)
Definition positive_limit (weight pos : R) : R :=
  let n := 21 / 10 + 24000 / (weight + 10000) in
  if Rltb n (25 / 10) then 25 / 10 else if Rltb n pos then pos else if Rltb (38 / 10) n then 38 / 10 else n.
Definition negative_check (neg n : R) : R := if Rltb (Rabs n) (Rabs neg) then neg else n.
Definition limit_load_factors (part : nat) (cat : string) (weight pos neg : R) : result (R * R) :=
  if Nat.eqb part 25 then
    let nn := if Rltb (-1) neg then -1 else neg in
    Ok (positive_limit weight pos, negative_check neg nn)
  else if Nat.eqb part 23 then
    if (String.eqb cat "normal" || String.eqb cat "commuter")%bool then
      let np := positive_limit weight pos in Ok (np, negative_check neg (- (4 / 10) * np))
    else if String.eqb cat "utility" then
      let np := if Rltb pos (44 / 10) then 44 / 10 else pos in Ok (np, negative_check neg (- (4 / 10) * np))
    else if String.eqb cat "acrobatic" then
      let np := if Rltb pos 6 then 6 else pos in Ok (np, negative_check neg (- (5 / 10) * np))
    else Err ValueError
  else Err ValueError.

(** ** what the diagram is drawn from, in feet, slugs, pounds and seconds (97-130, 136-148) *)
Record craft := Craft {
  c_weight : R; c_rho : R; c_sigma : R; c_area : R; c_clmax : R; c_clmin : R; c_vc : R; c_mac : R; c_cla : R; c_g : R; c_alt : R }.
Definition wing_loading (c : craft) : R := c_weight c / c_area c.
(** Units['ft/s'] / Units.knots *)
Definition kts : R := 3048 / 10000 / (1852 / 3600).

(** ** 484-493: stall and manoeuvre speeds (feet per second), and 984-992: in knots equivalent airspeed *)
Definition keas (c : craft) (v : R) : R := v * kts * c_sigma c.
Definition vs_pos (c : craft) : R := keas c (sqrt (2 * c_weight c / (c_rho c * c_area c * c_clmax c))).
Definition vs_neg (c : craft) : R := keas c (sqrt (2 * c_weight c / (c_rho c * c_area c * Rabs (c_clmin c)))).
Definition va_pos (c : craft) (np : R) : R := keas c (sqrt (2 * c_weight c / (c_rho c * c_area c * c_clmax c)) * sqrt np).
Definition va_neg (c : craft) (nn : R) : R := keas c (sqrt (2 * c_weight c * Rabs nn / (c_rho c * c_area c * Rabs (c_clmin c)))).

(** ** 283-363: cruise and dive speed *)
(** 283-289 *)
Definition cruise_above_manoeuvre (vap van vc : R) : R :=
  if (Rltb vc van && Rltb vap van)%bool then 115 / 100 * van
  else if (Rltb vc vap && Rltb van vap)%bool then 115 / 100 * vap else vc.
(** 291-293 *)
Definition gust_alleviation (c : craft) : R :=
  let miu := 2 * wing_loading c / (c_rho c * c_mac c * c_cla c * c_g c) in 88 / 100 * miu / (53 / 10 + miu).
(** 295-303, 309-323: gust speeds (rough, cruise, dive) *)
Definition gust_speeds (part : nat) (cat : string) (alt : R) : R * R * R :=
  if Nat.eqb part 25 then
    let u := if Rltb alt 15000 then - (8 / 10000) * alt + 56 else - (5142 / 10000000) * alt + 517133 / 10000 in (u, u, 5 / 10 * u)
  else
    let uc := if Rltb alt 20000 then 50 else - (8333 / 10000000) * alt + 6667 / 100 in
    let ud := if Rltb alt 20000 then 25 else - (4167 / 10000000) * alt + 33334 / 1000 in
    let ur := if String.eqb cat "commuter" then (if Rltb alt 20000 then 66 else - (933 / 1000000) * alt + 84667 / 1000) else uc in
    (ur, uc, ud).
(** the larger root of a quadratic with real roots (numpy roots) *)
Definition larger_root (a b c : R) : R :=
  let d := sqrt (b ^ 2 - 4 * a * c) in Rmax ((- b + d) / (2 * a)) ((- b - d) / (2 * a)).
(** 305-307, 325-333 *)
Definition minimum_cruise (part : nat) (cat : string) (c : craft) (kg u : R) : R :=
  let wl := wing_loading c in
  if Nat.eqb part 25 then
    larger_root 1 (- u * (264 / 100 + kg * c_cla c * vs_pos c ^ 2 / (498 * wl))) (172424 / 100000 * u ^ 2 - vs_pos c ^ 2)
  else if String.eqb cat "acrobatic" then
    if Rltb wl 20 then 36 * sqrt wl else (- (925 / 10000) * wl + 3785 / 100) * sqrt wl
  else if Rltb wl 20 then 33 * sqrt wl else (- (55 / 1000) * wl + 341 / 10) * sqrt wl.
(** 335-339 *)
Definition at_least (m v : R) : R := if Rltb v m then m else v.
(** 341-361 *)
Definition dive_speed (part : nat) (cat : string) (wl vc vc1 : R) : R :=
  if Nat.eqb part 25 then 125 / 100 * vc
  else
    let v := if String.eqb cat "acrobatic" then (if Rltb 20 wl then (- (25 / 10000) * wl + 16 / 10) * vc1 else 155 / 100 * vc1)
             else if String.eqb cat "utility" then (if Rltb 20 wl then (- (1875 / 1000000) * wl + 15375 / 10000) * vc1 else 15 / 10 * vc1)
             else (if Rltb 20 wl then (- (625 / 1000000) * wl + 14125 / 10000) * vc1 else 14 / 10 * vc1) in
    if Rltb v (115 / 100 * vc) then 115 / 100 * vc else v.

(** ** the two halves of the diagram: speeds and load factors *)
Definition insert_at {A} (k : nat) (x : A) (l : list A) : list A := firstn k l ++ [x] ++ skipn k l.
Record half := Half { h_v : list R; h_n : list R }.
Definition nthR (k : nat) (l : list R) : R := nth k l 0.
(** 363-375 (and 150-155, 484-493): the five corners *)
Definition corners_pos (c : craft) (np vd : R) : half :=
  Half [vs_pos c; vs_pos c; va_pos c np; vd; vd] [0; 1; np; np; 0].
Definition corners_neg (c : craft) (cat : string) (nn vc vd : R) : half :=
  Half [vs_neg c; vs_neg c; va_neg c nn; vc; vd]
       [0; -1; nn; nn; if (String.eqb cat "acrobatic" || String.eqb cat "utility")%bool then -1 else 0].
(** 561-565: load factor on the stall line; [cl] the lift coefficient of the half *)
Definition stall_factor (c : craft) (cl : R) (pos : bool) (v : R) : R :=
  let Vtas := v / c_sigma c / kts in
  if pos then 5 / 10 * c_rho c * Vtas ^ 2 * c_area c * cl / c_weight c
  else - (5 / 10) * c_rho c * Vtas ^ 2 * c_area c * Rabs cl / c_weight c.
(** 557-567: the loop; [i] counts up, [v0] and [delta] are fixed before it *)
Fixpoint stall_points (c : craft) (cl v0 delta : R) (lower i n : nat) (h : half) : half :=
  match n with
  | O => h
  | S n' =>
      let coef := (lower + i + 1)%nat in
      let v := v0 + INR (i + 1) * delta in
      let vs := insert_at coef v (h_v h) in
      let nl := stall_factor c cl (Rltb 0 (nthR 1 (h_n h))) (nthR coef vs) in
      stall_points c cl v0 delta lower (S i) n' (Half vs (insert_at coef nl (h_n h)))
  end.
Definition stall_line (c : craft) (cl : R) (upper lower n : nat) (h : half) : half :=
  let v0 := nthR lower (h_v h) in
  let delta := (nthR upper (h_v h) - v0) / INR (n + 1) in
  stall_points c cl v0 delta lower 0 n h.

(** ** 813-830: intersection with the gust line towards the dive speed *)
Definition minimum (l : list R) : R := match l with [] => 0 | x :: r => fold_left Rmin r x end.
Definition maximum (l : list R) : R := match l with [] => 0 | x :: r => fold_left Rmax r x end.
Definition gust_dive_intersection (cat : string) (g2 g3 vc vd : R) (k : nat) (h : half) : half :=
  let m := minimum (h_n h) in
  let '(v, n) :=
    if Rltb 0 (nthR 1 (h_n h)) then ((nthR k (h_n h) - g2) * (vd - vc) / (g3 - g2) + vc, nthR k (h_n h))
    else if String.eqb cat "acrobatic" then
      let v := ((g3 + 1) * vc + (m - g2) * vd) / (g3 - g2 + m + 1) in
      (v, (m + 1) / (vc - vd) * v - ((m + 1) / (vc - vd) * vd + 1))
    else let v := (g3 * vc + (m - g2) * vd) / (g3 - g2 + m) in (v, m * (v - vd) / (vc - vd)) in
  Half (insert_at k v (h_v h)) (insert_at k n (h_n h)).

(** ** 581-783: gust loads *)
(** 661, 662, 669, 731: a point of a gust line *)
Definition gust_factor (c : craft) (kg u v : R) : R := 1 + kg * c_cla c * v * u / (498 * wing_loading c).
Definition set_at (k : nat) (x : R) (l : list R) : list R := firstn k l ++ match skipn k l with [] => [] | _ :: r => x :: r end.
(** 660-728; the entry at index 1 tells the half, [n] is the number of stall points, [u] the gust speeds with the sign of the half *)
Definition gust_corner (c : craft) (kg cl limit ur uc vc : R) (n : nat) (h : half) : half :=
  let g1 := gust_factor c kg ur (nthR (n + 2) (h_v h)) in
  let g2 := gust_factor c kg uc vc in
  if Rltb (Rabs limit) (Rabs g1) then
    let rho0 := c_rho c / c_sigma c ^ 2 in
    let vi := larger_root (709486 / 1000 * rho0 * cl) (- kg * ur * c_cla c) (- 498 * wing_loading c) in
    let ni := gust_factor c kg ur vi in
    let h := Half (insert_at (n + 3) vi (h_v h)) (insert_at (n + 3) ni (h_n h)) in
    let h := stall_line c cl (n + 3) (n + 2) 5 h in
    let n := (n + 6)%nat in
    if Rltb 0 (nthR 1 (h_n h)) then Half (insert_at (n + 3) vc (h_v h)) (insert_at (n + 3) g2 (h_n h)) else h
  else if Rltb (Rabs limit) (Rabs g2) then
    let vi := 498 * (nthR (n + 2) (h_n h) - 1) * wing_loading c / (kg * uc * c_cla c) in
    let h := Half (insert_at (n + 3) vi (h_v h)) (insert_at (n + 3) limit (h_n h)) in
    let n := (n + 1)%nat in
    if Rltb 0 (nthR 1 (h_n h)) then Half (insert_at (n + 3) vc (h_v h)) (insert_at (n + 3) g2 (h_n h))
    else Half (h_v h) (set_at (List.length (h_v h) - 2) g2 (h_n h))
  else h.
(** 730-758 *)
Definition gust_dive (cat : string) (limit g2 g3 vc vd : R) (h : half) : half :=
  let k := (List.length (h_n h) - 2)%nat in
  if Rltb 0 (nthR 1 (h_n h)) then
    if Rltb (Rabs limit) (Rabs g2) then
      if Rltb (Rabs limit) (Rabs g3) then Half (h_v h) (set_at k g3 (h_n h)) else gust_dive_intersection cat g2 g3 vc vd k h
    else h
  else
    let e := (List.length (h_n h) - 1)%nat in
    if Rltb g3 (nthR e (h_n h)) then
      let h := Half (insert_at e (nthR e (h_v h)) (h_v h)) (insert_at e g3 (h_n h)) in
      let k := (List.length (h_n h) - 2)%nat in
      if Rltb (Rabs limit) (Rabs g2) then Half (h_v h) (set_at k g3 (h_n h)) else gust_dive_intersection cat g2 g3 vc vd k h
    else h.

(** ** 29-428: the diagram; 407-424 for the end *)
Record diagram := Diagram { g_pos : half; g_neg : half; g_vc : R; g_vd : R; g_n_pos : R; g_n_neg : R; g_gust_pos : R; g_gust_neg : R }.
Definition V_n_diagram (part : nat) (cat : string) (pos neg : R) (c : craft) : result diagram :=
  bind (limit_load_factors part cat (c_weight c) pos neg) (fun lim =>
  let (np, nn) := lim in
  let vap := va_pos c np in
  let van := va_neg c nn in
  let vc := cruise_above_manoeuvre vap van (keas c (c_vc c)) in
  let kg := gust_alleviation c in
  let '(ur, uc, ud) := gust_speeds part cat (c_alt c) in
  let vc1 := minimum_cruise part cat c kg uc in
  let vc := at_least vc1 vc in
  let vd := dive_speed part cat (wing_loading c) vc vc1 in
  let hp := stall_line c (c_clmax c) 2 1 20 (corners_pos c np vd) in
  let hn := stall_line c (c_clmin c) 2 1 20 (corners_neg c cat nn vc vd) in
  let g2p := gust_factor c kg uc vc in
  let g2n := gust_factor c kg (- uc) vc in
  let hp := gust_dive cat np g2p (gust_factor c kg ud vd) vc vd (gust_corner c kg (c_clmax c) np ur uc vc 20 hp) in
  let hn := gust_dive cat nn g2n (gust_factor c kg (- ud) vd) vc vd (gust_corner c kg (c_clmin c) nn (- ur) (- uc) vc 20 hn) in
  let hn := if (String.eqb cat "acrobatic" || String.eqb cat "utility")%bool then Half (h_v hn ++ [vd]) (h_n hn ++ [0]) else hn in
  Ok (Diagram hp hn vc vd (maximum (h_n hp)) (minimum (h_n hn)) g2p g2n)).
