(** * Vortex lattice: influence of a panel, boundary conditions and loads

    Sources under /repo/trunk/SUAVE/Methods/Aerodynamics/Common/Fidelity_Zero/Lift:
      compute_wing_induced_velocity.py 16-547, compute_RHS_matrix.py 21-262, VLM.py 24-595, generate_VD_helpers.py 113-170
    Numbers are reals (the code uses float32 in places).  One Mach number and one pair (panel, control point) or one strip at a time, as numpy does
    for each of them alone, except where said.  The linear solver is not modelled: its result is an input that satisfies the equations. *)
From Coq Require Import Reals List Bool Arith.
From Verif Require Import PyBase M_Opt M_Rot M_Noise M_Evtol.
Import ListNotations.
Local Open Scope R_scope.

Definition vless (a b : v3) : v3 := V3 (vx a - vx b) (vy a - vy b) (vz a - vz b).
Definition vmore (a b : v3) : v3 := V3 (vx a + vx b) (vy a + vy b) (vz a + vz b).
Definition vtimes3 (k : R) (a : v3) : v3 := V3 (k * vx a) (k * vy a) (k * vz a).
Definition npcross (a b : v3) : v3 := V3 (vy a * vz b - vz a * vy b) (vz a * vx b - vx a * vz b) (vx a * vy b - vy a * vx b).

(** ** influence of a horseshoe vortex: compute_wing_induced_velocity.py *)
(** the ends AH and BH of a bound vortex *)
Record bound := { b_a : v3; b_b : v3 }.
(** 89-98 *)
Definition ordered (p : bound) : bound := if Rltb (vy (b_b p)) (vy (b_a p)) then {| b_a := b_b p; b_b := b_a p |} else p.
(** 103-151: place of a control point in the axes of the panel *)
Record local := { k_cos : R; k_sin : R; k_s : R; k_t : R; k_x : R; k_y : R; k_z : R }.
Definition local_axes (p : bound) (o : v3) : local :=
  let a := b_a (ordered p) in let b := b_b (ordered p) in
  let xc := / 2 * (vx a + vx b) in let yc := / 2 * (vy a + vy b) in let zc := / 2 * (vz a + vz b) in
  let theta := arctan2 (vz b - vz a) (vy b - vy a) in
  let y1bar := (vy b - yc) * cos theta + (vz b - zc) * sin theta in
  {| k_cos := cos theta; k_sin := sin theta; k_s := Rabs y1bar; k_t := (vx b - xc) / y1bar;
     k_x := vx o - xc; k_y := (vy o - yc) * cos theta + (vz o - zc) * sin theta; k_z := - (vy o - yc) * sin theta + (vz o - zc) * cos theta |}.
(** 142-166 *)
Definition k_X1 k := k_x k + k_t k * k_s k.
Definition k_Y1 k := k_y k + k_s k.
Definition k_X2 k := k_x k - k_t k * k_s k.
Definition k_Y2 k := k_y k - k_s k.
Definition k_XTY k := k_x k - k_t k * k_y k.
Definition k_tol k := k_s k / 500.
Definition k_tolsq k := k_tol k * k_tol k.
Definition k_RTV1 k := k_Y1 k * k_Y1 k + k_z k * k_z k.
Definition k_RTV2 k := k_Y2 k * k_Y2 k + k_z k * k_z k.
Definition k_zsq k := k_z k * k_z k.
(** 259-286; None: some component is not a number (a panel without width, or the control point is an end of the bound vortex) *)
Definition subsonic (B2 : R) (k : local) : option v3 :=
  let CPI := 4 * PI in
  let RAD1 := sqrt (k_X1 k * k_X1 k - B2 * k_RTV1 k) in
  let RAD2 := sqrt (k_X2 k * k_X2 k - B2 * k_RTV2 k) in
  if Req_EM_T (k_s k) 0 then None else if Req_EM_T RAD1 0 then None else if Req_EM_T RAD2 0 then None else
  let D := k_XTY k * k_XTY k + (k_t k * k_t k - B2) * k_zsq k in
  let DENOM := if Rltb D (k_tolsq k) then k_tolsq k else D in
  let FB1 := (k_t k * k_X1 k - B2 * k_Y1 k) / RAD1 in
  let FT1 := if Rltb (k_RTV1 k) (k_tolsq k) then 0 else (k_X1 k + RAD1) / (RAD1 * k_RTV1 k) in
  let FB2 := (k_t k * k_X2 k - B2 * k_Y2 k) / RAD2 in
  let FT2 := if Rltb (k_RTV2 k) (k_tolsq k) then 0 else (k_X2 k + RAD2) / (RAD2 * k_RTV2 k) in
  let QB := (FB1 - FB2) / DENOM in
  let ZETAPI := k_z k / CPI in
  Some (V3 (if Rltb (k_zsq k) (k_tolsq k) then 0 else ZETAPI * QB)
           (if Rltb (k_zsq k) (k_tolsq k) then 0 else ZETAPI * (FT1 - FT2 - QB * k_t k))
           (- (QB * k_XTY k + FT1 * k_Y1 k - FT2 * k_Y2 k) / CPI)).
(** 341-397 for one end: (RAD as used in the plane, FB, FT); the replacement of nan and inf by 1 (369-372) concerns entries that bool sets to 0 *)
Definition fore (B2 t X Y RTV tol tolsq : R) : R * R * R :=
  let RAD := if Rltb (X * X) (B2 * RTV) then 0 else sqrt (X * X - B2 * RTV) in
  let seen := negb (Rltb X tol) && (if Req_EM_T RAD 0 then false else true) && negb (Rltb (8 / 10 * (X * X)) (B2 * RTV)) in
  (if Rltb X tol then 0 else RAD, if seen then (t * X - B2 * Y) / RAD else 0, if seen then (if Rltb RTV tolsq then 0 else X / (RAD * RTV)) else 0).
(** 499-547 *)
Definition in_plane (rad1 rad2 Y1 Y2 tol XTY : R) : R :=
  let F1 := if Rltb tol (Rabs Y1) then rad1 / Y1 else 0 in
  let F2 := if Rltb tol (Rabs Y2) then rad2 / Y2 else 0 in
  if Rltb tol (Rabs XTY) then (- F1 + F2) / (XTY * (2 * PI)) else 0.
(** 288-420: before the panel's own wave drag *)
Definition supersonic (B2 : R) (k : local) : option v3 :=
  if Req_EM_T (k_s k) 0 then None else
  let D := k_XTY k * k_XTY k + (k_t k * k_t k - B2) * k_zsq k in
  let DENOM := if Rltb (Rabs D) (k_tolsq k) then (if Rltb D 0 then - k_tolsq k else k_tolsq k) else D in
  let '(rad1, FB1, FT1) := fore B2 (k_t k) (k_X1 k) (k_Y1 k) (k_RTV1 k) (k_tol k) (k_tolsq k) in
  let '(rad2, FB2, FT2) := fore B2 (k_t k) (k_X2 k) (k_Y2 k) (k_RTV2 k) (k_tol k) (k_tolsq k) in
  let QB := (FB1 - FB2) / DENOM in
  let ZETAPI := k_z k / (2 * PI) in
  if Rltb (k_zsq k) (2500 * k_tolsq k) then Some (V3 0 0 (in_plane rad1 rad2 (k_Y1 k) (k_Y2 k) (k_tol k) (k_XTY k)))
  else Some (V3 (ZETAPI * QB) (ZETAPI * (FT1 - FT2 - QB * k_t k)) (- (QB * k_XTY k + FT1 * k_Y1 k - FT2 * k_Y2 k) / (2 * PI))).
(** 457-463: a panel on itself; [cox]: chord over panels per strip *)
Definition own_wave (B2 t cox : R) : R := if Rltb (t * t) B2 then - (5 / 10) * sqrt (B2 - t * t) / cox else 0.
(** 154, 169-200 *)
Definition influence (mach : R) (p : bound) (o : v3) : option v3 :=
  let k := local_axes p o in let B2 := mach * mach - 1 in
  match (if Rltb B2 0 then subsonic B2 k else supersonic B2 k) with
  | Some v => Some (V3 (vx v) (vy v * k_cos k - vz v * k_sin k) (vy v * k_sin k + vz v * k_cos k))
  | None => None
  end.
(** 80-83 *)
Definition dihedral_of (p : bound) : R :=
  let D := sqrt ((vy (b_a p) - vy (b_b p)) * (vy (b_a p) - vy (b_b p)) + (vz (b_a p) - vz (b_b p)) * (vz (b_a p) - vz (b_b p))) in
  let DL := acos ((vy (b_b p) - vy (b_a p)) / D) in
  if Rltb (PI / 2) DL then DL - PI else DL.
(** 203-210: [i] is the panel of the control point, [j] the one that induces *)
Definition influence_normal (mach : R) (i j : bound) (o : v3) : option R :=
  let k := local_axes j o in let B2 := mach * mach - 1 in
  match (if Rltb B2 0 then subsonic B2 k else supersonic B2 k) with
  | Some v => Some (vz v * cos (dihedral_of i - dihedral_of j) - vy v * sin (dihedral_of i - dihedral_of j))
  | None => None
  end.

(** ** transonic panels: 425-494 *)
(** x[mask] and x[mask] = v *)
Fixpoint take_where {A} (mask : list bool) (x : list A) : list A :=
  match mask, x with true :: m, a :: l => a :: take_where m l | false :: m, _ :: l => take_where m l | _, _ => [] end.
Fixpoint put_where {A} (mask : list bool) (x v : list A) : list A :=
  match mask, x, v with
  | true :: m, _ :: l, a :: v' => a :: put_where m l v'
  | false :: m, b :: l, v => b :: put_where m l v
  | _, _, _ => x
  end.
(** x[mask] = 0. *)
Definition clear_where (mask : list bool) (x : list R) : list R := map2 (fun (b : bool) v => if b then 0 else v) mask x.
Definition T2F (le te : list bool) (T2S : list R) : list R :=
  clear_where te (put_where (map negb le) (map (fun _ => 0) T2S) (take_where (map negb te) T2S)).
Definition T2A (le te : list bool) (T2S : list R) : list R :=
  clear_where le (put_where (map negb te) (map (fun _ => 0) T2S) (take_where (map negb le) T2S)).
(** 445-451 *)
Definition transonic (B2 : R) (le te : list bool) (T2S : list R) : list bool :=
  map2 (fun f a => Rltb ((B2 - f) * (B2 - a)) 0) (T2F le te T2S) (T2A le te T2S).
(** 474-494: [w] is the matrix of one Mach number, row by row, [size] panels; position -1 is the last *)
Definition set_at (size : nat) (i : nat) (v : R) (w : nat -> R) : nat -> R := fun k => if Nat.eqb k i then v else w k.
Definition before (size i : nat) : nat := match i with O => (size * size - 1)%nat | S j => j end.
Definition flagged (flags : list bool) : list nat := filter (fun j => nth j flags false) (seq 0 (length flags)).
Definition stencil (size : nat) (flags : list bool) (w : nat -> R) : nat -> R :=
  let zeroed := fun k => if nth (k / size) flags false then 0 else w k in
  let self := map (fun j => (j * size + j)%nat) (flagged flags) in
  let w1 := fold_left (fun w i => set_at size i 2 w) self zeroed in
  let w2 := fold_left (fun w i => set_at size (before size i) (-1) w) self w1 in
  fold_left (fun w i => set_at size (S i) (-1) w) self w2.

(** ** panels: generate_VD_helpers.py 113-170 *)
Record panel := { q_a1 : v3; q_b1 : v3; q_a2 : v3; q_b2 : v3 }.
Definition npnorm (a : v3) : R := sqrt (vx a * vx a + vy a * vy a + vz a * vz a).
Definition panel_area (p : panel) : R :=
  / 2 * (npnorm (npcross (vless (q_b1 p) (q_a1 p)) (vless (q_a2 p) (q_a1 p))) + npnorm (npcross (vless (q_a2 p) (q_b1 p)) (vless (q_b2 p) (q_b1 p)))).
Definition unit_normal (p : panel) : v3 :=
  let c := npcross (vless (q_b1 p) (q_a1 p)) (vless (q_a2 p) (q_a1 p)) in
  let n := vtimes3 (/ npnorm c) c in
  if Rltb (vz n) 0 then vtimes3 (-1) n else n.

(** ** boundary conditions: compute_RHS_matrix.py 164-241 and VLM.py 239-267 at one control point *)
Record flight := { f_V : R; f_alpha : R; f_psi : R; f_pitch : R; f_roll : R; f_yaw : R }.
(** 226-232: [arm] is (XGIRO, YGIRO, ZGIRO), [ind] the velocity from propellers *)
Definition onset_velocity (f : flight) (arm ind : v3) : v3 :=
  V3 (f_V f * cos (f_alpha f) * cos (f_psi f) + (- f_pitch f * vz arm + f_yaw f * vy arm) + vx ind)
     (f_V f * cos (f_alpha f) * sin (f_psi f) + (- f_yaw f * vx arm + f_roll f * vz arm) + vy ind)
     (f_V f * sin (f_alpha f) + (- f_roll f * vy arm + f_pitch f * vx arm) + vz ind).
(** 238-240 *)
Definition rhs_normal (f : flight) (arm ind n : v3) : R := vdot (vtimes3 (/ f_V f) (onset_velocity f arm ind)) n.
(** 205-218; [slope]: SLOPE of the panel, [phi]: dihedral of its strip's first panel *)
Definition scntl (slope : R) : R := slope / sqrt (1 + slope * slope).
Definition ccntl (slope : R) : R := 1 / sqrt (1 + scntl slope * scntl slope).
Definition rhs_vorlax (f : flight) (arm : v3) (slope phi : R) : R :=
  let VX := cos (f_alpha f) * cos (f_psi f) - f_pitch f / f_V f * vz arm + f_yaw f / f_V f * vy arm in
  let VY := cos (f_alpha f) * sin (f_psi f) - f_yaw f / f_V f * vx arm + f_roll f / f_V f * vz arm in
  let VZ := sin (f_alpha f) - f_roll f / f_V f * vy arm + f_pitch f / f_V f * vx arm in
  VX * scntl slope + VY * ccntl slope * sin phi - VZ * ccntl slope * cos phi.
(** 222 *)
Definition onset (f : flight) (arm : v3) : R := - (f_pitch f / f_V f) * vz arm + f_yaw f / f_V f * vy arm.
(** VLM.py 263-265 *)
Definition matrix_entry (delta phi : R) (c : v3) : R := vx c * (sin delta * cos phi) + vy c * (cos delta * sin phi) - vz c * (cos phi * cos delta).
(** compute_RHS_matrix.py 88-122: velocities from the networks' propellers; a network gives those of its propellers and of its lift rotors, None without *)
Record wakes := { n_props : option (list v3); n_rotors : option (list v3) }.
Definition vsum3 (l : list v3) : v3 := fold_left vmore l (V3 0 0 0).
Definition slipstream_total (model : bool) (nets : list wakes) : v3 :=
  match model, nets with
  | true, n :: _ => vmore (vmore (V3 0 0 0) (match n_props n with Some l => vsum3 l | None => V3 0 0 0 end)) (match n_rotors n with Some l => vsum3 l | None => V3 0 0 0 end)
  | _, _ => V3 0 0 0
  end.

(** ** loads: VLM.py *)
(** 584-595 on flat arrays; [lens]: strip lengths, [breaks]: first panels of the strips; position -1 is the last *)
Fixpoint cumsum_from (c : R) (l : list R) : list R := match l with [] => [] | a :: r => (c + a) :: cumsum_from (c + a) r end.
Definition strip_cumsum (arr : list R) (breaks lens : list nat) : list R :=
  let cum := cumsum_from 0 arr in
  let offsets := map (fun b => match b with O => last cum 0 | S j => nth j cum 0 end) breaks in
  let offsets := match offsets with [] => [] | _ :: r => 0 :: r end in
  map2 (fun c o => c - o) cum (concat (map2 (fun (o : R) (n : nat) => repeat o n) offsets lens)).
(** 318-319: np.roll(GANT,1); GANT[LE_ind] = 0 *)
Definition roll1 (l : list R) : list R := match l with [] => [] | a :: r => last (a :: r) 0 :: removelast (a :: r) end.
Definition gant (arr : list R) (breaks lens : list nat) (le : list bool) : list R := clear_where le (roll1 (strip_cumsum arr breaks lens)).
(** np.add.reduceat *)
Fixpoint slices (breaks : list nat) (n : nat) : list (nat * nat) :=
  match breaks with a :: ((b :: _) as r) => (a, b) :: slices r n | [a] => [(a, n)] | [] => [] end.
Definition reduceat (x : list R) (breaks : list nat) : list R :=
  map (fun s => if Nat.ltb (fst s) (snd s) then total (firstn (snd s - fst s) (skipn (fst s) x)) else nth (fst s) x 0) (slices breaks (length x)).

(** a panel of a strip: circulation, onset, slope; load point and trailing edge behind it *)
Record lattice := { l_gamma : R; l_onset : R; l_slope : R; l_x : R; l_xte : R }.
Record strip := { p_chord : R; p_panels : list lattice; p_tle : R; p_tte : R; p_cosdl : R; p_zeta : R; p_phi : R; p_at : v3; p_es : R; p_cle : R; p_stb : R; p_spc : R }.
(** 298-330: pressure difference of panel number [rk] (from 1) of a strip with [n] panels; [g]: circulation over chord ahead of it *)
Definition pressure (f : flight) (s : strip) (n rk g : R) (l : lattice) : R :=
  let xia := (rk - 1) / n in let xib := rk / n in
  let tana := p_tle s * (1 - xia) + p_tte s * xia in
  let tanb := p_tle s * (1 - xib) + p_tte s * xib in
  let glat := g * (tana - tanb) - / p_chord s * l_gamma l * tanb in
  let forlat := cos (f_alpha f) * sin (f_psi f) * 2 in
  let dcpsid := forlat * p_cosdl s * glat / (xib - xia) in
  2 * (l_gamma l * (cos (f_alpha f) * cos (f_psi f) + l_onset l) * n / p_chord s) + dcpsid.
Fixpoint pressures (f : flight) (s : strip) (n rk g : R) (l : list lattice) : list R :=
  match l with [] => [] | p :: r => pressure f s n rk g p :: pressures f s n (rk + 1) (g + / p_chord s * l_gamma p) r end.
Definition strip_pressures (f : flight) (s : strip) : list R := pressures f s (INR (length (p_panels s))) 1 0 (p_panels s).
(** 361-396 *)
Definition sinf (n dcp : R) : R := / 2 * (2 / n) * dcp.
Definition normal_force (f : flight) (s : strip) : R := let n := INR (length (p_panels s)) in total (map (sinf n) (strip_pressures f s)).
Definition axial_force (f : flight) (s : strip) : R := let n := INR (length (p_panels s)) in
  total (map2 (fun dcp l => let tx := l_slope l - p_zeta s in - sinf n dcp * tx / (1 + tx * tx)) (strip_pressures f s) (p_panels s)).
Definition lateral_moment (f : flight) (s : strip) : R := let n := INR (length (p_panels s)) in
  total (map2 (fun dcp l => sinf n dcp * (l_xte l - l_x l)) (strip_pressures f s) (p_panels s)) * (- 1 * (cos (f_alpha f) * sin (f_psi f) * 2) * cos (p_phi s) * (5 / 10)).
Fixpoint edge_moment (n rk : R) (dcps : list R) : R := match dcps with [] => 0 | d :: r => (125 / 1000 * (2 / n) - (rk - 75 / 100) * (2 / n) / 2) * sinf n d + edge_moment n (rk + 1) r end.
Definition nose_moment (f : flight) (s : strip) : R := edge_moment (INR (length (p_panels s))) 1 (strip_pressures f s).
(** 411-440 *)
Definition sign (x : R) : R := if Rltb x 0 then -1 else if Rltb 0 x then 1 else 0.
Definition suction (f : flight) (s : strip) : R :=
  let n := INR (length (p_panels s)) in let dcp := hd 0 (strip_pressures f s) in
  let cle := p_cle s + 5 / 10 * dcp * sqrt (125 / 1000 * (2 / n)) in 5 / 10 * PI * Rabs (p_spc s) * (cle * cle) * p_stb s.
Definition suction_way (f : flight) (s : strip) : R * R :=
  let dcp := hd 0 (strip_pressures f s) in let a := l_slope (hd {| l_gamma := 0; l_onset := 0; l_slope := 0; l_x := 0; l_xte := 0 |} (p_panels s)) - p_zeta s in
  if Rltb (p_spc s) 0 then (sin a * sign dcp, Rabs (cos a) * sign dcp) else (cos a, - sin a).
Definition caxl (f : flight) (s : strip) : R := axial_force f s - fst (suction_way f s) * suction f s.
Definition cnc (f : flight) (s : strip) : R := normal_force f s + suction f s * sqrt (1 + p_tle s * p_tle s) * snd (suction_way f s).
(** 444-451 *)
Definition body_force (f : flight) (s : strip) : v3 :=
  V3 (- cnc f s * sin (p_zeta s) + caxl f s * cos (p_zeta s))
     (- (cnc f s * cos (p_zeta s) + caxl f s * sin (p_zeta s)) * sin (p_phi s))
     ((cnc f s * cos (p_zeta s) + caxl f s * sin (p_zeta s)) * cos (p_phi s)).
(** 455, 459-465: [xbar], [zbar]: the moment reference *)
Definition body_moment (f : flight) (xbar zbar : R) (s : strip) : v3 :=
  let b := body_force f s in let m := nose_moment f s * p_chord s in
  V3 (vz b * vy (p_at s) - vy b * (vz (p_at s) - zbar) + lateral_moment f s)
     (m * cos (p_phi s) + vx b * (vz (p_at s) - zbar) - vz b * (vx (p_at s) - xbar))
     (m * sin (p_phi s) - vx b * vy (p_at s) + vy b * (vx (p_at s) - xbar)).
(** 466-476 *)
Record wind_loads := { r_lift : R; r_drag : R; r_moment : R; r_fy : R; r_roll : R; r_yaw : R }.
Definition strip_loads (f : flight) (xbar zbar : R) (s : strip) : wind_loads :=
  let b := body_force f s in let m := body_moment f xbar zbar s in
  let sa := sin (f_alpha f) in let ca := cos (f_alpha f) in let sp := sin (f_psi f) in let cp := cos (f_psi f) in
  let area := p_es s * p_chord s in
  {| r_lift := (vz b * ca - (vx b * cp + vy b * sp) * sa) * area;
     r_drag := (vz b * sa + (vx b * cp + vy b * sp) * ca) * p_chord s * p_es s;
     r_moment := area * (vy m * cp - vx m * sp);
     r_fy := (vy b * cp - vx b * sp) * area;
     r_roll := area * (vx m * ca * cp + vy m * ca * sp + vz m * sa);
     r_yaw := area * (vz m * ca - (vx m * cp + vy m * sp) * sa) |}.
(** 481-482, 486-493 *)
Record polar := { v_CL : R; v_CDi : R; v_CM : R; v_CY : R; v_CR : R; v_CRM : R; v_CN : R; v_CYM : R; v_CL_wing : list R; v_CDi_wing : list R }.
Definition totals (f : flight) (xbar zbar sref cbar span : R) (surf : list R) (span_breaks : list nat) (strips : list strip) : polar :=
  let l := map (strip_loads f xbar zbar) strips in let sum g := total (map g l) in
  {| v_CL := sum r_lift / sref; v_CDi := sum r_drag / sref; v_CM := sum r_moment / sref / cbar; v_CY := sum r_fy / sref;
     v_CR := sum r_roll / sref; v_CRM := sum r_roll / sref / span * (-1); v_CN := sum r_yaw / sref; v_CYM := sum r_yaw / sref / span * (-1);
     v_CL_wing := map2 Rdiv (reduceat (map r_lift l) span_breaks) surf; v_CDi_wing := map2 Rdiv (reduceat (map r_drag l) span_breaks) surf |}.
(** 131-159: reference chord, span and moment centre *)
Record wing_ref := { w_main : bool; w_vertical : bool; w_mac : R; w_x : R; w_z : R; w_span : R }.
Record reference := { z_cbar : R; z_span : R; z_xm : R; z_zm : R }.
Definition mac_of (ws : list wing_ref) : R * R * R * option R :=
  match find w_main ws with
  | Some w => (w_mac w, w_span w, w_x w, Some (w_z w))
  | None => fold_left (fun '(c, sp, x, z) w => if w_vertical w then (c, sp, x, z) else if Rltb (w_mac w) c then (c, sp, x, z) else (w_mac w, w_span w, w_x w, Some (w_z w))) ws (0, 0, 0, None)
  end.
Definition reference_of (ws : list wing_ref) (xcg zcg : R) : result reference :=
  let '(c, sp, x, z) := mac_of ws in
  if Req_EM_T xcg 0 then match z with Some zm => Ok {| z_cbar := c; z_span := sp; z_xm := x; z_zm := zm |} | None => Err UnboundLocalError end
  else Ok {| z_cbar := c; z_span := sp; z_xm := xcg; z_zm := zcg |}.
