(** * Vortex lattice: from wings to panels, and deflected control surfaces

    Sources under /repo/trunk/SUAVE/Methods/Aerodynamics/Common/Fidelity_Zero/Lift:
      generate_vortex_distribution.py 93-135 and 276-835, deflect_control_surface.py 61-620
    Numbers are reals.  The wing's sections (span breaks) are inputs; airfoil files are lists of camber points. *)
From Coq Require Import Reals List Bool Arith ZArith.
From Verif Require Import PyBase M_Opt M_Rot M_Noise M_Evtol M_Vlm M_Field.
Import ListNotations.
Local Open Scope R_scope.

(** ** how many vortices: generate_vortex_distribution.py 101-132 *)
(** spanwise and chordwise numbers: for everything, for wings, for fuselages; None or 0: not given *)
Record numbers := { n_sw : option nat; n_cw : option nat; n_sw_wing : option nat; n_cw_wing : option nat; n_sw_fuse : option nat; n_cw_fuse : option nat }.
Definition truth (o : option nat) : bool := match o with Some (S _) => true | _ => false end.
(** AssertionError is GenericException here *)
Definition discretization (s : numbers) : result (option nat * option nat * option nat * option nat) :=
  if negb (eqb (truth (n_sw s)) (truth (n_cw s))) then Err GenericException
  else if negb (eqb (truth (n_sw_wing s)) (truth (n_cw_wing s))) || negb (eqb (truth (n_sw_fuse s)) (truth (n_cw_fuse s))) then Err GenericException
  else if negb (eqb (truth (n_sw_wing s)) (truth (n_sw_fuse s))) then Err GenericException
  else if eqb (truth (n_sw s)) (truth (n_sw_wing s)) then Err GenericException
  else if truth (n_sw s) then Ok (n_sw s, n_cw s, n_sw s, n_cw s)
  else Ok (n_sw_wing s, n_cw_wing s, n_sw_fuse s, n_cw_fuse s).

(** ** spanwise stations *)
(** 330-335 *)
Definition stations (cosine : bool) (span : R) (n : nat) : list R :=
  if cosine then map (fun k => span * cos (k * (PI / 2) / INR (n + 1))) (linspace (INR (n + 1)) 0 (n + 1))
  else linspace 0 span (n + 1).
(** 406-410; a station that was moved (True) has an infinite distance; argmin is the first of the smallest, 0 when all are infinite *)
Fixpoint nearest (r : R) (l : list (R * bool)) : option (nat * R) :=
  match l with
  | [] => None
  | (y, moved) :: rest =>
      let later := match nearest r rest with Some (i, d) => Some (S i, d) | None => None end in
      if moved then later else
      match later with
      | Some (i, d) => if Rltb d (Rabs (y - r)) then Some (i, d) else Some (O, Rabs (y - r))
      | None => Some (O, Rabs (y - r))
      end
  end.
Fixpoint put (i : nat) (v : R * bool) (l : list (R * bool)) : list (R * bool) :=
  match l, i with [], _ => [] | _ :: r, O => v :: r | x :: r, S j => x :: put j v r end.
Definition move_one (l : list (R * bool)) (r : R) : list (R * bool) :=
  put (match nearest r l with Some (i, _) => i | None => O end) (r, true) l.
Definition moved (ys req : list R) : list R := map fst (fold_left move_one req (map (fun y => (y, false)) ys)).
(** 412: sorted *)
Fixpoint insert (x : R) (l : list R) : list R := match l with [] => [x] | y :: r => if Rltb y x then y :: insert x r else x :: l end.
Fixpoint sorted (l : list R) : list R := match l with [] => [] | x :: r => insert x (sorted r) end.
Definition has (x : R) (l : list R) : bool := existsb (fun y => if Req_EM_T x y then true else false) l.
(** 402-416: [breaks] is the number of sections *)
Definition spanwise (breaks : nat) (ys req : list R) : result (list R) :=
  if Nat.ltb (length ys) breaks then Err ValueError else
  let l := sorted (moved ys req) in
  if forallb (fun r => has r l) req then Ok l else Err ValueError.
(** 326-327: a control surface has a strip for each of the parent's *)
Definition strips_of (surface : option (list R)) (n : nat) : nat := match surface with Some req => Nat.max (length req - 1) 1 | None => n end.
Definition rows_of (fraction : option R) (n : nat) : Z := match fraction with Some f => Z.max (- (up (- (f * INR n)) - 1)) 2 | None => Z.of_nat n end.
(** 405-412, 426-440, 720: the strips with the number of the section they start from *)
Fixpoint strips (breaks : list R) (i : nat) (ys : list R) : result (list (nat * R * R)) :=
  match ys with
  | ya :: ((yb :: _) as rest) =>
      match nth_error breaks (S i) with
      | None => Err IndexError
      | Some next => bind (strips breaks (if Req_EM_T yb next then S i else i) rest) (fun l => Ok ((i, ya, yb) :: l))
      end
  | _ => Ok []
  end.

(** ** panels *)
(** 363-395: a section; chord, twist, leading edge offsets, and dihedral, leading edge sweep, camber line and cuts of the part outboard of it; the place is in the span direction *)
Record station := { s_y : R; s_chord : R; s_twist : R; s_x : R; s_z : R; s_dihedral : R; s_sweep : R; s_camber : list (R * R); s_le : R; s_te : R }.
(** 301-311, 536, 585; [w_cut]: chord fraction and whether a slat, of a control surface *)
Record surface := { w_origin : v3; w_vertical : bool; w_symmetric : bool; w_cut : option (R * bool) }.
(** 379-380, 397: area *)
Fixpoint planform_area (l : list station) : R :=
  match l with a :: ((b :: _) as r) => 5 / 10 * (s_chord a + s_chord b) * (s_y b - s_y a) + planform_area r | _ => 0 end.
(** 503-508, 592-594: chord and twist [eta] outboard of section [a], towards section [b] *)
Definition chord_at (a b : station) (eta : R) : R := s_chord a + eta * ((s_chord b - s_chord a) / (s_y b - s_y a)).
Definition twist_at (a b : station) (eta : R) : R := s_twist a + eta * ((s_twist b - s_twist a) / (s_y b - s_y a)).
(** 511-514: panel edges behind the leading edge, [k] of [n] *)
Definition edge (a : station) (chord : R) (n k : nat) : R := (s_le a + (s_te a - s_le a) * (INR k / INR n)) * chord.
(** 534-549 *)
Definition camber_line (w : surface) (a : station) : list (R * R) :=
  match w_cut w with
  | None => s_camber a
  | Some (f, slat) => map (fun p => ((fst p - (if slat : bool then 0 else 1 - f)) / f, snd p / f)) (s_camber a)
  end.
Definition camber (w : surface) (a : station) (chord x : R) : R := interp x (map (fun p => (fst p * chord, snd p * chord)) (camber_line w a)).
(** 576-589 *)
Definition pivot_x (w : surface) (a : station) (eta chord : R) : R :=
  let x := s_x a + eta * tan (s_sweep a) in match w_cut w with Some (f, false) => x - (1 - f) * (chord / f) | _ => x end.
Definition pivot_z (a : station) (eta : R) : R := s_z a + eta * tan (s_dihedral a).
(** 521-530, 563-572: before twist *)
Definition flat_x (a : station) (eta x : R) : R := s_x a + eta * tan (s_sweep a) + x.
Definition flat_z (w : surface) (a : station) (eta chord x : R) : R := s_z a + eta * tan (s_dihedral a) + camber w a chord x.
(** 596-616 *)
Definition turned_x (px pz t x z : R) : R := px + cos t * (x - px) + sin t * (z - pz).
Definition turned_z (px pz t x z : R) : R := pz - sin t * (x - px) + cos t * (z - pz).
(** the point [x] behind the leading edge, [eta] outboard of [a]; [x'] is where line 598 and 602 take the height from *)
Definition twisted (w : surface) (a b : station) (eta x x' : R) : R * R :=
  let c := chord_at a b eta in let px := pivot_x w a eta c in let pz := pivot_z a eta in let t := twist_at a b eta in
  (turned_x px pz t (flat_x a eta x) (flat_z w a eta c x'), turned_z px pz t (flat_x a eta x) (flat_z w a eta c x)).
(** 501; [side]: 1 or -1 *)
Definition inverted (a : station) : R := - sign (s_dihedral a - PI / 2).
(** 486-488, 620-658, 730-766 *)
Definition placed (w : surface) (a : station) (side y : R) (xz : R * R) : v3 :=
  let v := if w_vertical w then 1 else 0 in
  let o := V3 (vx (w_origin w)) (vy (w_origin w) * ((1 - v) * side + v)) (vz (w_origin w) * ((1 - v) + side * v)) in
  vmore (if w_vertical w then V3 (fst xz) (snd xz) (inverted a * (y * side)) else V3 (fst xz) (y * side) (snd xz)) o.
(** corners, ends and middle of the bound vortex, ends and middle of the line of control points *)
Record points := { t_a1 : v3; t_ah : v3; t_ac : v3; t_a2 : v3; t_b1 : v3; t_bh : v3; t_bc : v3; t_b2 : v3; t_ch : v3; t_c : v3 }.
(** 496-692: panel [k] of [n] of the strip from [ya] to [yb] *)
Definition panel_points (w : surface) (n : nat) (a b : station) (side ya yb : R) (k : nat) : points :=
  let eta_a := ya - s_y a in let eta_b := yb - s_y a in let yc := yb - (yb - ya) / 2 in let eta := yb - (yb - ya) / 2 - s_y a in
  let at_ e f := let c := chord_at a b e in edge a c n k + (edge a c n n - edge a c n 0) / INR n * f in
  let foot e := edge a (chord_at a b e) n (S k) in let head e := edge a (chord_at a b e) n k in
  let p y e x x' := placed w a side y (twisted w a b e x x') in
  {| t_a1 := p ya eta_a (head eta_a) (head eta_a);
     t_ah := p ya eta_a (at_ eta_a (25 / 100)) (at_ eta_a (25 / 100));
     t_ac := p ya eta_a (at_ eta_a (75 / 100)) (foot eta_a);
     t_a2 := p ya eta_a (foot eta_a) (foot eta_a);
     t_b1 := p yb eta_b (head eta_b) (head eta_b);
     t_bh := p yb eta_b (at_ eta_b (25 / 100)) (at_ eta_b (25 / 100));
     t_bc := p yb eta_b (at_ eta_b (75 / 100)) (head eta_b);
     t_b2 := p yb eta_b (foot eta_b) (foot eta_b);
     t_ch := p yc eta (at_ eta (25 / 100)) (at_ eta (25 / 100));
     t_c := p yc eta (at_ eta (75 / 100)) (at_ eta (75 / 100)) |}.
Definition no_station : station := {| s_y := 0; s_chord := 0; s_twist := 0; s_x := 0; s_z := 0; s_dihedral := 0; s_sweep := 0; s_camber := []; s_le := 0; s_te := 0 |}.
(** 493-727 for one side *)
Definition side_points (w : surface) (n : nat) (l : list station) (ys : list R) (side : R) : result (list points) :=
  bind (strips (map s_y l) 0 ys) (fun st =>
  Ok (concat (map (fun '(i, ya, yb) => map (panel_points w n (nth i l no_station) (nth (S i) l no_station) side ya yb) (seq 0 n)) st))).
(** 446-448 *)
Definition sides (w : surface) : list R := if w_symmetric w then [1; -1] else [1].
Definition corners (p : points) : panel := {| q_a1 := t_a1 p; q_b1 := t_b1 p; q_a2 := t_a2 p; q_b2 := t_b2 p |}.

(** ** lists of panels: 700-717, 771-786 *)
Record books := { k_cp : nat; k_chordwise : list nat; k_spanwise : list nat; k_sw : list nat; k_cw : list nat; k_id : list Z;
  k_le : list bool; k_te : list bool; k_rnmax : list nat; k_number : list nat }.
Definition no_books : books := {| k_cp := 0; k_chordwise := []; k_spanwise := []; k_sw := []; k_cw := []; k_id := []; k_le := []; k_te := []; k_rnmax := []; k_number := [] |}.
(** one side of a wing: [sw] strips of [cw] panels; the wing's number times the side *)
Definition keep (b : books) (s : nat * nat * Z) : books :=
  let '(sw, cw, id) := s in
  {| k_cp := k_cp b + cw * sw;
     k_chordwise := k_chordwise b ++ map (fun j => length (k_id b) + j * cw)%nat (seq 0 sw);
     k_spanwise := k_spanwise b ++ [length (k_chordwise b)];
     k_sw := k_sw b ++ [sw]; k_cw := k_cw b ++ [cw]; k_id := k_id b ++ repeat id (cw * sw);
     k_le := k_le b ++ concat (repeat (map (fun k => Nat.eqb k 0) (seq 0 cw)) sw);
     k_te := k_te b ++ concat (repeat (map (fun k => Nat.eqb (S k) cw) (seq 0 cw)) sw);
     k_rnmax := k_rnmax b ++ concat (repeat (repeat cw cw) sw);
     k_number := k_number b ++ concat (repeat (seq 1 cw) sw) |}.
Definition all_books (l : list (nat * nat * Z)) : books := fold_left keep l no_books.

(** ** deflection: deflect_control_surface.py *)
(** 475-522 *)
Definition hinge_turn (p u : v3) (angle : R) (x : v3) : v3 :=
  let a := vx p in let b := vy p in let c := vz p in let i := vx u in let j := vy u in let k := vz u in
  let co := cos angle in let si := sin angle in
  V3 ((i * i + (j * j + k * k) * co) * vx x + (i * j * (1 - co) - k * si) * vy x + (i * k * (1 - co) + j * si) * vz x
        + ((a * (j * j + k * k) - i * (b * j + c * k)) * (1 - co) + (b * k - c * j) * si))
     ((i * j * (1 - co) + k * si) * vx x + (j * j + (i * i + k * k) * co) * vy x + (j * k * (1 - co) - i * si) * vz x
        + ((b * (i * i + k * k) - j * (a * i + c * k)) * (1 - co) + (c * i - a * k) * si))
     ((i * k * (1 - co) - j * si) * vx x + (j * k * (1 - co) + i * si) * vy x + (k * k + (i * i + j * j) * co) * vz x
        + ((c * (i * i + j * j) - k * (a * i + b * j)) * (1 - co) + (a * j - b * i) * si)).
(** 557-618 *)
Definition flip_1 (v : bool) (inv : R) (a : v3) : v3 := if v then V3 (vx a) (vz a * inv) (vy a) else a.
Definition flip_2 (v : bool) (inv : R) (a : v3) : v3 := if v then V3 (vx a) (vz a) (vy a * inv) else a.
(** 362-365: interpolation between two corners, for a hinge fraction from 0 to 1 *)
Definition between (f : R) (a b : v3) : v3 :=
  let g x y := interp f [(0, x); (1, y)] in V3 (g (vx a) (vx b)) (g (vy a) (vy b)) (g (vz a) (vz b)).
(** a deflectable surface: [d_cs]: a control surface, not an all-moving one; [d_sides]: the strips of each side, in order of [sides] *)
Record moving := { d_vertical : bool; d_inverted : R; d_cs : bool; d_slat : bool; d_dup : R; d_fraction : R; d_constant : bool;
  d_hinge : v3; d_last : R; d_sides : list (list (list points)) }.
Definition map_points (f : v3 -> v3) (p : points) : points :=
  {| t_a1 := f (t_a1 p); t_ah := f (t_ah p); t_ac := f (t_ac p); t_a2 := f (t_a2 p); t_b1 := f (t_b1 p); t_bh := f (t_bh p); t_bc := f (t_bc p);
     t_b2 := f (t_b2 p); t_ch := f (t_ch p); t_c := f (t_c p) |}.
Definition no_points : points := let z := V3 0 0 0 in {| t_a1 := z; t_ah := z; t_ac := z; t_a2 := z; t_b1 := z; t_bh := z; t_bc := z; t_b2 := z; t_ch := z; t_c := z |}.
Definition is_zero (a : v3) : bool := if Req_EM_T (vx a) 0 then if Req_EM_T (vy a) 0 then if Req_EM_T (vz a) 0 then true else false else false else false.
(** 357-392: hinge point and direction from the first strip, whose panels are [s] in flipped axes; [h]: the direction kept so far.
    A direction set before is used as it is, y and z exchanged for a vertical surface *)
Definition hinge_of (m : moving) (h : v3) (s : list points) : v3 * v3 :=
  let first := hd no_points s in let final := last s no_points in
  let ib := between (d_fraction m) (t_a1 first) (t_a2 final) in
  if d_cs m || d_constant m || is_zero h then
    let ob := between (d_fraction m) (t_b1 first) (t_b2 final) in
    let ob := if negb (d_cs m) && negb (d_constant m) then V3 (vx ib) (vy ob) (vz ob) else ob in
    let v := vless ob ib in (ib, vtimes3 (/ npnorm v) v)
  else (ib, if d_vertical m then V3 (vx h) (vz h) (vy h) else h).
(** 396-401 *)
Definition turn_angle (m : moving) (mirror : bool) (d : R) : R :=
  (if d_slat m then -1 else 1) * (if mirror then - d_dup m else 1) * (if d_vertical m then -1 else 1) * (d - d_last m).
(** 98-255: one side *)
Definition deflect_side (m : moving) (h : v3) (mirror : bool) (d : R) (strips : list (list points)) : v3 * list (list points) :=
  let f1 := map (map (map_points (flip_1 (d_vertical m) (d_inverted m)))) strips in
  let '(p, u) := hinge_of m h (hd [] f1) in
  (u, map (map (map_points (fun x => flip_2 (d_vertical m) (d_inverted m) (hinge_turn p u (turn_angle m mirror d) x)))) f1).
(** 61-262; without strips the hinge is never set *)
Fixpoint deflect_sides (m : moving) (h : v3) (mirror : bool) (d : R) (l : list (list (list points))) : v3 * list (list (list points)) :=
  match l with
  | [] => (h, [])
  | s :: r => let '(u, s') := deflect_side m h mirror d s in let '(u', r') := deflect_sides m u true d r in (u', s' :: r')
  end.
Definition deflect (m : moving) (d : R) : moving :=
  let '(h, l) := deflect_sides m (d_hinge m) false d (d_sides m) in
  {| d_vertical := d_vertical m; d_inverted := d_inverted m; d_cs := d_cs m; d_slat := d_slat m; d_dup := d_dup m; d_fraction := d_fraction m;
     d_constant := d_constant m; d_hinge := h; d_last := d; d_sides := l |}.
