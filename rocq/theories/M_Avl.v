(** * Geometry for AVL: model

    Sources, under /repo/trunk/SUAVE/Methods/Aerodynamics/AVL: CD = create_avl_datastructure.py, WG = write_geometry.py, WM = write_mass_file.py.
    Numbers are reals.  Files of airfoils are names only; tags of sections are left out: containers keep the order in which sections come and no two sections of a wing
    bear one tag. *)
From Coq Require Import Reals Bool Arith String List.
From Verif Require Import PyBase M_Opt M_Noise M_Field M_Drag.
Import ListNotations.
Local Open Scope R_scope.
Local Open Scope list_scope.

(** numpy sign *)
Definition sgn (x : R) : R := if Rltb 0 x then 1 else if Rltb x 0 then - 1 else 0.

(** control surfaces of the vehicle: name, span fractions of start and end, chord fraction, deflection, class *)
Inductive cclass := Aileron | Slat | Flap | Elevator | Rudder | Strange.
Record ctl := Ctl { k_name : string; k_start : R; k_end : R; k_chord : R; k_defl : R; k_class : cclass }.
(** control surfaces of AVL *)
Record csurf := CSurf { c_name : string; c_sign : R; c_hinge : R; c_defl : R; c_order : nat; c_gain : R }.
(** segments of a wing: leading-edge sweep if given, quarter-chord sweep, chord and span fractions, dihedral, twist, airfoil *)
Record seg := Seg { s_le : option R; s_qc : R; s_chord : R; s_span : R; s_dih : R; s_twist : R; s_air : option string }.
Definition place : Set := (R * R * R)%type.
Definition px (p : place) : R := fst (fst p).
Definition py (p : place) : R := snd (fst p).
Definition pz (p : place) : R := snd p.
(** sections of AVL; twist in degrees *)
Record sec := Sec { e_at : place; e_chord : R; e_twist : R; e_air : option string; e_ctl : list csurf }.

(** CD 122: semispan, with symmetric as 1 or 0 *)
Definition semispan (projected : R) (symmetric : bool) : R := projected * (1 / 2) * (2 - (if symmetric then 1 else 0)).
(** CD 135-145 *)
Definition le_sweep (root semi : R) (a b : seg) : R :=
  match s_le a with
  | Some s => s
  | None =>
    let span := semi * (s_span b - s_span a) in
    atan ((root * s_chord a * (1 / 4) + (tan (s_qc a) * span - 1 / 4 * (root * s_chord b))) / span)
  end.
(** CD 183-186, 192-194: which way round *)
Definition way (vertical : bool) (dih : R) : R :=
  let s := if vertical then - sgn (Rabs dih - PI / 2) else sgn dih in if Req_EM_T s 0 then 1 else s.
(** CD 187-199, 322-332: a step outwards by [d] *)
Definition outwards (vertical : bool) (dih sweep d : R) (o : place) : place :=
  if vertical then (px o + d / cos dih * tan sweep, py o + d * tan dih, pz o + d)
  else (px o + d / cos dih * tan sweep, py o + d, pz o + d * tan dih).

(** ** append_avl_wing_control_surfaces: CD 285-408 *)
(** 296: sorted(list(set(.))) *)
Fixpoint insert_new (x : R) (l : list R) : list R :=
  match l with
  | [] => [x]
  | y :: r => if Rltb x y then x :: l else if Rltb y x then y :: insert_new x r else l
  end.
Definition ordered (l : list R) : list R := fold_right insert_new [] l.
(** 286-295 *)
Definition within (semi root tip : R) (x : R) : list R :=
  if Rltb (semi * x) (semi * tip) && negb (Rltb (semi * x) (semi * root)) then [semi * x] else [].
Definition breaks (semi root tip : R) (cs : list ctl) : list R :=
  ordered (flat_map (fun c => within semi root tip (k_start c) ++ within semi root tip (k_end c)) cs).
(** 338-366 and, the same, 370-398 *)
Definition control (index : nat) (c : ctl) : result csurf :=
  let mk sign hinge gain := Ok (CSurf (k_name c) sign hinge (k_defl c / degree) index gain) in
  match k_class c with
  | Aileron => mk (- 1) (1 - k_chord c) (- 1)
  | Slat => mk 1 (- k_chord c) (- 1)
  | Flap | Elevator | Rudder => mk 1 (1 - k_chord c) 1
  | Strange => Err AttributeError
  end.
(** 335-398: at the start or the end, or in between *)
Definition covers (semi : R) (c : ctl) (x : R) : bool :=
  (if Req_EM_T (semi * k_start c) x then true else false) || (if Req_EM_T x (semi * k_end c) then true else false)
  || (Rltb (semi * k_start c) x && Rltb x (semi * k_end c)).
Fixpoint carried (semi x : R) (cs : list ctl) (index : nat) : result (list csurf) :=
  match cs with
  | [] => Ok []
  | c :: r =>
    if covers semi c x then bind (control index c) (fun d => bind (carried semi x r (S index)) (fun l => Ok (d :: l)))
    else carried semi x r (S index)
  end.
(** the airfoil of the outer segment: None, an Airfoil container's (file or NACA name), or, for a wing without segments, the bare file name (222-225), which has no
    attribute `airfoil` *)
Inductive tipfoil := NoFoil | Foil (f : option string) | Bare (f : option string).
Definition tip_foil (t : tipfoil) : result (option string) :=
  match t with NoFoil => Ok None | Foil f => Ok f | Bare (Some _) => Err AttributeError | Bare None => Ok None end.
(** what one call reads; [r_root], [r_tip]: span fractions *)
Record span := Span {
  r_vertical : bool; r_semi : R; r_chord : R; r_rootc : R; r_tipc : R; r_root : R; r_tip : R; r_roott : R; r_tipt : R; r_foil : tipfoil; r_dih : R; r_sweep : R; r_at : place }.
(** 307-332, 400-404 *)
Definition break_section (p : span) (cs : list ctl) (x : R) : result sec :=
  let f := (x - r_semi p * r_root p) / (r_semi p * (r_tip p - r_root p)) in
  let chord := interp f [(0, r_chord p * r_rootc p); (1, r_chord p * r_tipc p)] in
  let twist := interp f [(0, r_roott p / degree); (1, r_chord p * r_tipt p / degree)] in
  let d := x - way (r_vertical p) (r_dih p) * r_semi p * r_root p in
  bind (carried (r_semi p) x cs 0) (fun l =>
  bind (tip_foil (r_foil p)) (fun a =>
  Ok (Sec (outwards (r_vertical p) (r_dih p) (r_sweep p) d (r_at p)) chord twist a l))).
(** 299-304, 406: a break at the inner end takes the place of the last section *)
Fixpoint append_breaks (p : span) (cs : list ctl) (xs : list R) (acc : list sec) : result (list sec) :=
  match xs with
  | [] => Ok acc
  | x :: r =>
    bind (if Req_EM_T x (r_semi p * r_root p) then match acc with [] => Err IndexError | _ => Ok (removelast acc) end else Ok acc) (fun acc' =>
    bind (break_section p cs x) (fun s => append_breaks p cs r (acc' ++ [s])))
  end.
Definition append_controls (p : span) (cs : list ctl) (acc : list sec) : result (list sec) :=
  append_breaks p cs (breaks (r_semi p) (r_root p) (r_tip p) cs) acc.

(** ** populate_wing_sections, with segments: CD 129-199 *)
Definition seg_section (root : R) (a : seg) (o : place) : sec := Sec o (root * s_chord a) (s_twist a / degree) (s_air a) [].
Definition between (vertical : bool) (semi root : R) (a b : seg) (o : place) : span :=
  Span vertical semi root (s_chord a) (s_chord b) (s_span a) (s_span b) (s_twist a) (s_twist b)
    (match s_air b with Some f => Foil (Some f) | None => NoFoil end) (s_dih a) (le_sweep root semi a b) o.
Definition next_place (vertical : bool) (semi root : R) (a b : seg) (o : place) : place :=
  outwards vertical (s_dih a) (le_sweep root semi a b) (way vertical (s_dih a) * semi * (s_span b - s_span a)) o.
Fixpoint walk (vertical : bool) (semi root : R) (cs : list ctl) (sgs : list seg) (o : place) (acc : list sec) : result (list sec) :=
  match sgs with
  | [] => Ok acc
  | a :: r =>
    let acc1 := acc ++ [seg_section root a o] in
    match r with
    | [] => Ok acc1
    | b :: _ =>
      bind (match cs with [] => Ok acc1 | _ => append_controls (between vertical semi root a b o) cs acc1 end) (fun acc2 =>
      walk vertical semi root cs r (next_place vertical semi root a b o) acc2)
    end
  end.
Definition wing_sections (vertical : bool) (semi root : R) (cs : list ctl) (sgs : list seg) (o : place) : result (list sec) := walk vertical semi root cs sgs o [].

(** ** populate_wing_sections, without segments: CD 201-250.  [foil]: None without an airfoil, else its coordinate file, which may be None *)
Record plainwing := Plain { w_vertical : bool; w_semi : R; w_root : R; w_tip : R; w_taper : R; w_roott : R; w_tipt : R; w_dih : R; w_le : option R; w_qc : R; w_foil : option (option string) }.
Definition plain_sweep (w : plainwing) : R :=
  match w_le w with
  | Some s => s
  | None => atan ((w_root w * (1 / 4) + (tan (w_qc w) * w_semi w - 1 / 4 * w_tip w)) / w_semi w)
  end.
Definition plain_sections (w : plainwing) (cs : list ctl) (o : place) : result (list sec) :=
  let sw := plain_sweep w in
  let p := Span (w_vertical w) (w_semi w) (w_root w) 1 (w_taper w) 0 1 (w_roott w) (w_tipt w)
             (match w_foil w with Some f => Bare f | None => NoFoil end) (w_dih w) sw o in
  bind (append_controls p cs []) (fun acc =>
  let f := match w_foil w with Some f => f | None => None end in
  let tip := if w_vertical w then (px o + w_semi w * tan sw, py o + w_semi w * tan (w_dih w), pz o + w_semi w)
             else (px o + w_semi w * tan sw, py o + w_semi w, pz o + w_semi w * tan (w_dih w)) in
  Ok (acc ++ [Sec o (w_root w) (w_roott w / degree) f []; Sec tip (w_tip w) (w_tipt w / degree) f []])).

(** ** make_surface_text: WG 167-190: the sections in the order in which they are written, by height for vertical surfaces and else by span; python's sort is stable *)
Fixpoint put (key : sec -> R) (x : sec) (l : list sec) : list sec :=
  match l with [] => [x] | y :: r => if Rltb (key y) (key x) then y :: put key x r else x :: l end.
Definition written (vertical : bool) (l : list sec) : list sec :=
  fold_right (put (fun s => if vertical then pz (e_at s) else py (e_at s))) [] l.

(** ** populate_body_sections: CD 435-477, one of the two directions: [half] is half the width or the height; place of the leading edge along the axis, place across, chord *)
Definition curvature (fineness : R) : R :=
  let x := linspace 0 1 4 in
  interp (interp fineness (map2 pair [1; 157 / 100; 32 / 10; 8] x)) (map2 pair x [2; 15 / 10; 12 / 10; 1]).
Definition rounded (half c w len : R) : R := pw (1 - pw (Rabs (w / half)) c) (1 / c) * len.
Definition body_sections (half total nose tail fnose ftail x0 : R) : list (R * R * R) :=
  if Req_EM_T half 0 then []
  else map (fun w =>
    let n := rounded half (curvature fnose) w nose in
    let t := rounded half (curvature ftail) w tail in
    (x0 + (nose - n), w, total - (nose + tail) + n + t)) (linspace (- half) half 11).

(** ** write_mass_file: WM 70-75: the mass written *)
Definition written_mass (mass max_takeoff : R) : result R :=
  if Req_EM_T mass 0 then Ok max_takeoff else if Req_EM_T max_takeoff 0 then Ok mass else Err AttributeError.
