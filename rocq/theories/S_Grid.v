(** * Wings as panels: the words the properties use *)
From Coq Require Import Reals List Bool Arith ZArith.
From Verif Require Import PyBase M_Opt M_Rot M_Evtol M_Vlm M_Grid S_Vlm S_Rot.
Import ListNotations.
Local Open Scope R_scope.

(** each is larger than the ones before *)
Definition ascending (l : list R) : Prop := forall i j, (i < j < length l)%nat -> nth i l 0 < nth j l 0.
(** a number is given when it is not None and not 0 *)
Definition given (o : option nat) : Prop := exists k, o = Some (S k).
(** a wing without camber *)
Definition uncambered (a : station) : Prop := Forall (fun p => snd p = 0) (s_camber a).
(** the part of the way from [a] to [b] *)
Definition part (f : R) (a b : v3) : v3 := plus a (scaled f (minus b a)).
(** mirrored left to right, or top to bottom for a vertical wing *)
Definition opposite (vertical : bool) (a : v3) : v3 := if vertical then V3 (vx a) (vy a) (- vz a) else mirror a.
(** true area of the part outboard of each section, between its cuts: trapezoids in planes turned by the dihedral *)
Fixpoint surface_area (l : list station) : R :=
  match l with
  | a :: ((b :: _) as r) => (s_chord a + s_chord b) / 2 * (s_te a - s_le a) * ((s_y b - s_y a) / cos (s_dihedral a)) + surface_area r
  | _ => 0
  end.
(** [y] is [x] turned by [angle] about the line through [p] along the unit vector [u], by the right hand rule *)
Definition turned_about (p u : v3) (angle : R) (x y : v3) : Prop :=
  let r := minus x p in let s := minus y p in
  let across v := minus v (scaled (vdot v u) u) in
  vdot s u = vdot r u /\ across s = plus (scaled (cos angle) (across r)) (scaled (sin angle) (cross u r)).
(** the hinge line of a side: at the same fraction of the chord at both edges of its first strip *)
Definition inner_hinge (m : moving) (side : list (list points)) : v3 :=
  part (d_fraction m) (t_a1 (hd no_points (hd [] side))) (t_a2 (last (hd [] side) no_points)).
Definition outer_hinge (m : moving) (side : list (list points)) : v3 :=
  part (d_fraction m) (t_b1 (hd no_points (hd [] side))) (t_b2 (last (hd [] side) no_points)).
Definition unit_from (a b : v3) : v3 := scaled (/ norm (minus b a)) (minus b a).
(** a hinge line can be drawn on every side; surfaces whose hinge is at a fraction of the chord *)
Record hinged (m : moving) : Prop := {
  hg_kind : d_cs m = true \/ d_constant m = true;
  hg_fraction : 0 <= d_fraction m <= 1;
  hg_line : Forall (fun s => inner_hinge m s <> outer_hinge m s) (d_sides m);
  hg_upright : d_vertical m = true -> d_inverted m = 1 \/ d_inverted m = -1 }.
(** which way a positive deflection turns a side, about the hinge line pointing outwards *)
Definition way (m : moving) (mirrored : bool) : R :=
  (if d_slat m then -1 else 1) * (if mirrored then - d_dup m else 1) * (if d_vertical m then d_inverted m else 1).
Definition every (f : v3 -> v3) (side : list (list points)) : list (list points) := map (map (map_points f)) side.
(** a wing whose area has a simple formula *)
Record plain (a : station) : Prop := { pl_camber : uncambered a; pl_twist : s_twist a = 0; pl_dihedral : 0 < cos (s_dihedral a); pl_cuts : s_le a <= s_te a; pl_chord : 0 <= s_chord a }.
(** panels and strips in all of these sides: strips, panels per strip, the wing's number with the side's sign *)
Fixpoint panels_in (l : list (nat * nat * Z)) : nat := match l with [] => O | (sw, cw, _) :: r => (cw * sw + panels_in r)%nat end.
Fixpoint strips_in (l : list (nat * nat * Z)) : nat := match l with [] => O | (sw, _, _) :: r => (sw + strips_in r)%nat end.
(** every list has an element per panel, strip or side *)
Record sizes (l : list (nat * nat * Z)) (b : books) : Prop := {
  sz_cp : k_cp b = panels_in l; sz_id : length (k_id b) = panels_in l; sz_le : length (k_le b) = panels_in l; sz_te : length (k_te b) = panels_in l;
  sz_rnmax : length (k_rnmax b) = panels_in l; sz_number : length (k_number b) = panels_in l; sz_chordwise : length (k_chordwise b) = strips_in l;
  sz_spanwise : length (k_spanwise b) = length l; sz_sw : k_sw b = map (fun s => fst (fst s)) l; sz_cw : k_cw b = map (fun s => snd (fst s)) l }.
(** the elements of the side that follows [before] *)
Record entry (before : list (nat * nat * Z)) (sw cw : nat) (id : Z) (b : books) : Prop := {
  en_spanwise : nth (length before) (k_spanwise b) O = strips_in before;
  en_chordwise : forall q, (q < sw)%nat -> nth (strips_in before + q) (k_chordwise b) O = (panels_in before + q * cw)%nat;
  en_panels : forall j, (j < cw * sw)%nat -> let at_ := (panels_in before + j)%nat in
    nth at_ (k_id b) 0%Z = id /\ nth at_ (k_rnmax b) O = cw /\ nth at_ (k_number b) O = S (j mod cw) /\
    nth at_ (k_le b) false = Nat.eqb (j mod cw) 0 /\ nth at_ (k_te b) false = Nat.eqb (S (j mod cw)) cw }.
