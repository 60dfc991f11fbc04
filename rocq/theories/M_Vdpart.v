(** * Panels of one wing, and the equivalent area due to lift: model

    Sources in /repo/trunk/SUAVE/Methods/: EX = Aerodynamics/Common/Fidelity_Zero/Lift/extract_wing_VD.py,
    GV = Aerodynamics/Common/Fidelity_Zero/Lift/generate_vortex_distribution.py, LA = Noise/Boom/lift_equivalent_area.py.
    The vortex lattice solution is an arbitrary pressure coefficient per panel.  Flight conditions are those of one point. *)
From Coq Require Import Reals ZArith Bool List.
From Verif Require Import PyBase.
Import ListNotations.

(** ** Panels of one wing *)
Section Panels.
Variable P : Type.   (* what is stored per panel: the columns XC ... ZB2 *)
(** one half of a wing or of a body: panels along the chord and along the span, and the panels *)
Record block := Block { b_cw : Z; b_sw : Z; b_pts : list P }.
(** a wing, with its mirror image if symmetric *)
Definition wing := (block * option block)%type.
Definition blocks (w : wing) : list block := fst w :: match snd w with Some b => [b] | None => [] end.
Record vd := Vd { v_pts : list P; v_cw : list Z; v_sw : list Z; v_sym : list Z }.
(** GV 783-828, 1162-1163: wings first, then nacelles and fuselages, which have no entry in symmetric_wings *)
Definition layout (ws : list wing) (bodies : list block) : vd :=
  let bs := flat_map blocks ws ++ bodies in
  Vd (flat_map b_pts bs) (map b_cw bs) (map b_sw bs) (map (fun w : wing => match snd w with Some _ => 1%Z | None => 0%Z end) ws).
(** products of numpy int16 *)
Definition int16 (z : Z) : Z := ((z + 32768) mod 65536 - 32768)%Z.
Fixpoint cumsum (s : Z) (l : list Z) : list Z := match l with [] => [] | x :: r => (s + x)%Z :: cumsum (s + x)%Z r end.
Fixpoint products (a b : list Z) : list Z := match a, b with x :: r, y :: t => int16 (x * y) :: products r t | _, _ => [] end.
(** EX 54 *)
Definition breaks (v : vd) : list Z := 0%Z :: cumsum 0 (products (v_cw v) (v_sw v)).
(** indexing, from the end if negative *)
Definition item {A} (l : list A) (i : Z) : result A :=
  let n := Z.of_nat (length l) in
  if (i <? 0)%Z then (if (i + n <? 0)%Z then Err IndexError else match nth_error l (Z.to_nat (i + n)) with Some x => Ok x | None => Err IndexError end)
  else match nth_error l (Z.to_nat i) with Some x => Ok x | None => Err IndexError end.
Fixpoint items {A} (l : list A) (is : list Z) : result (list A) :=
  match is with [] => Ok [] | i :: r => bind (item l i) (fun x => bind (items l r) (fun xs => Ok (x :: xs))) end.
(** range(a, b) *)
Definition range (a b : Z) : list Z := map (fun k => (a + Z.of_nat k)%Z) (seq 0 (Z.to_nat (b - a))).
(** EX 50-92 for the wing number [k]: panels, their indices, and panels along chord and span per half *)
Definition extract (v : vd) (k : nat) : result (list P * list Z * list Z * list Z) :=
  let semi := (Z.of_nat k + fold_right Z.add 0%Z (firstn k (v_sym v)))%Z in
  bind (item (breaks v) semi) (fun a =>
  bind (item (v_sym v) (Z.of_nat k)) (fun s =>
  let e := (semi + 1 + s)%Z in
  bind (item (breaks v) e) (fun b =>
  bind (items (v_pts v) (range a b)) (fun ps =>
  bind (items (v_cw v) (range semi e)) (fun cw =>
  bind (items (v_sw v) (range semi e)) (fun sw => Ok (ps, range a b, cw, sw))))))).
End Panels.
Arguments Block {P}. Arguments b_cw {P}. Arguments b_sw {P}. Arguments b_pts {P}. Arguments blocks {P}. Arguments layout {P}.
Arguments v_pts {P}. Arguments v_cw {P}. Arguments v_sw {P}. Arguments v_sym {P}. Arguments breaks {P}. Arguments extract {P}. Arguments wing P : clear implicits.

Local Open Scope R_scope.
(** ** Equivalent area due to lift *)
(** a panel: pressure coefficient, vertical part of the normal, area, place *)
Record panel := Panel { p_cp : R; p_nz : R; p_area : R; p_x : R; p_z : R }.
Section Area.
Variables (q mach aoa len : R).
(** LA 67 *)
Definition lift_of (p : panel) : R := p_cp p * q * p_nz p * p_area p * cos aoa.
(** LA 70-73 *)
Definition shifted (p : panel) : R := p_x p + p_z p * tan (asin (1 / mach)).
(** LA 76-82: sorted places without repetition, with the sum of the lift at each; as insertion of one panel into the table of the others *)
Fixpoint put (x f : R) (t : list (R * R)) : list (R * R) :=
  match t with
  | [] => [(x, f)]
  | (y, g) :: r => if Rlt_dec x y then (x, f) :: t else if Req_EM_T x y then (y, g + f) :: r else (y, g) :: put x f r
  end.
Definition stations (ps : list panel) : list (R * R) := fold_right (fun p t => put (shifted p) (lift_of p) t) [] ps.
(** LA 87 *)
Fixpoint running (s : R) (l : list R) : list R := match l with [] => [] | x :: r => (s + x) :: running (s + x) r end.
(** LA 87-98; without panels the last area is an IndexError *)
Definition equivalent (ps : list panel) : result (list R * list R) :=
  let t := stations ps in
  let ae := map (fun s => sqrt (mach ^ 2 - 1) / (2 * q) * s) (running 0 (map snd t)) in
  match t with
  | [] => Err IndexError
  | _ => Ok (0 :: map fst t ++ [len * (125 / 100)], 0 :: ae ++ [last ae 0])
  end.
End Area.
