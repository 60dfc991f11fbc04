(** * Vortex lattice: the words the properties use *)
From Coq Require Import Reals List Bool Arith.
From Verif Require Import PyBase M_Opt M_Rot S_Wing M_Evtol S_Elec M_Vlm S_Rot.
Import ListNotations.
Local Open Scope R_scope.

Definition minus (a b : v3) : v3 := V3 (vx a - vx b) (vy a - vy b) (vz a - vz b).
(** ** Biot and Savart: the velocity at [o] from a straight piece of vortex from [a] to [b], 4 pi times, per unit of circulation *)
Definition point_on (a b : v3) (l : R) : v3 := plus a (scaled l (minus b a)).
Definition savart (a b o : v3) (l : R) : v3 :=
  let r := minus o (point_on a b l) in scaled (/ (norm r * norm r * norm r)) (cross (minus b a) r).
Definition of_segment (a b o v : v3) : Prop :=
  integral (fun l => vx (savart a b o l)) 0 1 (vx v) /\ integral (fun l => vy (savart a b o l)) 0 1 (vy v) /\ integral (fun l => vz (savart a b o l)) 0 1 (vz v).
(** a horseshoe: downstream (along x) to [a], on to [b], back downstream; legs of length [L] *)
Definition of_horseshoe (L : R) (a b o v : v3) : Prop :=
  exists u m w, of_segment (plus a (scaled L e_x)) a o u /\ of_segment a b o m /\ of_segment b (plus b (scaled L e_x)) o w /\ v = plus u (plus m w).
(** with legs of any length *)
Definition biot_savart (a b o v : v3) : Prop :=
  forall eps, 0 < eps -> exists L0, forall L, L0 <= L -> exists u, of_horseshoe L a b o u /\
    Rabs (4 * PI * vx v - vx u) <= eps /\ Rabs (4 * PI * vy v - vy u) <= eps /\ Rabs (4 * PI * vz v - vz u) <= eps.
(** Prandtl and Glauert: the flow direction stretched by 1/beta *)
Definition stretched (beta : R) (a : v3) : v3 := V3 (vx a / beta) (vy a) (vz a).
Definition flattened (v : v3) : v3 := V3 0 (vy v) (vz v).
(** how wide a panel is, seen along the flow *)
Definition width (a b : v3) : R := norm (flattened (minus b a)).
(** the code's allowance, a thousandth of the width, is not touched *)
Record apart (beta : R) (a b o : v3) : Prop := {
  ap_width : 0 < width a b;
  ap_a : width a b / 1000 <= norm (flattened (minus o a));
  ap_b : width a b / 1000 <= norm (flattened (minus o b));
  ap_line : width a b * (width a b / 1000) <= beta * norm (cross (minus (stretched beta b) (stretched beta a)) (minus (stretched beta o) (stretched beta a)));
  ap_plane : vdot (cross e_x (minus b a)) (minus o a) = 0 \/ width a b * (width a b / 1000) <= Rabs (vdot (cross e_x (minus b a)) (minus o a)) }.
(** mirrored in the plane of symmetry *)
Definition mirror (a : v3) : v3 := V3 (vx a) (- vy a) (vz a).
Definition mirrored (p : bound) : bound := {| b_a := mirror (b_a p); b_b := mirror (b_b p) |}.
(** the normal of a panel in the plane across the flow, upwards *)
Definition across (p : bound) : v3 :=
  let a := b_a (ordered p) in let b := b_b (ordered p) in scaled (/ width a b) (V3 0 (- (vz b - vz a)) (vy b - vy a)).
(** a panel that does not fall towards its outer end B *)
Definition dihedral (p : bound) : Prop := 0 < width (b_a p) (b_b p) /\ vz (b_a p) <= vz (b_b p) /\ (vy (b_a p) = vy (b_b p) -> vz (b_a p) < vz (b_b p)).
(** [o] is outside the cone of disturbances of the point [e] at this Mach number *)
Definition beyond (mach tol : R) (e o : v3) : Prop :=
  vx o - vx e < tol \/ (vx o - vx e) * (vx o - vx e) <= (mach * mach - 1) * ((vy o - vy e) * (vy o - vy e) + (vz o - vz e) * (vz o - vz e)).
(** ** strips *)
Definition marks_first (strips : list (list R)) : list bool := concat (map (fun s => match s with [] => [] | _ :: r => true :: map (fun _ => false) r end) strips).
Definition marks_last (strips : list (list R)) : list bool := concat (map (fun s => match s with [] => [] | _ :: r => map (fun _ => false) r ++ [true] end) strips).
Fixpoint starts (at_ : nat) (strips : list (list R)) : list nat := match strips with [] => [] | s :: r => at_ :: starts (at_ + length s) r end.
(** sums up to and including each panel, and up to the one before *)
Fixpoint running (c : R) (l : list R) : list R := match l with [] => [] | a :: r => (c + a) :: running (c + a) r end.
Fixpoint ahead (c : R) (l : list R) : list R := match l with [] => [] | a :: r => c :: ahead (c + a) r end.
(** panel [k] of a strip lies between a panel ahead of and one behind the sonic line *)
Definition crosses (B2 : R) (s : list R) (k : nat) : Prop := (0 < k)%nat /\ (S k < length s)%nat /\ (B2 - nth (k - 1) s 0) * (B2 - nth (k + 1) s 0) < 0.
(** ** boundary condition *)
(** unit vector at right angles to a surface with slopes tan delta along and tan phi across the flow, upwards *)
Definition surface_normal (delta phi : R) : v3 := let t := V3 (- tan delta) (- tan phi) 1 in scaled (/ norm t) t.
Definition wind_of (f : flight) : v3 := V3 (cos (f_alpha f) * cos (f_psi f)) (cos (f_alpha f) * sin (f_psi f)) (sin (f_alpha f)).
(** the velocity induced by panels with influences [cs] and circulations [gs] *)
Fixpoint induced (cs : list v3) (gs : list R) : v3 := match cs, gs with c :: cs', g :: gs' => plus (scaled g c) (induced cs' gs') | _, _ => V3 0 0 0 end.
Fixpoint row_times (row gs : list R) : R := match row, gs with a :: row', g :: gs' => a * g + row_times row' gs' | _, _ => 0 end.
(** from body to wind axes: drag, side force, lift *)
Definition to_wind (f : flight) (b : v3) : v3 :=
  V3 (cos (f_alpha f) * (vx b * cos (f_psi f) + vy b * sin (f_psi f)) + sin (f_alpha f) * vz b)
     (vy b * cos (f_psi f) - vx b * sin (f_psi f))
     (cos (f_alpha f) * vz b - sin (f_alpha f) * (vx b * cos (f_psi f) + vy b * sin (f_psi f))).
