(** * Lifting line theory
    LL = trunk/SUAVE/Methods/Aerodynamics/Lifting_Line/Lifting_Line.py
    LA = trunk/SUAVE/Analyses/Aerodynamics/Lifting_Line.py
    Exact real numbers; one angle of attack at a time (LL 77-79, 141 repeat the same computation for each). *)
From Coq Require Import Reals List Arith Bool.
From Verif Require Import PyBase M_Opt M_Mission.
Import ListNotations.
Local Open Scope R_scope.

(** LL 103-105: percent_span_location, root_chord_percent, twist *)
Record station := Station { st_x : R; st_chord : R; st_twist : R }.
(** LL 52-72: the attributes of a wing that are read *)
Record lwing := LWing { lw_vertical : bool; lw_span : R; lw_area : R; lw_aspect : R; lw_mac : R; lw_taper : R;
  lw_root_twist : R; lw_tip_twist : R; lw_root : R; lw_tip : R; lw_stations : list station }.

(** LL 87-88: the angle of station [i], counted from 0, of [r] divisions *)
Definition theta (r i : nat) : R := INR (i + 1) * PI / INR r.
(** LL 89 *)
Definition yn (w : lwing) (r i : nat) : R := - lw_span w * cos (theta r i) / 2.
(** LL 90 *)
Definition etan (w : lwing) (r i : nat) : R := Rabs (2 * yn w r i / lw_span w).
(** LL 91 *)
Definition etam (r i : nat) : R := PI * sin (theta r i) / (2 * INR r).

(** LL 117-120 at one station: chord and twist are replaced strictly between X1 and X2 *)
Definition paint (root x1 l1 t1 x2 l2 t2 eta : R) (ca : R * R) : R * R :=
  if Rltb x1 eta && Rltb eta x2 then ((l1 + (eta - x1) * (l2 - l1) / (x2 - x1)) * root, t1 + (eta - x1) * (t2 - t1) / (x2 - x1)) else ca.
(** LL 100-120: the loop over the segments; the last but at the tip reads beyond the end of the list of keys *)
Fixpoint paint_all (w : lwing) (l : list station) (eta : R) (ca : R * R) : result (R * R) :=
  match l with
  | [] => Ok ca
  | s :: t =>
      match t with
      | [] => if Req_EM_T (st_x s) 1 then Ok (paint (lw_root w) (st_x s) (st_chord s) (st_twist s) 1 (lw_tip w / lw_root w) (lw_tip_twist w) eta ca) else Err IndexError
      | s' :: _ => paint_all w t eta (paint (lw_root w) (st_x s) (st_chord s) (st_twist s) (st_x s') (st_chord s') (st_twist s') eta ca)
      end
  end.
(** LL 94-130 with 69-70 (the names of the twists are exchanged there) *)
Definition chord_twist (w : lwing) (eta : R) : result (R * R) :=
  let tip_twist := lw_root_twist w in
  let root_twist := lw_tip_twist w in
  match lw_stations w with
  | [] => Ok (lw_root w + lw_root w * (lw_taper w - 1) * eta, (tip_twist - root_twist) * eta + root_twist)
  | l => paint_all w l eta (lw_root w, lw_root_twist w)
  end.

(** LL 82, 132 *)
Definition grouped (b c : R) : R := c * (2 * PI) / (4 * b).
(** LL 135-141: row [i], column [j] of the transposed matrix *)
Definition coefficient (b : R) (c : col) (r i j : nat) : R :=
  sin (INR (j + 1) * theta r i) * (sin (theta r i) + INR (j + 1) * grouped b (c i)).
(** LL 83, 144 *)
Definition downwash (b : R) (c a : col) (r : nat) (alpha : R) (i : nat) : R :=
  grouped b (c i) * sin (theta r i) * (alpha + a i - 0).
(** LL 147: np.linalg.solve returns the solution of the equations (it raises LinAlgError when the matrix is singular) *)
Definition solution (b : R) (c a : col) (r : nat) (alpha : R) (A : col) : Prop :=
  forall i, (i < r - 1)%nat -> Sum (r - 1) (fun j => coefficient b c r i j * A j) = downwash b c a r alpha i.
(** LL 150 *)
Definition lift_of (AR : R) (A : col) : R := A 0%nat * PI * AR.
(** LL 153 *)
Definition section_lift (b : R) (c : col) (r : nat) (A : col) (i : nat) : R :=
  b * Sum (i + 1) (fun j => 4 * A j * sin (INR (j + 1) * theta r j)) / c i.
(** LL 156 *)
Definition section_angle (r : nat) (A : col) (i : nat) : R :=
  Sum (i + 1) (fun j => INR (j + 1) * A j * sin (INR (j + 1) * A j) / sin (theta r j)).
(** LL 159-173, with no viscous drag *)
Definition drag_of (AR b MAC : R) (c : col) (r : nat) (A : col) : R :=
  Sum (r - 1) (fun i => section_lift b c r A i * section_angle r A i * AR * etam r i) + Sum (r - 1) (fun i => 0 * c i * etam r i) / MAC.
(** LL 19-175: which lift and drag coefficients a call may return *)
Definition lifting_line (w : lwing) (r : nat) (alpha : R) (out : R * R) : Prop :=
  if lw_vertical w then out = (0, 0)
  else exists c a A, (forall i, (i < r - 1)%nat -> chord_twist w (etan w r i) = Ok (c i, a i)) /\ solution (lw_span w) c a r alpha A /\
       out = (lift_of (lw_aspect w) A, drag_of (lw_aspect w) (lw_span w) (lw_mac w) c r A).

(** LA 324-337: totals over the wings *)
Fixpoint totals (sref : R) (l : list (lwing * (R * R))) (acc : R * R) : R * R :=
  match l with [] => acc | (w, (cl, cd)) :: t => totals sref t (fst acc + cl * lw_area w / sref, snd acc + cd * lw_area w / sref) end.
(** LA 276-284: np.polyfit of degree [length p - 1]: coefficients (constant first) with the least sum of squares *)
Fixpoint poly (p : list R) (x : R) : R := match p with [] => 0 | a :: t => a + x * poly t x end.
Definition squares (p : list R) (data : list (R * R)) : R := fold_right (fun xy s => (poly p (fst xy) - snd xy) ^ 2 + s) 0 data.
Definition polyfit (deg : nat) (data : list (R * R)) (p : list R) : Prop :=
  length p = S deg /\ forall q, length q = S deg -> squares p data <= squares q data.
(** LA 65 *)
Definition training : list R := map (fun d => d * (PI / 180)) [-10; -5; 0; 5; 10].
(** LA 210-211, 218-227: one array is shared by the keys of all wings; angle by angle every wing writes into it *)
Definition shared_after (wings : list R) (old : R) : R := fold_left (fun _ v => v) wings old.
(** LA 210, 225-226, 282-283: the data each wing's lift model is fitted to; [lifts] holds, for each angle, the lift of each wing in turn *)
Definition wing_lift_data (tag : nat) (lifts : list (list R)) : list R := map (fun ws => shared_after ws 0) lifts.
(** LA 284: the drag model of a wing is fitted to the array of its lift *)
Definition wing_drag_data (tag : nat) (lifts drags : list (list R)) : list R := wing_lift_data tag lifts.
(** LA 300-339: lift and drag of the vehicle *)
Definition vehicle (sref : R) (ws : list lwing) (r : nat) (alpha : R) (out : R * R) : Prop :=
  exists outs, Forall2 (fun w o => lifting_line w r alpha o) ws outs /\ out = totals sref (combine ws outs) (0, 0).
