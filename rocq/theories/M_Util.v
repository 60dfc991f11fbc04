(** * Numerical utilities: model *)
From Coq Require Import Reals List Bool Arith String.
From Verif Require Import M_Opt.
Import ListNotations.
Local Open Scope R_scope.
Local Open Scope list_scope.

(** ** trunk/SUAVE/Methods/Utilities/Cubic_Spline_Blender.py *)
(** 95-100 *)
Definition eta_transform (x_start x_end x : R) : R := (x - x_start) / (x_end - x_start).
(** 70-75 for one element of the array; the two masked assignments in order *)
Definition blend (x_start x_end x : R) : R :=
  let eta := eta_transform x_start x_end x in
  let y := 2 * eta * eta * eta - 3 * eta * eta + 1 in
  let y := if Rltb eta 0 then 1 else y in
  if Rltb 1 eta then 0 else y.

(** ** trunk/SUAVE/Methods/Utilities/soft_max.py:35-37 *)
Definition soft_max (x1 x2 : R) : R :=
  let mx := Rmax x1 x2 in
  let mn := Rmin x1 x2 in
  mx + ln (1 + exp (mn - mx)).

(** ** trunk/SUAVE/Core/Utilities.py: interp2d, for one query point *)
(** np.searchsorted(xp, x, side="right") of an ascending table: how many entries are <= x *)
Definition searchsorted_right (xp : list R) (x : R) : nat := List.length (filter (fun v => negb (Rltb x v)) xp).
(** np.clip(n, lo, hi) *)
Definition clip (n lo hi : nat) : nat := Nat.min (Nat.max n lo) hi.
(** xp[i]; all indices used are within the table when it has two entries or more *)
Definition at_ (xp : list R) (i : nat) : R := nth i xp 0.
(** 30-56 *)
Definition interp2d (x y : R) (xp yp : list R) (zp : nat -> nat -> R) (fill : option R) : R :=
  let ix := clip (searchsorted_right xp x) 1 (List.length xp - 1) in
  let iy := clip (searchsorted_right yp y) 1 (List.length yp - 1) in
  let z_11 := zp (ix - 1)%nat (iy - 1)%nat in
  let z_21 := zp ix (iy - 1)%nat in
  let z_12 := zp (ix - 1)%nat iy in
  let z_22 := zp ix iy in
  let dx := at_ xp ix - at_ xp (ix - 1) in
  let dy := at_ yp iy - at_ yp (iy - 1) in
  let z_xy1 := (at_ xp ix - x) / dx * z_11 + (x - at_ xp (ix - 1)) / dx * z_21 in
  let z_xy2 := (at_ xp ix - x) / dx * z_12 + (x - at_ xp (ix - 1)) / dx * z_22 in
  let z := (at_ yp iy - y) / dy * z_xy1 + (y - at_ yp (iy - 1)) / dy * z_xy2 in
  match fill with
  | None => z
  | Some f =>
      let oob := Rltb x (at_ xp 0) || (Rltb (at_ xp (List.length xp - 1)) x
                 || (Rltb y (at_ yp 0) || Rltb (at_ yp (List.length yp - 1)) y)) in
      if oob then f else z
  end.

(** ** trunk/SUAVE/Methods/Utilities/latin_hypercube_sampling.py:47-76
    The result as its columns.  [rand k j] is the number drawn for row k and column j (56),
    [shuffle j] what np.random.shuffle does to column j (66).  [None] is the NotImplementedError. *)
Definition latin_hypercube (n samples : nat) (bounds : option ((nat -> R) * (nat -> R))) (criterion : string)
    (rand : nat -> nat -> R) (shuffle : nat -> list R -> list R) : option (list (list R)) :=
  let segsize := 1 / INR samples in
  let start k := INR k * segsize in
  let lhd :=
    if String.eqb criterion "random" then
      Some (map (fun j => map (fun k => start k + rand k j * segsize) (seq 0 samples)) (seq 0 n))
    else if String.eqb criterion "center" then
      Some (map (fun j => map (fun k => start k + 5 / 10 * segsize) (seq 0 samples)) (seq 0 n))
    else None in
  match lhd with
  | None => None
  | Some cols =>
      let cols := map (fun jc => shuffle (fst jc) (snd jc)) (combine (seq 0 n) cols) in
      Some (match bounds with
            | None => cols
            | Some (lower, upper) =>
                map (fun jc => map (fun v => v * (upper (fst jc) - lower (fst jc)) + lower (fst jc)) (snd jc))
                    (combine (seq 0 n) cols)
            end)
  end.
