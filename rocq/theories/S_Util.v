(** * Numerical utilities: specification vocabulary *)
From Coq Require Import Reals List Sorted.
From Verif Require Import M_Util.
Import ListNotations.
Local Open Scope R_scope.
Local Open Scope list_scope.

(** an ascending table of at least two entries *)
Definition grid (xp : list R) : Prop := StronglySorted Rlt xp /\ (2 <= List.length xp)%nat.
(** the bilinear surface through the corners of a cell *)
Definition bilinear (x0 x1 y0 y1 z00 z10 z01 z11 x y : R) : R :=
  let s := (x - x0) / (x1 - x0) in
  let t := (y - y0) / (y1 - y0) in
  (1 - s) * (1 - t) * z00 + s * (1 - t) * z10 + (1 - s) * t * z01 + s * t * z11.
(** that of the cell between entries i, i+1 and j, j+1 *)
Definition cell (xp yp : list R) (zp : nat -> nat -> R) (i j : nat) (x y : R) : R :=
  bilinear (nth i xp 0) (nth (S i) xp 0) (nth j yp 0) (nth (S j) yp 0)
    (zp i j) (zp (S i) j) (zp i (S j)) (zp (S i) (S j)) x y.
Definition inside (xp : list R) (x : R) : Prop := nth 0 xp 0 <= x <= last xp 0.
(** slice [k] of [m] equal parts of [lo,hi) *)
Definition slice (lo hi : R) (m k : nat) (v : R) : Prop :=
  lo + INR k * ((hi - lo) / INR m) <= v < lo + INR (S k) * ((hi - lo) / INR m).
