(** * Vocabulary for the lifting line *)
From Coq Require Import Reals List Arith.
From Verif Require Import PyBase M_Mission M_Line.
Import ListNotations.
Local Open Scope R_scope.
(** circulation at station [i] over span and speed: the Fourier series with coefficients [A] *)
Definition circulation (r : nat) (A : col) (i : nat) : R := Sum (r - 1) (fun j => A j * sin (INR (j + 1) * theta r i)).
(** area and aspect ratio of the chords as the stations see them *)
Definition seen_area (b : R) (c : col) (r : nat) : R := Sum (r - 1) (fun i => c i * (b / 2 * sin (theta r i)) * (PI / INR r)).
Definition seen_aspect (b : R) (c : col) (r : nat) : R := b ^ 2 / seen_area b c r.
(** the other half of the wing *)
Definition mirror (r i : nat) : nat := (r - 2 - i)%nat.
(** the wing has chords at all stations, and they are positive *)
Definition fair (w : lwing) (r : nat) : Prop :=
  lw_vertical w = true \/ ((2 <= r)%nat /\ 0 < lw_span w /\ forall i, (i < r - 1)%nat -> exists c a, chord_twist w (etan w r i) = Ok (c, a) /\ 0 < c).
(** no twist at any station *)
Definition untwisted (w : lwing) (r : nat) : Prop := forall i c a, (i < r - 1)%nat -> chord_twist w (etan w r i) = Ok (c, a) -> a = 0.
(** stations in order from the root to the tip *)
Fixpoint outward (l : list station) : Prop := match l with [] => True | s :: t => Forall (fun s' => st_x s < st_x s') t /\ outward t end.
(** linear interpolation between two stations *)
Definition between (x1 v1 x2 v2 x : R) : R := v1 * (x2 - x) / (x2 - x1) + v2 * (x - x1) / (x2 - x1).
(** coefficients of the wings, each over its own area, put together over the reference area *)
Definition together (sref : R) (l : list (lwing * R)) : R := fold_right (fun wc s => snd wc * lw_area (fst wc) + s) 0 l / sref.
