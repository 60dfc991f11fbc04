(** * Flight envelope: specification vocabulary *)
From Coq Require Import Reals List Bool String.
From Verif Require Import PyBase M_Opt M_Vn.
Import ListNotations.
Local Open Scope R_scope.

(** an aircraft that can fly: positive weight, density, area, chord, lift slope and gravity; it can lift both ways *)
Definition flyable (c : craft) : Prop :=
  0 < c_weight c /\ 0 < c_rho c /\ 0 < c_sigma c /\ 0 < c_area c /\ 0 < c_clmax c /\ c_clmin c < 0 /\ 0 < c_mac c /\ 0 < c_cla c /\ 0 < c_g c.
(** lift in pounds at an equivalent airspeed in knots *)
Definition lift (c : craft) (cl v : R) : R := c_rho c / 2 * (v / c_sigma c / kts) ^ 2 * c_area c * cl.
(** load factor of an aircraft flying at [v] knots into an up-gust of [u] feet per second *)
Definition gust_load (c : craft) (u v : R) : R :=
  let mu := 2 * (c_weight c / c_area c) / (c_rho c * c_mac c * c_cla c * c_g c) in
  1 + 88 / 100 * mu / (53 / 10 + mu) * c_cla c * v * u / (498 * (c_weight c / c_area c)).
(** the smallest positive limit the regulations allow for a category *)
Definition least_limit (part : nat) (cat : string) : R :=
  if Nat.eqb part 25 then 25 / 10 else if String.eqb cat "utility" then 44 / 10 else if String.eqb cat "acrobatic" then 6 else 25 / 10.
(** [k]-th point of a half: speed, load factor *)
Definition point (h : half) (k : nat) : R * R := (nth k (h_v h) 0, nth k (h_n h) 0).
(** the speeds of a half never go back *)
Fixpoint ascending (l : list R) : Prop :=
  match l with x :: ((y :: _) as r) => x <= y /\ ascending r | _ => True end.
