(** * What planform calculations should do: specification vocabulary *)
From Coq Require Import Reals List.
From Verif Require Import M_Wing.
Import ListNotations.
Local Open Scope R_scope.
Local Open Scope list_scope.

(** [v] is the integral of [f] from [a] to [b] *)
Definition integral (f : R -> R) (a b v : R) : Prop :=
  exists F, (forall t, derivable_pt_lim F t (f t)) /\ F b - F a = v.

(** the chord [y] metres from the root of a straight-edged panel of length [h] *)
Definition straight (root tip h y : R) : R := root + (tip - root) * (y / h).

(** a wing one can build: positive area, aspect ratio and taper, sweep short of a right angle *)
Definition sensible (w : wing) : Prop :=
  0 < w_sref w /\ 0 < w_ar w /\ 0 < w_taper w.

(** where the leading edge is, [y] metres from the root *)
Definition leading (le y : R) : R := tan le * y.

(** segments in order from root to tip, with positive chords; the tip may be a point *)
Fixpoint outboard (l : list seg) : Prop :=
  match l with
  | a :: ((b :: _) as rest) => s_loc a < s_loc b /\ 0 < s_chord a /\ outboard rest
  | [a] => 0 <= s_chord a
  | [] => True
  end.
(** ... covering the span from root to tip *)
Definition covers (l : list seg) : Prop :=
  exists a m b, l = a :: m ++ [b] /\ s_loc a = 0 /\ s_loc b = 1.

(** the same shape with one more break: [m] lies on the straight line between [a] and [b] and
    everything from it outwards looks like what [a] prescribed *)
Definition on_line (a m b : seg) : Prop :=
  s_loc a < s_loc m < s_loc b /\
  s_chord m = straight (s_chord a) (s_chord b) (s_loc b - s_loc a) (s_loc m - s_loc a) /\
  s_sweep m = s_sweep a /\ s_tc m = s_tc a /\ s_dihedral m = s_dihedral a.
Inductive divided : list seg -> list seg -> Prop :=
| divided_same l : divided l l
| divided_here a m b rest l' :
    on_line a m b -> divided (a :: m :: b :: rest) l' -> divided (a :: b :: rest) l'
| divided_later a l l' : divided l l' -> divided (a :: l) (a :: l').

(** the sum of [f] over neighbouring segments *)
Fixpoint neighbours (f : seg -> seg -> R) (l : list seg) : R :=
  match l with
  | a :: ((b :: _) as rest) => f a b + neighbours f rest
  | _ => 0
  end.
(** length and end chords of the panel between two segments, in metres *)
Definition reach (semispan : R) (a b : seg) : R := semispan * (s_loc b - s_loc a).
Definition local_chord (semispan RC : R) (a b : seg) : R -> R :=
  straight (RC * s_chord a) (RC * s_chord b) (reach semispan a b).
(** area of one side: the trapezoids *)
Definition trapezoids (semispan RC : R) (l : list seg) : R :=
  neighbours (fun a b => reach semispan a b * (RC * s_chord a + RC * s_chord b) / 2) l.

(** [m] is the sum over the panels of the integral of chord times position, where position starts
    at [x0] at the root and changes with slope [slope a] over the panel that starts at [a] *)
Inductive first_moment (semispan RC : R) (slope : seg -> R) : R -> list seg -> R -> Prop :=
| moment_nil x0 : first_moment semispan RC slope x0 [] 0
| moment_tip x0 a : first_moment semispan RC slope x0 [a] 0
| moment_panel x0 a b rest v m :
    integral (fun y => (x0 + slope a * y) * local_chord semispan RC a b y) 0 (reach semispan a b) v ->
    first_moment semispan RC slope (x0 + slope a * reach semispan a b) (b :: rest) m ->
    first_moment semispan RC slope x0 (a :: b :: rest) (v + m).

(** ** Control surfaces on segments *)

(** the part of a control surface between the breaks [l] and [r]: the overlap of the two intervals
    when it is not empty, with its share of the surface's span *)
Definition clip (cs : control) (l r : R) : list control :=
  let s := Rmax (k_start cs) l in
  let e := Rmin (k_end cs) r in
  if Rlt_dec s e
  then [Control (k_tag cs) (k_span cs * ((e - s) / (k_end cs - k_start cs))) s e (k_rest cs)]
  else [].
(** the surface starts exactly at the inboard break and goes on past the outboard one *)
Definition forgotten (cs : control) (l r : R) : Prop := k_start cs = l /\ r < k_end cs.
(** [l] and [r] are neighbouring breaks *)
Definition adjacent (locs : list R) (l r : R) : Prop := exists before after, locs = before ++ l :: r :: after.
(** breaks strictly from root to tip *)
Fixpoint ascending (locs : list R) : Prop :=
  match locs with
  | a :: ((b :: _) as rest) => a < b /\ ascending rest
  | _ => True
  end.
(** all parts, and the total span of those that carry a tag *)
Definition parts (segs : list (R * list control)) : list control := concat (map snd segs).
Definition span_of (t : nat) (segs : list (R * list control)) : R :=
  total (map k_span (filter (fun p => Nat.eqb (k_tag p) t) (parts segs))).
