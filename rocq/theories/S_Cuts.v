(** * Control surfaces cut out of wings: the words the properties use *)
From Coq Require Import Reals List Bool Arith ZArith.
From Verif Require Import PyBase M_Opt M_Rot M_Field M_Grid M_Cuts S_Grid.
Import ListNotations.
Local Open Scope R_scope.

(** pieces on one edge of a wing: each goes outboard, none overlaps another, and their numbers differ *)
Record apart (l : list piece) : Prop := {
  ap_forward : Forall (fun c => c_start c < c_end c /\ (0 <= c_id c)%Z) l;
  ap_numbers : NoDup (map c_id l);
  ap_disjoint : forall c c', In c l -> In c' l -> c <> c' -> c_end c <= c_start c' \/ c_end c' <= c_start c }.
(** what an edge is like just outboard, or inboard, of [y]: the piece there, or none and the plain edge *)
Definition outboard (l : list piece) (plain y : R) (id : Z) (cut : R) : Prop :=
  (exists c, In c l /\ c_start c <= y < c_end c /\ id = c_id c /\ cut = c_cut c) \/
  ((forall c, In c l -> ~ c_start c <= y < c_end c) /\ id = (-1)%Z /\ cut = plain).
Definition inboard (l : list piece) (plain y : R) (id : Z) (cut : R) : Prop :=
  (exists c, In c l /\ c_start c < y <= c_end c /\ id = c_id c /\ cut = c_cut c) \/
  ((forall c, In c l -> ~ c_start c < y <= c_end c) /\ id = (-1)%Z /\ cut = plain).
Definition edge_at (l : list piece) (plain y : R) (m : mark) : Prop := outboard l plain y (m_out m) (m_cout m) /\ inboard l plain y (m_in m) (m_cin m).
(** the wing's value between two segments *)
Definition value (f : segment -> R) (a b : segment) (y : R) : R := f a + (y - g_y a) / (g_y b - g_y a) * (f b - f a).
(** a segment's offsets are where the one inboard of it leads *)
Definition offsets_from (half : R) (a b : segment) : Prop :=
  g_x b = g_x a + (g_y b - g_y a) * half * tan (g_sweep a) /\ g_z b = g_z a + (g_y b - g_y a) * half * tan (g_dihedral a).
(** the wing's section [t], at [y] of the span between two segments *)
Record on_segment (half : R) (a b : segment) (y : R) (t : station) : Prop := {
  os_y : s_y t = y * half; os_chord : s_chord t = value g_chord a b y; os_twist : s_twist t = value g_twist a b y; os_x : s_x t = value g_x a b y; os_z : s_z t = value g_z a b y }.
(** and what is outboard of it *)
Record outboard_of (a : segment) (t : station) : Prop := { oo_dihedral : s_dihedral t = g_dihedral a; oo_sweep : s_sweep t = g_sweep a; oo_camber : s_camber t = g_camber a }.
(** the point of a wing's surface at the fraction [f] of the chord and the place [y], between sections [a] and [b] *)
Definition skin (w : surface) (a b : station) (side y f : R) : v3 :=
  let c := chord_at a b (y - s_y a) in placed w a side y (twisted w a b (y - s_y a) (f * c) (f * c)).
(** the wing's own place, for the part [g] of the chord of its control surface *)
Definition fraction_at (slat : bool) (cf g : R) : R := if slat then g * cf else 1 - cf + g * cf.
