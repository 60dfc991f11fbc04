(** * Vocabulary for the panel method: sheets of sources and vortices *)
From Coq Require Import Reals List Bool Arith.
From Coquelicot Require Import Hierarchy RInt.
From Verif Require Import PyBase M_Opt M_Panel.
Import ListNotations.
Local Open Scope R_scope.

Definition vdot (a b : pt) : R := fst a * fst b + snd a * snd b.
Definition tangent (p : panel) : pt := (ct p, st p).
Definition proper (p : panel) : Prop := fst p <> snd p.
(** the point at distance [t] from the first end of the panel *)
Definition along (p : panel) (t : R) : pt := (fst (fst p) + t * ct p, snd (fst p) + t * st p).
(** the point is not on the panel *)
Definition off (x : pt) (p : panel) : Prop := forall t, 0 <= t <= len p -> along p t <> x.
Definition integral (f : R -> R) (a b : R) : R := RInt (V := R_CompleteNormedModule) f a b.
(** velocity at [x] due to sources of unit strength spread over the panel: each element gives 1/(2 pi r), directed away from it *)
Definition source_sheet (x : pt) (p : panel) : pt :=
  (integral (fun t => (fst x - fst (along p t)) / (2 * PI * dist x (along p t) ^ 2)) 0 (len p),
   integral (fun t => (snd x - snd (along p t)) / (2 * PI * dist x (along p t) ^ 2)) 0 (len p)).
(** ... due to clockwise vortices: each element gives the same speed, a right angle clockwise from the source's *)
Definition vortex_sheet (x : pt) (p : panel) : pt :=
  (integral (fun t => (snd x - snd (along p t)) / (2 * PI * dist x (along p t) ^ 2)) 0 (len p),
   integral (fun t => - (fst x - fst (along p t)) / (2 * PI * dist x (along p t) ^ 2)) 0 (len p)).
(** on the panel itself, seen from outside: half the strength along the normal, or along the tangent *)
Definition source_at (same : bool) (pi pj : panel) : pt := if same then (1 / 2 * fst (normal pj), 1 / 2 * snd (normal pj)) else source_sheet (mid pi) pj.
Definition vortex_at (same : bool) (pi pj : panel) : pt := if same then (1 / 2 * ct pj, 1 / 2 * st pj) else vortex_sheet (mid pi) pj.
(** the stream plus all sheets, at the middle of panel i *)
Definition flow (ps : list panel) (al : R) (q : list R) (g : R) (i : nat) (pi : panel) : pt :=
  (cos al + sum (map2 Rmult q (row (fun e a b => fst (source_at e a b)) ps i pi)) + g * sum (row (fun e a b => fst (vortex_at e a b)) ps i pi),
   sin al + sum (map2 Rmult q (row (fun e a b => snd (source_at e a b)) ps i pi)) + g * sum (row (fun e a b => snd (vortex_at e a b)) ps i pi)).
(** every panel has a length, and no panel's middle lies on another panel *)
Definition sound (ps : list panel) : Prop :=
  (forall p, In p ps -> proper p) /\ forall i j p q, nth_error ps i = Some p -> nth_error ps j = Some q -> i <> j -> off (mid p) q.
(** turning by [f], scaling by [k], moving by [d] *)
Definition moved (k f : R) (d p : pt) : pt := (k * (cos f * fst p - sin f * snd p) + fst d, k * (sin f * fst p + cos f * snd p) + snd d).

(** the pressure force on the segments and its moment about the quarter chord point, nose up; pressure [c] acts against the normal *)
Definition force (l : list (panel * R)) : pt := (sum (map (fun s => - snd s * len (fst s) * fst (normal (fst s))) l), sum (map (fun s => - snd s * len (fst s) * snd (normal (fst s))) l)).
Definition moment (l : list (panel * R)) : R :=
  sum (map (fun s => let f := (- snd s * len (fst s) * fst (normal (fst s)), - snd s * len (fst s) * snd (normal (fst s))) in
                     snd (mid (fst s)) * fst f - (fst (mid (fst s)) - 1 / 4) * snd f) l).
