(** * Noise: specification vocabulary *)
From Coq Require Import Reals List Arith.
From Verif Require Import M_Rot.
Import ListNotations.
Local Open Scope R_scope.

(** the sound power, relative to the reference, of a level in decibels *)
Definition power (s : R) : R := Rpower 10 (s / 10).
Definition powers (l : list R) : R := fold_right (fun s a => power s + a) 0 l.
(** the level [t] is that of all the sources in [l] together *)
Definition together (l : list R) (t : R) : Prop := power t = powers l.

(** [x] counts for exactly one of the [bands] *)
Definition inside (b : R * R) (f : R) : Prop := fst b <= f <= snd b.
Definition one_band (bands : list (R * R)) (f : R) : Prop :=
  exists before b after, bands = before ++ b :: after /\ inside b f /\
    (forall c, In c before \/ In c after -> ~ inside c f).

(** a spectrum of 24 levels on a straight line *)
Definition straight (a d : R) (i : nat) : R := a + d * INR i.
(** one band, [k], stands [h] above a level background [a] *)
Definition single_tone (a h : R) (k i : nat) : R := if Nat.eqb i k then a + h else a.
(** FAR 36: the tone correction for an excess of 3 dB or more, outside and inside 500 - 5000 Hz *)
Definition penalty (k : nat) (h : R) : R :=
  if ((10 <=? k) && (k <? 20))%nat%bool then Rmin (h / 3) (20 / 3) else Rmin (h / 6) (10 / 3).

(** a fly-over: [before] and [after] stay more than 10 dB below the peak [m], [loud] is within 10 dB of it *)
Definition event (m : R) (before loud after : list R) : Prop :=
  (forall x, In x before -> x <= m - 10) /\ (forall x, In x loud -> m - 10 < x <= m) /\ In m loud /\ (forall x, In x after -> x < m - 10).

(** the box of a building standing on the ground: centre [c], length, width and height [d] *)
Definition in_box (c d p : v3) : Prop :=
  vx c - vx d / 2 <= vx p <= vx c + vx d / 2 /\ vy c - vy d / 2 <= vy p <= vy c + vy d / 2 /\ 0 <= vz p <= vz d.
Definition on_face (c d p : v3) : Prop :=
  vx p = vx c - vx d / 2 \/ vx p = vx c + vx d / 2 \/ vy p = vy c - vy d / 2 \/ vy p = vy c + vy d / 2 \/ vz p = vz d.
