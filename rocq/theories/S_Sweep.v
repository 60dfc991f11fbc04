(** * Vocabulary for sweeps, records and surrogate based optimisation *)
From Coq Require Import Reals List Ascii.
Import ListNotations.
Local Open Scope R_scope.

(** how numbers look: at least one character, none of them a separator, and read back as what was printed, also at the end of a line *)
Definition separators : list ascii := [","; "["; "]"; " "; "="; "010"]%char.
Definition faithful {A} (show : A -> list ascii) (parse : list ascii -> option A) : Prop :=
  (forall x, show x <> [] /\ (forall c, In c (show x) -> ~ In c separators) /\ parse (show x) = Some x /\ parse (show x ++ ["010"%char]) = Some x) /\
  parse [] = None /\ parse ["010"%char] = None.
