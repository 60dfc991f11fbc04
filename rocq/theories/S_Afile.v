(** * What an airfoil file says: words for the statements *)
From Coq Require Import Reals List String.
From Verif Require Import M_Afile.
Import ListNotations.
Local Open Scope R_scope.

(** a line of numbers, and at least one *)
Definition reads (l : line) (vs : list R) : Prop := vs <> [] /\ map t_val l = map Some vs.
(** a line that begins with the coordinates of a point *)
Definition shows (l : fline) (p : R * R) : Prop := exists t u r, l_toks l = t :: u :: r /\ t_val t = Some (fst p) /\ t_val u = Some (snd p).
Definition blank (l : fline) : Prop := l_toks l = [].
(** the text of the first field *)
Definition text (l : fline) : string := match l_toks l with t :: _ => t_text t | [] => EmptyString end.
(** no line's first text comes after that of the line before it, in the order of characters *)
Definition falling (ls : list fline) : Prop := forall a b r s, ls = r ++ a :: b :: s -> String.ltb (text a) (text b) = false.
(** angles that increase *)
Definition rising (l : list R) : Prop := forall i j, (i < j < List.length l)%nat -> nth i l 0 < nth j l 0.
