(** * Vocabulary for row expansion and sub-segment unknowns *)
From Coq Require Import String List Bool Arith.
From Verif Require Import PyBase M_Rows.
Import ListNotations.
Local Open Scope string_scope.
Local Open Scope list_scope.

Section Spec.
  Context {T F : Type}.
  Notation cval := (cval T F).

  (** attribute lookup through nested Conditions *)
  Fixpoint cond_at (v : cval) (p : list string) : option cval :=
    match p with
    | [] => Some v
    | k :: r => match v with
                | CCond d => match dget k d with Some x => cond_at x r | None => None end
                | _ => None
                end
    end.

  (** [new] consists of [n] rows which are the old rows over and over (rows of zeros, with the
      same columns, if there were none) *)
  Definition cyclic_copies (zero : T) (cols n : nat) (old new : list (list T)) : Prop :=
    List.length new = n /\
    forall i, (i < n)%nat ->
      nth_error new i = match old with
                        | [] => Some (repeat zero cols)
                        | _ => nth_error old (i mod List.length old)
                        end.

  (** every array is rectangular and no Conditions holds a key twice *)
  Fixpoint shaped (v : cval) : Prop :=
    match v with
    | CMat c rows => Forall (fun r => List.length r = c) rows
    | CCond d => NoDup (map fst d) /\
        (fix all (d : list (string * cval)) : Prop :=
           match d with [] => True | (_, x) :: r => shaped x /\ all r end) d
    | _ => True
    end.

  (** the arrays called [k], in segment order *)
  Fixpoint column_of (k : string) (segs : list (dict (arr2 T))) : list (list (list T)) :=
    match segs with
    | [] => []
    | s :: r => match dget k s with
                | Some a => arows a :: column_of k r
                | None => column_of k r
                end
    end.

  (** every unknown of the segment is a single column *)
  Definition single_columns (s : dict (arr2 T)) : Prop :=
    forall k a, dget k s = Some a -> k <> "tag" -> ncols a = 1.
End Spec.
