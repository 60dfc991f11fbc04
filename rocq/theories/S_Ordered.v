(** * What a client expects of an ordered container *)
From Coq Require Import String List Bool Arith.
From Verif Require Import PyBase M_Data M_Ordered.
Import ListNotations.
Local Open Scope string_scope.
Local Open Scope list_scope.

Section Spec.
  Context {V : Type}.
  Variable class_attr : string -> bool.

  (** the visible entries after a history, most recently first-inserted last: a python
      dict that ignores the names of class attributes *)
  Definition live_step (s : dict V) (p : oop V) : dict V :=
    match p with
    | OSet k v => if class_attr k then s else dset k v s
    | ODel k => ddel k s
    | ODelItem _ => s
    | OClear => []
    | OAppend key v =>
        let k := translate key in
        if String.eqb k "_root" || String.eqb k "_map" || class_attr k then s else dset k v s
    end.
  Definition live (ps : list (oop V)) : dict V := fold_left live_step ps [].

  (** the key an operation assigns, if any *)
  Definition assigned (p : oop V) : option string :=
    match p with OSet k _ => Some k | OAppend k _ => Some (translate k) | _ => None end.
End Spec.
