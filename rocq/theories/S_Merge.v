(** * Vocabulary for merged histories *)
From Coq Require Import String List Bool Arith.
From Verif Require Import PyBase M_Data S_Data M_Merge S_Diffed.
Import ListNotations.
Local Open Scope list_scope.

Section Spec.
  Context {T F : Type}.
  Notation atree := (tree (aval T F)).
  Notation adict := (dict (tree (aval T F))).

  (** the rows of an array as seen by vertical stacking, and the shape of one row *)
  Definition rows_of (v : aval T F) : list (list T) :=
    match v with A0 x => [[x]] | A1 l => [l] | AN _ rows => rows | _ => [] end.
  Definition row_shape (v : aval T F) : list nat :=
    match v with A0 _ => [1] | A1 l => [List.length l] | AN tl _ => tl | _ => [] end.

  (** [s] has an array at [p] *)
  Definition array_at (s : adict) (p : list string) (v : aval T F) : Prop :=
    at_path (Node s) p = Some (Leaf v) /\ is_array v = true.

  (** all arrays at the same place in the different segments have rows of one shape *)
  Definition conforms (sh : list string -> list nat) (s : adict) : Prop :=
    forall p v, public_path p -> array_at s p v -> row_shape v = sh p.
End Spec.
