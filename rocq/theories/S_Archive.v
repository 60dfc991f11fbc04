(** * Saving and reading back: specification vocabulary *)
From Coq Require Import String List Bool ZArith.
From Verif Require Import PyBase M_Archive.
Import ListNotations.
Local Open Scope string_scope.
Local Open Scope list_scope.

Section Spec.
Context {F : Type}.
Notation pyval := (pyval F).

(** the value at a path of names *)
Fixpoint at_path (p : list string) (v : pyval) : option pyval :=
  match p with
  | [] => Some v
  | k :: r => match v with PNode _ d => match dget k d with Some w => at_path r w | None => None end | _ => None end
  end.
(** the names below a value, in order *)
Definition names (v : pyval) : list string := match v with PNode _ d => dkeys d | _ => [] end.

(** the array a list of numbers stands for *)
Fixpoint rows_of (i : item F) : nest F :=
  match i with IAtom s => Num s | IList l => Rows (map rows_of l) | _ => Num SNone end.
(** what a single value comes back as *)
Inductive comes_back : pyval -> pyval -> Prop :=
| same_scalar : forall s, comes_back (PScalar s) (PScalar s)
| same_float : forall f, comes_back (PFloat64 f) (PScalar (SFloat f))
| same_array : forall l, comes_back (PArray (Rows l)) (PArray (Rows l))
| zero_d : forall s, comes_back (PArray (Num s)) (PScalar s)
| list_to_array : forall l, comes_back (PList l) (PArray (Rows (map rows_of l)))
| no_function : comes_back PFunction (PScalar SNone)
| no_other : comes_back POther (PScalar SNone)
| to_ordered : forall k d d', comes_back (PNode k d) (PNode KOrdered d').

(** a list json can write, of numbers, strings and lists of such *)
Inductive plain : item F -> Prop :=
| plain_atom : forall s, plain (IAtom s)
| plain_list : forall l, (forall x, In x l -> plain x) -> plain (IList l).
(** [class_attr]: no name below the top is that of a DataOrdered method; no entry of a Data is called "keys"; names
    are unique; lists are plain *)
Inductive storable (class_attr : string -> bool) : pyval -> Prop :=
| st_scalar : forall s, storable class_attr (PScalar s)
| st_float : forall f, storable class_attr (PFloat64 f)
| st_array : forall a, storable class_attr (PArray a)
| st_list : forall l, (forall x, In x l -> plain x) -> storable class_attr (PList l)
| st_function : storable class_attr PFunction
| st_other : storable class_attr POther
| st_node : forall k d, NoDup (dkeys d) -> (forall n, In n (dkeys d) -> class_attr n = false /\ n <> "keys") ->
    (forall n v, In (n, v) d -> storable class_attr v) -> storable class_attr (PNode k d).
End Spec.
