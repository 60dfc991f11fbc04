(** * Vocabulary for configurations *)
From Coq Require Import String List Bool Permutation.
From Verif Require Import PyBase M_Data S_Data M_Diffed.
Import ListNotations.
Local Open Scope list_scope.

Section Spec.
  Context {A : Type}.
  Notation tree := (tree A).

  Definition public_path (p : list string) : Prop := forallb (fun k => negb (private k)) p = true.

  (** the configuration only adds entries or changes values: every public path of the base
      leads to a value in the configuration too, and Data correspond to Data *)
  Definition no_removal (self base : dict tree) : Prop :=
    forall p y, public_path p -> at_path (Node base) p = Some y ->
      exists x, at_path (Node self) p = Some x /\ is_node x = is_node y.

  (** iteration over a python set: some enumeration of the same keys *)
  Definition enumerates (set_order : list string -> list string) : Prop :=
    forall l, NoDup l -> Permutation l (set_order l).
  (** [np.all(va == vb)] is only true of equal values *)
  Definition detects (same : tree -> tree -> bool) : Prop :=
    forall x y, is_node x = false -> is_node y = false -> same x y = true -> x = y.

  (** a chain of configurations, each of which has stored its differences from its base *)
  Inductive stored (none : A) (same : tree -> tree -> bool) (set_order : list string -> list string)
    : config -> Prop :=
  | StPlain d : wf (Node d) -> stored none same set_order (Plain d)
  | StDiffed self base dif :
      wf (Node self) -> stored none same set_order base -> no_removal self (content base) ->
      store_diff none same set_order (Diffed self base []) = Diffed self base dif ->
      stored none same set_order (Diffed self base dif).
End Spec.
