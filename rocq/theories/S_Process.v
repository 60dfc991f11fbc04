(** * Vocabulary for processes: the flat list of steps and running it one by one *)
From Coq Require Import String List Bool.
From Verif Require Import PyBase M_Process.
Import ListNotations.
Local Open Scope list_scope.

Section Spec.
  Context {St R : Type}.

  (** the leaf steps with their tag paths, depth first in insertion order *)
  Fixpoint steps (p : process St R) : list (list string * step) :=
    match p with
    | Step f => [([], f)]
    | Proc items =>
        (fix go (items : list (string * process St R)) :=
           match items with
           | [] => []
           | (tag, q) :: rest => map (fun '(path, f) => (tag :: path, f)) (steps q) ++ go rest
           end) items
    end.
  (** the leaf results with their tag paths *)
  Fixpoint leaves (o : output R) : list (list string * R) :=
    match o with
    | Res r => [([], r)]
    | Results d =>
        (fix go (d : list (string * output R)) :=
           match d with
           | [] => []
           | (tag, q) :: rest => map (fun '(path, r) => (tag :: path, r)) (leaves q) ++ go rest
           end) d
    end.

  (** running the listed steps once each, in order, none of them raising *)
  Inductive runs : list (list string * step) -> St -> list (list string * R) -> St -> Prop :=
  | runs_nil s : runs [] s [] s
  | runs_cons path f l s s1 s2 r outs :
      f s = (s1, Ok r) -> runs l s1 outs s2 -> runs ((path, f) :: l) s ((path, r) :: outs) s2.

  (** the output has the tags of the process, level by level and in the same order *)
  Inductive mirrors : process St R -> output R -> Prop :=
  | mirrors_step f r : mirrors (Step f) (Res r)
  | mirrors_proc items d :
      Forall2 (fun it o => fst it = fst o /\ mirrors (snd it) (snd o)) items d ->
      mirrors (Proc items) (Results d).

  (** tags are unique within a process (they are the keys of an ordered container) *)
  Inductive tagged : process St R -> Prop :=
  | tagged_step f : tagged (Step f)
  | tagged_proc items : NoDup (map fst items) -> Forall (fun it => tagged (snd it)) items ->
      tagged (Proc items).
End Spec.
