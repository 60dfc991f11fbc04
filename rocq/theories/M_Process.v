(** * Model of Process.evaluate

    Source: /repo/trunk/SUAVE/Analyses/Process.py 32-76

    A step is anything with [evaluate] or callable: a function of the shared state (the
    arguments, which the steps mutate) that either returns a value or raises, and in both cases
    leaves the state changed.  A step that is itself a Process is evaluated recursively.
    Printing (verbose) is not modelled. *)
From Coq Require Import String List Bool.
From Verif Require Import PyBase M_Data.
Import ListNotations.
Local Open Scope list_scope.

Section Process.
  Context {St R : Type}.

  Definition step := St -> St * result R.
  Inductive process : Type :=
  | Step (f : step)
  | Proc (items : list (string * process)).        (* ContainerOrdered: insertion order *)

  Inductive output : Type :=
  | Res (r : R)
  | Results (d : list (string * output)).          (* results = Data() *)

  (** Process.py 52-76; the loop stops at the first exception *)
  Fixpoint evaluate (p : process) (s : St) : St * result output :=
    match p with
    | Step f => let '(s', r) := f s in (s', match r with Ok x => Ok (Res x) | Err e => Err e end)
    | Proc items =>
        let '(s', r) :=
          (fix go (items : list (string * process)) (s : St) (results : dict output)
             : St * result (dict output) :=
             match items with
             | [] => (s, Ok results)
             | (tag, step) :: rest =>
                 match evaluate step s with
                 | (s', Ok out) => go rest s' (dset tag out results)
                 | (s', Err e) => (s', Err e)
                 end
             end) items s []
        in (s', match r with Ok d => Ok (Results d) | Err e => Err e end)
    end.
End Process.
Arguments process St R : clear implicits.
Arguments output R : clear implicits.
