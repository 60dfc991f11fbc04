(** * Python base notions shared by all model files

    Exceptions are values.  [pyerr] enumerates the python exception classes the
    modelled code can raise, [result] is a computation that may raise. *)
From Coq Require Import String Ascii List Bool Arith ZArith.
From Coq Require Import Numbers.DecimalString Numbers.DecimalNat.
Import ListNotations.
Local Open Scope string_scope.

Inductive pyerr : Set :=
| KeyError | TypeError | AttributeError | IndexError | ValueError | NameError
| ZeroDivisionError | UnboundLocalError | GenericException.

Inductive result (T : Type) : Type :=
| Ok  (x : T)
| Err (e : pyerr).
Arguments Ok {T} x.
Arguments Err {T} e.

Definition bind {T U : Type} (r : result T) (f : T -> result U) : result U :=
  match r with Ok x => f x | Err e => Err e end.

Definition is_ok {T} (r : result T) : bool :=
  match r with Ok _ => true | Err _ => false end.

(** ** Python dictionaries with string keys

    CPython dictionaries keep insertion order; assigning to an existing key keeps
    its position, assigning to a new key puts it last, deleting removes it. *)
Section Dict.
  Context {V : Type}.
  Definition dict := list (string * V).

  (** python semantics of [d.get(k)] / [d[k]] (None = KeyError) *)
  Fixpoint dget (k : string) (d : dict) : option V :=
    match d with
    | [] => None
    | (k', v) :: r => if String.eqb k k' then Some v else dget k r
    end.

  (** python semantics of [d[k] = v] *)
  Fixpoint dset (k : string) (v : V) (d : dict) : dict :=
    match d with
    | [] => [(k, v)]
    | (k', v') :: r => if String.eqb k k' then (k', v) :: r else (k', v') :: dset k v r
    end.

  (** python semantics of [del d[k]] for a present key *)
  Fixpoint ddel (k : string) (d : dict) : dict :=
    match d with
    | [] => []
    | (k', v') :: r => if String.eqb k k' then r else (k', v') :: ddel k r
    end.

  Definition dkeys (d : dict) : list string := map fst d.
  Definition dvals (d : dict) : list V := map snd d.
  Definition dhas (k : string) (d : dict) : bool :=
    match dget k d with Some _ => true | None => false end.
End Dict.
Arguments dict V : clear implicits.

(** [str(n)] for a natural number *)
Definition str_of_nat (n : nat) : string :=
  NilEmpty.string_of_uint (Nat.to_uint n).

(** python [str.join("", l)] *)
Fixpoint str_concat (l : list string) : string :=
  match l with [] => "" | s :: r => s ++ str_concat r end.

(** python [s.startswith(p)] *)
Definition startswith (p s : string) : bool := String.prefix p s.

(** python [s.count(sub)] for non-empty [sub]: non-overlapping occurrences, left
    to right.  [fuel] is bounded by the length of [s], on which the scan
    progresses by at least one character per step. *)
Fixpoint str_drop (n : nat) (s : string) : string :=
  match n, s with
  | O, _ => s
  | S n', EmptyString => EmptyString
  | S n', String _ r => str_drop n' r
  end.

Fixpoint str_count_fuel (fuel : nat) (sub s : string) : nat :=
  match fuel with
  | O => O
  | S f =>
    match s with
    | EmptyString => O
    | String _ r =>
      if String.prefix sub s then S (str_count_fuel f sub (str_drop (String.length sub) s))
      else str_count_fuel f sub r
    end
  end.

(** python [s.count(sub)]; for the empty [sub] python returns len(s)+1 *)
Definition str_count (sub s : string) : nat :=
  match sub with
  | EmptyString => S (String.length s)
  | _ => str_count_fuel (S (String.length s)) sub s
  end.

(** python [s.split('.')] *)
Fixpoint split_on (c : ascii) (s : string) : list string :=
  match s with
  | EmptyString => [EmptyString]
  | String a r =>
    if Ascii.eqb a c then EmptyString :: split_on c r
    else match split_on c r with
         | [] => [String a EmptyString]
         | h :: t => String a h :: t
         end
  end.

(** python ['.'.join(l)] *)
Fixpoint join_with (c : ascii) (l : list string) : string :=
  match l with
  | [] => EmptyString
  | [s] => s
  | s :: r => s ++ String c (join_with c r)
  end.
