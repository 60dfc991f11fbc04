(** * Model of Diffed_Data: configurations that differ from a base

    Source: /repo/trunk/SUAVE/Core/Diffed_Data.py

    Simplifications: no sharing between objects (values are immutable trees; the python
    [update] stores references to sub-objects of the base, see DESIGN.md); the
    DataOrdered branches 329-335, which repeat 321-327 for that class, are not modelled;
    the bookkeeping entries '_base' and '_diff' are record fields instead of dictionary
    entries, so line 312-313 removes nothing here. *)
From Coq Require Import String List Bool.
From Verif Require Import PyBase M_Data.
Import ListNotations.
Local Open Scope string_scope.
Local Open Scope list_scope.

Section Diffed.
  Context {A : Type}.
  Notation tree := (tree A).
  Notation data := (dict tree).
  (** python's None, the default of [A.get(key,None)] *)
  Variable none : A.
  (** [np.all(va == vb)] on values that are not Data *)
  Variable same : tree -> tree -> bool.
  (** iteration order of a python set of strings *)
  Variable set_order : list string -> list string.

  (** Diffed_Data.py 326-338 for a key of which at most one side is a Data *)
  Definition leaf_entry (va vb : tree) : option tree :=
    match va, vb with
    | Node _, _ => Some va
    | _, Node _ => Some va
    | _, _ => if same va vb then None else Some va
    end.
  Definition get_none (k : string) (d : data) : tree :=
    match dget k d with Some v => v | None => Leaf none end.

  (** set union of the keys, 307-309 *)
  Definition key_union (a b : list string) : list string :=
    a ++ filter (fun k => negb (existsb (String.eqb k) a)) b.

  (** the entries [result[key]] that are made, in iteration order *)
  Definition collect (f : string -> option tree) (ks : list string) : data :=
    flat_map (fun k => match f k with Some v => [(k, v)] | None => [] end) ks.

  (** Diffed_Data.py 287-340, [diff(A,B)]; recursion on the first argument *)
  Fixpoint diff (a : tree) (b : data) : data :=
    match a with
    | Node da =>
      let rows :=
        (fix go (da : data) : dict (option tree) :=
           match da with
           | [] => []
           | (k, va) :: r =>
             (k, match va, get_none k b with
                 | Node _, Node sb =>
                     match diff va sb with [] => None | sd => Some (Node sd) end
                 | _, vb => leaf_entry va vb
                 end) :: go r
           end) da in
      collect (fun k => match dget k rows with
                        | Some e => e
                        | None => leaf_entry (Leaf none) (get_none k b)   (* only in B *)
                        end)
              (set_order (key_union (dkeys da) (dkeys b)))
    | _ => []
    end.

  (** a plain Data, or a configuration with its base and its stored differences *)
  Inductive config : Type :=
  | Plain (d : data)
  | Diffed (self : data) (base : config) (dif : data).
  Definition content (c : config) : data :=
    match c with Plain d => d | Diffed self _ _ => self end.

  (** Diffed_Data.py 57-78: a deep copy of the base's public entries.  The defaults
      (53-55) put the tag 'config' first; the base's own tag then replaces its value. *)
  Definition new_config (tag : tree) (base : config) : config :=
    Diffed (update_by (Node (content base)) [("tag", tag)]) base [].

  (** Diffed_Data.py 80-99 *)
  Definition store_diff (c : config) : config :=
    match c with
    | Plain d => Plain d            (* AttributeError, ignored by the container (206) *)
    | Diffed self base _ => Diffed self base (diff (Node self) (content base))
    end.

  (** Diffed_Data.py 101-122: the base is pulled first, when it is itself a configuration *)
  Fixpoint pull_base (c : config) : config :=
    match c with
    | Plain d => Plain d
    | Diffed self base dif =>
      let base' := pull_base base in
      Diffed (update_by (Node dif) (update_by (Node (content base')) self)) base' dif
    end.
End Diffed.
