(** * Model of SUAVE.Core.Data and SUAVE.Core.Container (attribute trees)

    Source: /repo/trunk/SUAVE/Core/Data.py, /repo/trunk/SUAVE/Core/Container.py

    A [Data] object is an insertion-ordered dictionary from strings to values.  A
    value is a leaf (number, string, function, ... -- the type [A] is arbitrary), a
    python list / numpy array ([Seq]) or another [Data] ([Node]).
    Simplifications: values are immutable trees, so sharing of one python object
    under two keys is not represented; dictionary keys are strings. *)
From Coq Require Import String Ascii List Bool Arith ZArith.
From Verif Require Import PyBase.
Import ListNotations.
Local Open Scope string_scope.

Inductive tree (A : Type) : Type :=
| Leaf (a : A)
| Seq  (l : list (tree A))
| Node (d : list (string * tree A)).
Arguments Leaf {A} a.
Arguments Seq {A} l.
Arguments Node {A} d.

(** Data.py 440, 471: [k.startswith('_')] *)
Definition private (k : string) : bool := startswith "_" k.

Section DataOps.
  Context {A : Type}.
  Notation tree := (tree A).
  Notation data := (dict tree).

  (** Data.py 418-447: [Data.update].
      [for k,v in other.items(): if k.startswith('_'): continue;
       try: self[k].update(v) except: self[k] = v].
      [self[k].update(v)] succeeds exactly when [self[k]] is a Data (Node) and [v] is a
      dictionary (Node); in every other case (no such key, no [update] attribute,
      [v] not a dictionary) it raises and the handler assigns. *)
  Fixpoint update_by (other : tree) : data -> data :=
    match other with
    | Node items =>
      (fix go (items : list (string * tree)) (self : data) : data :=
         match items with
         | [] => self
         | (k, v) :: rest =>
           go rest
              (if private k then self
               else match dget k self, v with
                    | Some (Node sub), Node _ => dset k (Node (update_by v sub)) self
                    | _, _ => dset k v self
                    end)
         end) items
    | _ => fun self => self
    end.

  (** Data.py 436-437: [if not isinstance(other,dict): raise TypeError] *)
  Definition data_update (self : data) (other : tree) : result data :=
    match other with
    | Node _ => Ok (update_by other self)
    | _ => Err TypeError
    end.

  (** Data.py 312-335: [Data.__init__(d)] of a freshly created object whose class has
      no defaults: start empty, update with the argument. *)
  Definition data_init (d : data) : data := update_by (Node d) [].

  (** Data.py 24-26 (and Container.py 19-21): the translation table.  Every
      character of string.punctuation and string.whitespace becomes '_', every
      ASCII upper-case letter becomes lower case, everything else is kept. *)
  Definition is_punct_or_space (n : nat) : bool :=
    (((33 <=? n) && (n <=? 47)) || ((58 <=? n) && (n <=? 64)) ||
    ((91 <=? n) && (n <=? 96)) || ((123 <=? n) && (n <=? 126)) ||
    (n =? 32) || ((9 <=? n) && (n <=? 13)))%nat.

  Definition t_char (c : ascii) : ascii :=
    let n := nat_of_ascii c in
    if is_punct_or_space n then "_"%char
    else if ((65 <=? n) && (n <=? 90))%nat then ascii_of_nat (n + 32)
    else c.

  Fixpoint translate (s : string) : string :=
    match s with
    | EmptyString => EmptyString
    | String c r => String (t_char c) (translate r)
    end.

  (** python [str.lower] on ASCII text (simplification: non-ASCII letters are
      left alone) *)
  Definition lower_char (c : ascii) : ascii :=
    let n := nat_of_ascii c in
    if ((65 <=? n) && (n <=? 90))%nat then ascii_of_nat (n + 32) else c.
  Fixpoint str_lower (s : string) : string :=
    match s with
    | EmptyString => EmptyString
    | String c r => String (lower_char c) (str_lower r)
    end.

  (** Data.py 514-536: [Data.append(value,key)] with an explicit key or with the
      value's tag as key. *)
  Definition data_append {V : Type} (key : string) (value : V) (self : dict V)
    : result (dict V) :=
    let key' := translate key in
    if dhas key' self then Err KeyError else Ok (dset key' value self).

  (** ** Container.append: components carry a mutable tag *)
  Record component {B : Type} := { c_tag : string; c_body : B }.
  Arguments component B : clear implicits.

  Definition retag {B} (t : string) (c : component B) : component B :=
    {| c_tag := t; c_body := c_body c |}.

  (** Container.py 104-114: the tag the component carries when Data.append is
      reached.  [rand] is the value returned by [random.randint(0,1000)]. *)
  Definition container_tag {B} (rand : nat) (val : component B)
             (self : dict (component B)) : string :=
    let tag := str_lower (translate (c_tag val)) in
    if dhas tag self then
      let n_comps := str_count (c_tag val) (str_concat (dkeys self)) in
      let t1 := tag ++ str_of_nat (n_comps + 1) in
      if dhas t1 self then tag ++ str_of_nat (n_comps + rand) else t1
    else c_tag val.

  (** Container.py 82-116: [Container.append].  The result is the new container, or
      the exception; the component object keeps its new tag in both cases. *)
  Definition container_append {B} (rand : nat) (val : component B)
             (self : dict (component B)) : component B * result (dict (component B)) :=
    let val' := retag (container_tag rand val self) val in
    (val', data_append (c_tag val') val' self).

  (** Container.py 118-141: [Container.extend].  For a list or tuple the loop header
      [for v in val] refers to the undefined name [val]: the iterable is evaluated
      before the first iteration, so NameError is raised whatever [vals] holds. *)
  Inductive extend_arg := ExtList (l : list tree) | ExtDict (d : data) | ExtOther.
  Definition container_extend (self : data) (vals : extend_arg) : result data :=
    match vals with
    | ExtList _ => Err NameError
    | ExtDict d => Ok (update_by (Node d) self)
    | ExtOther => Err GenericException
    end.

  (** ** deep_get / deep_set *)

  (** [obj[k]] with a string key *)
  Definition getitem (t : tree) (k : string) : result tree :=
    match t with
    | Node d => match dget k d with Some v => Ok v | None => Err KeyError end
    | _ => Err TypeError
    end.

  (** Data.py 580-610: [deep_get] after splitting; [keys] is never empty. *)
  Fixpoint deep_get (t : tree) (keys : list string) : result tree :=
    match keys with
    | [] => Err IndexError
    | [k] => getitem t k
    | k :: r => bind (getitem t k) (fun t' => deep_get t' r)
    end.

  Definition deep_get_str (t : tree) (s : string) : result tree :=
    deep_get t (split_on "." s).

  (** python [int(s)] for a decimal string with optional sign (simplification:
      surrounding white space and digit-group underscores are rejected) *)
  Definition digit_val (c : ascii) : option nat :=
    let n := nat_of_ascii c in
    if ((48 <=? n) && (n <=? 57))%nat then Some (n - 48) else None.
  Fixpoint parse_digits (acc : Z) (s : string) : option Z :=
    match s with
    | EmptyString => Some acc
    | String c r => match digit_val c with
                    | Some d => parse_digits (acc * 10 + Z.of_nat d)%Z r
                    | None => None
                    end
    end.
  Definition py_int (s : string) : result Z :=
    match s with
    | EmptyString => Err ValueError
    | String c r =>
      let '(neg, body) := if Ascii.eqb c "-" then (true, r)
                          else if Ascii.eqb c "+" then (false, r) else (false, s) in
      match body with
      | EmptyString => Err ValueError
      | _ => match parse_digits 0 body with
             | Some z => Ok (if neg then - z else z)%Z
             | None => Err ValueError
             end
      end
    end.

  (** python sequence indexing: negative indices count from the end *)
  Definition norm_index (len : nat) (i : Z) : option nat :=
    if ((0 <=? i) && (i <? Z.of_nat len))%Z then Some (Z.to_nat i)
    else if ((- Z.of_nat len <=? i) && (i <? 0))%Z then Some (Z.to_nat (i + Z.of_nat len))
    else None.

  Fixpoint list_set {T} (n : nat) (x : T) (l : list T) : list T :=
    match l, n with
    | [], _ => []
    | _ :: r, O => x :: r
    | y :: r, S n' => y :: list_set n' x r
    end.

  (** [thing[i1][i2]...[in] = val].  Simplifications: the indices are all parsed
      before the first one is used (python interleaves; only the class of the
      exception can differ); a Data indexed by an integer is reported as KeyError
      (python would do the same for the inner indices, but would add an
      integer-keyed entry for the last one). *)
  Fixpoint index_set (t : tree) (idx : list Z) (v : tree) : result tree :=
    match idx with
    | [] => Ok v
    | i :: r =>
      match t with
      | Seq l =>
        match norm_index (List.length l) i with
        | Some n => match nth_error l n with
                    | Some x => bind (index_set x r v) (fun x' => Ok (Seq (list_set n x' l)))
                    | None => Err IndexError
                    end
        | None => Err IndexError
        end
      | Node _ => Err KeyError
      | Leaf _ => Err TypeError
      end
    end.

  (** last character of a string, and the string without it *)
  Fixpoint last_char (s : string) : option ascii :=
    match s with
    | EmptyString => None
    | String c EmptyString => Some c
    | String _ r => last_char r
    end.
  Fixpoint but_last (s : string) : string :=
    match s with
    | EmptyString => EmptyString
    | String c EmptyString => EmptyString
    | String c r => String c (but_last r)
    end.

  Fixpoint map_result {T U} (f : T -> result U) (l : list T) : result (list U) :=
    match l with
    | [] => Ok []
    | x :: r => bind (f x) (fun y => bind (map_result f r) (fun ys => Ok (y :: ys)))
    end.

  (** Data.py 567-576: assignment to the last key, with the [name[i][j]] syntax. *)
  Definition set_last (t : tree) (k : string) (v : tree) : result tree :=
    match last_char k with
    | None => Err IndexError                         (* keys[-1][-1] of '' *)
    | Some c =>
      if Ascii.eqb c "]" then
        match split_on "[" k with
        | [] => Err IndexError                       (* impossible: split is never empty *)
        | name :: brackets =>
          bind (getitem t name) (fun thing =>
          (* splitkey[1..]; with no '[' at all splitkey[-1] is the name itself *)
          let idx_strs := match brackets with [] => [name] | _ => brackets end in
          bind (map_result (fun b => py_int (but_last b)) idx_strs) (fun idx =>
          bind (index_set thing idx v) (fun thing' =>
          match t with
          | Node d => Ok (Node (dset name thing' d))
          | _ => Err TypeError
          end)))
        end
      else
        match t with
        | Node d => Ok (Node (dset k v d))
        | _ => Err TypeError
        end
    end.

  (** Data.py 538-578: [deep_set] after splitting (the new root is returned; the
      python method mutates in place). *)
  Fixpoint deep_set (t : tree) (keys : list string) (v : tree) : result tree :=
    match keys with
    | [] => Err IndexError
    | [k] => set_last t k v
    | k :: r =>
      bind (getitem t k) (fun sub =>
      bind (deep_set sub r v) (fun sub' =>
      match t with
      | Node d => Ok (Node (dset k sub' d))
      | _ => Err TypeError
      end))
    end.

  Definition deep_set_str (t : tree) (s : string) (v : tree) : result tree :=
    deep_set t (split_on "." s) v.

End DataOps.
Arguments component B : clear implicits.
