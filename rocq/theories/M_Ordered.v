(** * Model of DataOrdered: the doubly linked list of keys

    Source: /repo/trunk/SUAVE/Core/DataOrdered.py

    A DataOrdered keeps its values in the instance [__dict__] and the order of its keys
    in a circular doubly linked list of python lists [prev, next, key], reached through
    two entries of the underlying dict storage: '_root' (the sentinel) and '_map'
    (key -> node).  Nodes live in a heap of addresses here; address 0 is the sentinel.

    Not modelled: keys that are data descriptors of the class ('_root', '_map',
    '__class__', '__dict__', ...), whose assignment does not reach [__dict__]; the
    recursive [update] (Data.update in M_Data.v is its counterpart). *)
From Coq Require Import String List Bool Arith ZArith.
From Verif Require Import PyBase M_Data.
Import ListNotations.
Local Open Scope string_scope.
Local Open Scope list_scope.

Section Ordered.
  Context {V : Type}.
  (** names found on the class: methods, defaults ([hasattr(self.__class__,key)]) *)
  Variable class_attr : string -> bool.

  (** a node, DataOrdered.py 689; [Emptied] after [del node[:]] (787) *)
  Inductive cell : Type :=
  | Emptied
  | Cell (prev next : nat) (key : option string).

  Record obj : Type := mkobj {
    heap  : nat -> cell;
    fresh : nat;              (* first unused address *)
    dmap  : dict nat;         (* self._map *)
    attrs : dict V            (* self.__dict__ *)
  }.

  Definition hset (h : nat -> cell) (a : nat) (c : cell) : nat -> cell :=
    fun b => if Nat.eqb b a then c else h b.
  (** [node[1] = n], [node[0] = n]: IndexError on an emptied list *)
  Definition set_next (h : nat -> cell) (a n : nat) : result (nat -> cell) :=
    match h a with Cell p _ k => Ok (hset h a (Cell p n k)) | Emptied => Err IndexError end.
  Definition set_prev (h : nat -> cell) (a p : nat) : result (nat -> cell) :=
    match h a with Cell _ n k => Ok (hset h a (Cell p n k)) | Emptied => Err IndexError end.
  Definition get_prev (h : nat -> cell) (a : nat) : result nat :=
    match h a with Cell p _ _ => Ok p | Emptied => Err IndexError end.

  (** DataOrdered.py 229-249: [root[:] = [root,root,None]], empty map *)
  Definition o_new : obj :=
    mkobj (fun a => if Nat.eqb a 0 then Cell 0 0 None else Emptied) 1 [] [].

  (** DataOrdered.py 684: [hasattr(self,key)] *)
  Definition o_hasattr (o : obj) (k : string) : bool := dhas k (attrs o) || class_attr k.

  (** DataOrdered.py 663-711, [__setattr__] and [__setitem__]; line 689 performs
      [last[1] = node], [root[0] = node], [map[key] = node] in this order *)
  Definition o_set (o : obj) (k : string) (v : V) : result obj :=
    if negb (o_hasattr o k) && negb (class_attr k) then
      bind (get_prev (heap o) 0) (fun last =>
      let a := fresh o in
      let h0 := hset (heap o) a (Cell last 0 (Some k)) in
      bind (set_next h0 last a) (fun h1 =>
      bind (set_prev h1 0 a) (fun h2 =>
      Ok (mkobj h2 (S a) (dset k a (dmap o)) (dset k v (attrs o))))))
    else Ok (mkobj (heap o) (fresh o) (dmap o) (dset k v (attrs o))).

  (** DataOrdered.py 548-571, [__delattr__]: the instance attribute goes first, so it is
      already gone when [self._map.pop] fails *)
  Definition o_del (o : obj) (k : string) : obj * option pyerr :=
    if dhas k (attrs o) then
      let o1 := mkobj (heap o) (fresh o) (dmap o) (ddel k (attrs o)) in
      match dget k (dmap o) with
      | None => (o1, Some KeyError)
      | Some a =>
        let o2 := mkobj (heap o) (fresh o) (ddel k (dmap o)) (ddel k (attrs o)) in
        match heap o a with
        | Emptied => (o2, Some ValueError)
        | Cell p n _ =>
          match set_next (heap o) p n with
          | Err e => (o2, Some e)
          | Ok h1 =>
            match set_prev h1 n p with
            | Err e => (mkobj h1 (fresh o) (ddel k (dmap o)) (ddel k (attrs o)), Some e)
            | Ok h2 => (mkobj h2 (fresh o) (ddel k (dmap o)) (ddel k (attrs o)), None)
            end
          end
        end
      end
    else (o, Some AttributeError).

  (** [del obj[k]] is inherited from OrderedDict and looks for [k] in the dict storage *)
  Definition o_delitem (o : obj) (k : string) : obj * option pyerr := (o, Some KeyError).

  (** DataOrdered.py 766-793: empty every node of the map, reset the sentinel *)
  Definition o_clear (o : obj) : obj :=
    let h := fold_left (fun h p => hset h (snd p) Emptied) (dmap o) (heap o) in
    mkobj (hset h 0 (Cell 0 0 None)) (fresh o) [] [].

  (** DataOrdered.py 633-637, [__iter_basic__]: follow [next] from the sentinel until the
      sentinel.  [fuel] bounds the walk; [None] means it did not come back in time. *)
  Fixpoint walk (h : nat -> cell) (fuel : nat) (curr : nat) : option (list (option string)) :=
    match fuel with
    | O => None
    | S f =>
      if Nat.eqb curr 0 then Some []
      else match h curr with
           | Emptied => None
           | Cell _ n k => option_map (cons k) (walk h f n)
           end
    end.
  Definition o_iter (o : obj) : option (list (option string)) :=
    match heap o 0 with
    | Cell _ n _ => walk (heap o) (S (fresh o)) n
    | Emptied => None
    end.
  (** DataOrdered.py 839-857: keys(); every key is a string, the sentinel is not listed *)
  Fixpoint all_some {X} (l : list (option X)) : option (list X) :=
    match l with
    | [] => Some []
    | Some x :: r => option_map (cons x) (all_some r)
    | None :: _ => None
    end.
  Definition o_keys (o : obj) : option (list string) :=
    match o_iter o with Some l => all_some l | None => None end.

  (** DataOrdered.py 187-208, [__getitem__] with a string: an instance attribute, else the
      class attribute (here [None]), else AttributeError *)
  Definition o_get (o : obj) (k : string) : result (option V) :=
    match dget k (attrs o) with
    | Some v => Ok (Some v)
    | None => if class_attr k then Ok None else Err AttributeError
    end.
  (** ... with an integer: [self.keys()[k]], negative indices from the end *)
  Definition o_get_int (o : obj) (i : Z) : result (option V) :=
    match o_keys o with
    | None => Err GenericException
    | Some ks =>
      match norm_index (List.length ks) i with
      | Some n => match nth_error ks n with Some k => o_get o k | None => Err IndexError end
      | None => Err IndexError
      end
    end.

  (** DataOrdered.py 859-897: values(), items() *)
  Definition o_items (o : obj) : result (list (string * option V)) :=
    match o_keys o with
    | None => Err GenericException
    | Some ks => map_result (fun k => bind (o_get o k) (fun v => Ok (k, v))) ks
    end.
  (** DataOrdered.py 595-613 *)
  Definition o_len (o : obj) : nat := List.length (attrs o).

  (** DataOrdered.py 142-165, [append]; [key in self] is membership in the dict storage,
      which holds exactly '_root' and '_map' *)
  Definition o_append (o : obj) (key : string) (v : V) : result obj :=
    let k := translate key in
    if String.eqb k "_root" || String.eqb k "_map" then Err KeyError
    else o_set o k v.

  (** a client of the object *)
  Inductive oop : Type :=
  | OSet (k : string) (v : V) | ODel (k : string) | ODelItem (k : string) | OClear
  | OAppend (k : string) (v : V).
  (** run one call; an exception leaves the object as the call left it *)
  Definition o_step (o : obj) (p : oop) : obj :=
    match p with
    | OSet k v => match o_set o k v with Ok o' => o' | Err _ => o end
    | ODel k => fst (o_del o k)
    | ODelItem k => fst (o_delitem o k)
    | OClear => o_clear o
    | OAppend k v => match o_append o k v with Ok o' => o' | Err _ => o end
    end.
  Definition o_run (ps : list oop) : obj := fold_left o_step ps o_new.
End Ordered.
Arguments obj V : clear implicits.
Arguments oop V : clear implicits.
