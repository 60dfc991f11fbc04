(** * Model of Conditions.expand_rows, State.expand_rows and unpack_subsegments

    Source: /repo/trunk/SUAVE/Analyses/Mission/Segments/Conditions/Conditions.py 100-143, 146-212
            /repo/trunk/SUAVE/Analyses/Mission/Segments/Conditions/State.py 67-104
            /repo/trunk/SUAVE/Methods/Missions/Segments/Common/Sub_Segments.py 170-202

    Simplifications: arrays carry any entry type [T] with a zero (numpy's resize of an empty
    array is filled with zeros); expand_rows mutates its object, the model returns the new
    contents. *)
From Coq Require Import String List Bool Arith.
From Verif Require Import PyBase M_Data.
Import ListNotations.
Local Open Scope string_scope.
Local Open Scope list_scope.

Section Rows.
  Context {T F : Type}.
  Variable zero : T.

  (** what a Conditions object can hold: a two-dimensional array, a nested Conditions, an
      [expanded_array] (Conditions.py 146-181, its 1x1 content and its adjustment), the integer
      [_size], or anything else (scalars, vectors, strings, plain Data) *)
  Inductive cval : Type :=
  | CMat (cols : nat) (rows : list (list T))
  | CCond (d : list (string * cval))
  | CExp (adjustment : nat) (x : T)
  | CInt (n : nat)
  | COther (f : F).

  (** numpy: reshape of a flat buffer to [n] rows of [c] *)
  Fixpoint chunk (c n : nat) (l : list T) : list (list T) :=
    match n with
    | O => []
    | S n' => firstn c l :: chunk c n' (skipn c l)
    end.

  (** numpy: np.resize(a,[n,c]) -- the flattened data repeated ceil(n*c/a.size) times, cut to
      n*c elements and reshaped; zeros if a is empty *)
  Definition np_resize (flat : list T) (n c : nat) : list (list T) :=
    match List.length flat with
    | O => repeat (repeat zero c) n
    | S m =>
        let repeats := (n * c + m) / S m in
        chunk c n (firstn (n * c) (concat (repeat flat repeats)))
    end.

  (** Conditions.py 184-212; numpy refuses negative dimensions *)
  Definition exp_resize (adj : nat) (x : T) (rows : nat) : result cval :=
    if Nat.ltb rows adj then Err ValueError
    else Ok (CMat 1 (np_resize [x] (rows - adj) 1)).

  (** Conditions.py 100-143.  Line 122 sets [_size] before the loop, so an old [_size] entry is
      never looked at. *)
  Fixpoint expand_val (rows : nat) (override : bool) (v : cval) : result cval :=
    match v with
    | CCond d =>
        bind ((fix go (d : list (string * cval)) : result (list (string * cval)) :=
                 match d with
                 | [] => Ok []
                 | (k, x) :: r =>
                   bind (if String.eqb k "_size" then Ok x else expand_val rows override x)
                        (fun x' => bind (go r) (fun r' => Ok ((k, x') :: r')))
                 end) d)
             (fun d' => Ok (CCond (dset "_size" (CInt rows) d')))
    | CExp adj x => exp_resize adj x rows
    | CMat c rs =>
        if Nat.leb (List.length rs) 1 || override
        then Ok (CMat c (np_resize (concat rs) rows c))
        else Ok v
    | CInt _ | COther _ => Ok v
    end.
  Definition conditions_expand_rows (rows : nat) (override : bool) (d : dict cval) : result (dict cval) :=
    match expand_val rows override (CCond d) with
    | Ok (CCond d') => Ok d'
    | Ok _ => Err TypeError                              (* not reached *)
    | Err e => Err e
    end.

  (** State.py 67-104 *)
  Definition state_expand_entry (rows : nat) (override : bool) (k : string) (v : cval) : result cval :=
    if String.eqb k "initials" || String.eqb k "numerics" then Ok v
    else match v with
         | CCond _ => expand_val rows override v
         | CMat c rs => Ok (CMat c (np_resize (concat rs) rows c))
         | _ => Ok v
         end.
  Fixpoint state_items (rows : nat) (override : bool) (d : dict cval) : result (dict cval) :=
    match d with
    | [] => Ok []
    | (k, x) :: r =>
        bind (if String.eqb k "_size" then Ok x else state_expand_entry rows override k x)
             (fun x' => bind (state_items rows override r) (fun r' => Ok ((k, x') :: r')))
    end.
  Definition state_expand_rows (rows : nat) (override : bool) (d : dict cval) : result (dict cval) :=
    bind (state_items rows override d) (fun d' => Ok (dset "_size" (CInt rows) d')).

  (** ** Sub_Segments.py 170-202 *)
  Record arr2 := { ncols : nat; arows : list (list T) }.
  Definition asize (a : arr2) : nat := List.length (arows a) * ncols a.
  (** numpy: a[i:j] slices the rows and truncates at the end *)
  Definition slice_rows (a : arr2) (i j : nat) : arr2 :=
    {| ncols := ncols a; arows := firstn (j - i) (skipn i (arows a)) |}.

  (** the inner loop, lines 195-200, over the unknowns of one sub-segment *)
  Fixpoint unpack_one (U : dict arr2) (counter : dict nat) (unk : dict arr2)
    : result (dict arr2 * dict nat) :=
    match unk with
    | [] => Ok ([], counter)
    | (k, a) :: r =>
      if String.eqb k "tag" then
        bind (unpack_one U counter r) (fun '(r', c') => Ok ((k, a) :: r', c'))
      else
        let points := asize a in
        match dget k U, dget k counter with
        | Some u, Some c =>
            bind (unpack_one U (dset k (c + points) counter) r)
                 (fun '(r', c') => Ok ((k, slice_rows u c (c + points)) :: r', c'))
        | _, _ => Err KeyError
        end
    end.
  Fixpoint unpack_all (U : dict arr2) (counter : dict nat) (segs : list (dict arr2))
    : result (list (dict arr2)) :=
    match segs with
    | [] => Ok []
    | s :: r => bind (unpack_one U counter s)
                  (fun '(s', c') => bind (unpack_all U c' r) (fun r' => Ok (s' :: r')))
    end.
  Definition unpack_subsegments (U : dict arr2) (segs : list (dict arr2)) : result (list (dict arr2)) :=
    unpack_all U (map (fun '(k, _) => (k, 0)) U) segs.
End Rows.
Arguments cval T F : clear implicits.
Arguments arr2 T : clear implicits.
