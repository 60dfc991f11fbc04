(** * Model of Data.append_or_update and Segment.Container.merged

    Source: /repo/trunk/SUAVE/Core/Data.py 449-482, /repo/trunk/SUAVE/Core/Arrays.py 104-126,
            /repo/trunk/SUAVE/Analyses/Mission/Segments/Segment.py 184-213

    Simplifications: [copy]/[deepcopy] are the identity on immutable trees; [hasattr(self,k)]
    is membership (keys are not names of methods of the class). *)
From Coq Require Import String List Bool Arith.
From Verif Require Import PyBase M_Data.
Import ListNotations.
Local Open Scope list_scope.

Section Merge.
  Context {T F : Type}.

  (** numpy arrays, and everything else.  An array of rank two or more is the shape of one
      row and the list of its rows, each flattened. *)
  Inductive aval : Type :=
  | A0 (x : T)
  | A1 (l : list T)
  | AN (tail : list nat) (rows : list (list T))
  | NoneV
  | NonArray (f : F).
  Definition is_array (v : aval) : bool :=
    match v with A0 _ | A1 _ | AN _ _ => true | _ => false end.

  (** numpy's [atleast_2d] as used by [vstack]: a vector is one row *)
  Definition at_least_2d (v : aval) : option (list nat * list (list T)) :=
    match v with
    | A0 x => Some ([1], [[x]])
    | A1 l => Some ([List.length l], [l])
    | AN tl rows => Some (tl, rows)
    | _ => None
    end.

  Fixpoint nat_list_eqb (a b : list nat) : bool :=
    match a, b with
    | [], [] => true
    | x :: a', y :: b' => Nat.eqb x y && nat_list_eqb a' b'
    | _, _ => false
    end.

  (** Arrays.py 104-126: [np.vstack([A,B])] for two arrays (ValueError when the row shapes
      differ), None otherwise *)
  Definition append_array (a b : tree aval) : result (tree aval) :=
    match a, b with
    | Leaf va, Leaf vb =>
      match at_least_2d va, at_least_2d vb with
      | Some (ta, ra), Some (tb, rb) =>
          if nat_list_eqb ta tb then Ok (Leaf (AN ta (ra ++ rb))) else Err ValueError
      | _, _ => Ok (Leaf NoneV)
      end
    | _, _ => Ok (Leaf NoneV)
    end.

  Definition is_arr_tree (t : tree aval) : bool :=
    match t with Leaf v => is_array v | _ => false end.

  (** Data.py 449-482.  [self[k].append_or_update(v)] raises unless both are Data and the
      recursive call succeeds; the handler then assigns a copy of [v]. *)
  Fixpoint append_or_update (other : tree aval) : dict (tree aval) -> result (dict (tree aval)) :=
    match other with
    | Node items =>
      (fix go (items : list (string * tree aval)) (self : dict (tree aval)) :=
         match items with
         | [] => Ok self
         | (k, v) :: rest =>
           bind (if private k then Ok self
                 else if is_arr_tree v && dhas k self then
                   match dget k self with
                   | Some old => bind (append_array old v) (fun x => Ok (dset k x self))
                   | None => Ok self                     (* excluded by [dhas] *)
                   end
                 else match dget k self with
                      | Some (Node sub) =>
                          match append_or_update v sub with
                          | Ok sub' => Ok (dset k (Node sub') self)
                          | Err _ => Ok (dset k v self)
                          end
                      | _ => Ok (dset k v self)
                      end)
                (fun self' => go rest self')
         end) items
    | _ => fun _ => Err TypeError
    end.

  (** Segment.py 203-213, for one of 'unknowns', 'conditions', 'residuals': the first
      segment's data is copied, the others are appended.  With no segments the state's own
      (empty) default remains. *)
  Definition merged (segs : list (dict (tree aval))) : result (dict (tree aval)) :=
    match segs with
    | [] => Ok []
    | s :: rest => fold_left (fun acc s' => bind acc (append_or_update (Node s'))) rest (Ok s)
    end.
End Merge.
Arguments aval T F : clear implicits.
