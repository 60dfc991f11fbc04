(** * Model of set_values / find_a_star / get_values

    Source: /repo/trunk/SUAVE/Optimization/helper_functions.py 20-121, 219-261

    Simplifications: [eval('dictionary.a.b.keys()')] follows the names through nested Data
    (names in index notation are not followed); a pointer is a dotted string or a list of them. *)
From Coq Require Import String Ascii List Bool Arith.
From Verif Require Import PyBase M_Data.
Import ListNotations.
Local Open Scope string_scope.
Local Open Scope list_scope.

Section SetValues.
  Context {A : Type}.
  Notation tree := (tree A).

  Inductive pointer : Type :=
  | PStr (s : string)
  | PList (l : list string).
  Definition alias := (string * pointer)%type.

  (** [c in s] for a character *)
  Fixpoint has_char (c : ascii) (s : string) : bool :=
    match s with
    | EmptyString => false
    | String x r => Ascii.eqb x c || has_char c r
    end.

  (** helper_functions.py 49-53: one pointer for every alias with the name, in alias order *)
  Definition pointers_of (names : list string) (aliases : list alias) : list pointer :=
    flat_map (fun n => map snd (filter (fun a => String.eqb n (fst a)) aliases)) names.

  (** [eval('dictionary.'+'.'.join(p))] through attributes *)
  Fixpoint attr_path (t : tree) (p : list string) : result tree :=
    match p with
    | [] => Ok t
    | k :: r => match t with
                | Node d => match dget k d with
                            | Some t' => attr_path t' r
                            | None => Err AttributeError
                            end
                | _ => Err AttributeError
                end
    end.

  (** helper_functions.py 107-115: the loop keeps the last component with a star; the prefix
      before it is evaluated as python code, a star in there is a syntax error; the keys of the
      dictionary itself (star in first position) are a view that cannot be indexed (line 119) *)
  Fixpoint star_scan (d : tree) (parts done : list string) (acc : result (option (nat * list string)))
    : result (option (nat * list string)) :=
    match parts with
    | [] => acc
    | p :: rest =>
        bind acc (fun a =>
          if has_char "*" p then
            match done with
            | [] => match d with
                    | Node [] => star_scan d rest (done ++ [p]) (Ok (Some (0, [])))
                    | Node _ => star_scan d rest (done ++ [p]) (Err TypeError)
                    | _ => Err AttributeError
                    end
            | _ =>
                if existsb (has_char "*") done then Err GenericException
                else bind (attr_path d done) (fun t =>
                     match t with
                     | Node dd => star_scan d rest (done ++ [p]) (Ok (Some (List.length done, dkeys dd)))
                     | _ => Err AttributeError
                     end)
            end
          else star_scan d rest (done ++ [p]) (Ok a))
    end.

  (** helper_functions.py 86-121 *)
  Definition find_a_star (d : tree) (s : string) : result (list string) :=
    let parts := split_on "." s in
    bind (star_scan d parts [] (Ok None)) (fun r =>
    match r with
    | None => Err UnboundLocalError
    | Some (last, newkeys) =>
        Ok (map (fun k => (join_with "." (firstn last parts) ++ "." ++ k ++ "." ++
                           join_with "." (skipn (S last) parts))%string) newkeys)
    end).

  Fixpoint set_each (d : tree) (names : list string) (v : tree) : result tree :=
    match names with
    | [] => Ok d
    | n :: r => bind (deep_set_str d (join_with "." (split_on "." n)) v) (fun d' => set_each d' r v)
    end.

  (** helper_functions.py 57-68 *)
  Definition set_one (d : tree) (s : string) (v : tree) : result tree :=
    if has_char "*" s then bind (find_a_star d s) (fun ns => set_each d ns v)
    else set_each d [s] v.

  Fixpoint set_many (d : tree) (l : list string) (v : tree) : result tree :=
    match l with
    | [] => Ok d
    | s :: r => bind (set_one d s v) (fun d' => set_many d' r v)
    end.

  (** helper_functions.py 55-81: the [ii]-th pointer gets the [ii]-th value *)
  Fixpoint set_pointers (d : tree) (ps : list pointer) (vals : list tree) : result tree :=
    match ps with
    | [] => Ok d
    | p :: rest =>
        match vals with
        | [] => Err IndexError
        | v :: vs =>
            bind (match p with PStr s => set_one d s v | PList l => set_many d l v end)
                 (fun d' => set_pointers d' rest vs)
        end
    end.
  Definition set_values (d : tree) (names : list string) (vals : list tree) (aliases : list alias)
    : result tree :=
    set_pointers d (pointers_of names aliases) vals.

  (** helper_functions.py 219-261: reads; the pointer must be one plain dotted string *)
  Fixpoint get_each (d : tree) (n : nat) (ps : list pointer) : result (list tree) :=
    match n with
    | O => Ok []
    | S n' =>
        match ps with
        | [] => Err IndexError
        | PStr s :: r =>
            if has_char "*" s then Err TypeError
            else bind (attr_path d (split_on "." s)) (fun v =>
                 bind (get_each d n' r) (fun vs => Ok (v :: vs)))
        | PList _ :: _ => Err TypeError
        end
    end.
  Definition get_values (d : tree) (names : list string) (aliases : list alias) : result (list tree) :=
    get_each d (List.length names) (pointers_of names aliases).
End SetValues.
