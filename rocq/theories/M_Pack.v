(** * Model of Data.pack_array / Data.unpack_array

    Source: /repo/trunk/SUAVE/Core/Data.py 612-797, /repo/trunk/SUAVE/Core/Arrays.py 23-100

    Entries of the tree are classified exactly as the two traversals classify them
    (Data.py 645-665, 728-753): python scalars, 0-dimensional numpy arrays, vectors,
    matrices, numpy arrays of rank above two, and everything else.  A matrix of
    shape (n,m) is kept as its row count [n] and its list of [m] columns, so that
    order-'F' ravelling is concatenation of the columns.  Simplification: numbers
    are an arbitrary type [T] (no dtype conversion on assignment). *)
From Coq Require Import String List Bool Arith.
From Verif Require Import PyBase M_Data.
Import ListNotations.

Section Pack.
  Context {T F : Type}.   (* numbers; foreign objects and arrays of rank > 2 *)

  Inductive pval : Type :=
  | Scalar (x : T)                          (* int, float, bool, np.float64 *)
  | ZeroD  (x : T)                          (* np.array(x), ndim = 0 *)
  | Vec    (l : list T)                     (* ndim = 1 *)
  | Mat    (n : nat) (cols : list (list T)) (* ndim = 2, shape (n, length cols) *)
  | Other  (f : F).                         (* not a valid type, or rank > 2 *)

  Notation ptree := (tree pval).

  (** ** vector output *)

  (** Data.py 655-680 with [vector=True]: [atleast_2d_col(v).ravel(order='F')].
      [A[:,None]] of a 0-d array is an IndexError (Arrays.py 96). *)
  Definition pack_leaf (v : pval) : result (list T) :=
    match v with
    | Scalar x => Ok [x]
    | ZeroD _ => Err IndexError
    | Vec l => Ok l
    | Mat _ cols => Ok (concat cols)
    | Other _ => Ok []
    end.

  (** Data.py 653-690: depth-first over the values; a python list is not a valid type *)
  Fixpoint pack_vec (t : ptree) : result (list T) :=
    match t with
    | Leaf v => pack_leaf v
    | Seq _ => Ok []
    | Node d =>
      (fix go (d : list (string * ptree)) : result (list T) :=
         match d with
         | [] => Ok []
         | (_, v) :: r => bind (pack_vec v) (fun a => bind (go r) (fun b => Ok (a ++ b)))
         end) d
    end.

  (** numpy assignment [dst[:] = src] of a vector into a vector of length [n]:
      equal lengths, or a source of length one is broadcast; else ValueError *)
  Definition assign_vec (n : nat) (src : list T) : result (list T) :=
    if Nat.eqb (List.length src) n then Ok src
    else match src with
         | [x] => Ok (repeat x n)
         | _ => Err ValueError
         end.

  (** python slice [M[i:i+n]] *)
  Definition slice {X} (i n : nat) (M : list X) : list X := firstn n (skipn i M).

  (** [np.reshape(v,[n,m],order='F')]: ValueError unless the size is n*m *)
  Fixpoint chunks {X} (n m : nat) (v : list X) : list (list X) :=
    match m with
    | O => []
    | S m' => firstn n v :: chunks n m' (skipn n v)
    end.

  (** Data.py 749-786 with [vector=True] *)
  Definition unpack_leaf (M : list T) (v : pval) (i : nat) : result (pval * nat) :=
    match v with
    | Scalar _ | ZeroD _ =>
        match nth_error M i with Some x => Ok (Scalar x, S i) | None => Err IndexError end
    | Vec l =>
        let n := List.length l in
        bind (assign_vec n (slice i n M)) (fun l' => Ok (Vec l', i + n))
    | Mat n cols =>
        let m := List.length cols in
        let s := slice i (n * m) M in
        if Nat.eqb (List.length s) (n * m) then Ok (Mat n (chunks n m s), i + n * m)
        else Err ValueError
    | Other f => Ok (Other f, i)
    end.

  (** Data.py 736-788: same traversal order, threading the index *)
  Fixpoint unpack_vec_from (M : list T) (t : ptree) (i : nat) : result (ptree * nat) :=
    match t with
    | Leaf v => bind (unpack_leaf M v i) (fun '(v', j) => Ok (Leaf v', j))
    | Seq l => Ok (Seq l, i)
    | Node d =>
      bind ((fix go (d : list (string * ptree)) (i : nat) : result (list (string * ptree) * nat) :=
               match d with
               | [] => Ok ([], i)
               | (k, v) :: r =>
                   bind (unpack_vec_from M v i) (fun '(v', j) =>
                   bind (go r j) (fun '(r', j') => Ok ((k, v') :: r', j')))
               end) d i) (fun '(d', j) => Ok (Node d', j))
    end.

  (** Data.py 698-797 for a vector [M]: the updated object, and whether the
      RuntimeWarning 'did not unpack all values' is issued (line 794) *)
  Definition unpack_vec (t : ptree) (M : list T) : result (ptree * bool) :=
    bind (unpack_vec_from M t 0) (fun '(t', j) => Ok (t', negb (Nat.eqb (List.length M) j))).

  (** ** array output: a matrix is (rows, columns) *)
  Definition matrix := (nat * list (list T))%type.

  (** Data.py 667: [atleast_2d_col(v)] as (rows, columns); None = not packed *)
  Definition as_matrix (v : pval) : result (option matrix) :=
    match v with
    | Scalar x => Ok (Some (1, [[x]]))
    | ZeroD _ => Err IndexError
    | Vec l => Ok (Some (List.length l, [l]))
    | Mat n cols => Ok (Some (n, cols))
    | Other _ => Ok None
    end.

  (** Data.py 673-679: [size[0] = size[0] or v.shape[0]; if v.shape[0] != size[0]: skip].
      State: the current [size[0]] (0 for False) and the list of packed matrices. *)
  Definition pack_arr_leaf (v : pval) (st : nat * list matrix) : result (nat * list matrix) :=
    bind (as_matrix v) (fun o =>
    match o with
    | None => Ok st
    | Some (n, cols) =>
      let '(size, acc) := st in
      let size' := if Nat.eqb size 0 then n else size in
      if Nat.eqb n size' then Ok (size', acc ++ [(n, cols)]) else Ok (size', acc)
    end).

  Fixpoint pack_arr_from (t : ptree) (st : nat * list matrix) : result (nat * list matrix) :=
    match t with
    | Leaf v => pack_arr_leaf v st
    | Seq _ => Ok st
    | Node d =>
      (fix go (d : list (string * ptree)) (st : nat * list matrix) : result (nat * list matrix) :=
         match d with
         | [] => Ok st
         | (_, v) :: r => bind (pack_arr_from v st) (fun st' => go r st')
         end) d st
    end.

  (** [np.hstack]: ValueError unless all row counts agree *)
  Definition hstack (ms : list matrix) : result matrix :=
    match ms with
    | [] => Err ValueError
    | (n, _) :: _ =>
      if forallb (fun m => Nat.eqb (fst m) n) ms then Ok (n, concat (map snd ms))
      else Err ValueError
    end.

  (** Data.py 683-696: the packed array; np.array([[]]) when nothing was packed *)
  Definition pack_arr (t : ptree) : result matrix :=
    bind (pack_arr_from t (0, [])) (fun '(_, ms) =>
    match ms with
    | [] => Ok (1, [])
    | _ => hstack ms
    end).

  (** numpy broadcasting of a (r,c) source into a (n,m) destination *)
  Definition assign_mat (n m : nat) (src : matrix) : result (list (list T)) :=
    let '(r, cols) := src in
    let fix rows (cs : list (list T)) : result (list (list T)) :=
      match cs with
      | [] => Ok []
      | c :: cr => bind (assign_vec n c) (fun c' => bind (rows cr) (fun cr' => Ok (c' :: cr')))
      end in
    if negb (Nat.eqb r n || Nat.eqb r 1) then Err ValueError
    else if Nat.eqb (List.length cols) m then rows cols
    else match cols with
         | [c] => bind (assign_vec n c) (fun c' => Ok (repeat c' m))
         | _ => Err ValueError
         end.

  (** Data.py 749-786 with [vector=False] *)
  Definition unpack_arr_leaf (M : matrix) (v : pval) (i : nat) : result (pval * nat) :=
    match v with
    | Scalar x => Ok (Scalar x, i)       (* line 761: continue *)
    | ZeroD x => Ok (ZeroD x, i)
    | Vec l =>
        match nth_error (snd M) i with
        | Some c => bind (assign_vec (List.length l) c) (fun l' => Ok (Vec l', S i))
        | None => Err IndexError
        end
    | Mat n cols =>
        let m := List.length cols in
        bind (assign_mat n m (fst M, slice i m (snd M))) (fun cols' => Ok (Mat n cols', i + m))
    | Other f => Ok (Other f, i)
    end.

  Fixpoint unpack_arr_from (M : matrix) (t : ptree) (i : nat) : result (ptree * nat) :=
    match t with
    | Leaf v => bind (unpack_arr_leaf M v i) (fun '(v', j) => Ok (Leaf v', j))
    | Seq l => Ok (Seq l, i)
    | Node d =>
      bind ((fix go (d : list (string * ptree)) (i : nat) : result (list (string * ptree) * nat) :=
               match d with
               | [] => Ok ([], i)
               | (k, v) :: r =>
                   bind (unpack_arr_from M v i) (fun '(v', j) =>
                   bind (go r j) (fun '(r', j') => Ok ((k, v') :: r', j')))
               end) d i) (fun '(d', j) => Ok (Node d', j))
    end.

  Definition unpack_arr (t : ptree) (M : matrix) : result (ptree * bool) :=
    bind (unpack_arr_from M t 0) (fun '(t', j) =>
    Ok (t', negb (Nat.eqb (List.length (snd M)) j))).
End Pack.
Arguments pval T F : clear implicits.
