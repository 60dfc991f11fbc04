(** * Tools of the unit package: shortest paths, dependencies, dimensionless groups

    Source: UT = /repo/trunk/SUAVE/Plugins/pint/util.py
    Nodes are natural numbers (any hashable value in python); sets are lists; python's endless loop and recursion limit are the argument [fuel]
    (GenericException when it runs out).  Fractions are [Qc], exact and in lowest terms as in python; the last division of [pi_theorem] is a float there. *)
From Coq Require Import List Bool Arith ZArith String QArith Qcanon.
From Verif Require Import PyBase.
Import ListNotations.
Local Open Scope list_scope.

(** ** UT 276-289: find_shortest_path *)
Definition graph := list (nat * list nat).
Fixpoint neighbours (n : nat) (g : graph) : option (list nat) :=
  match g with [] => None | (m, l) :: g' => if Nat.eqb n m then Some l else neighbours n g' end.
Definition is_in (n : nat) (l : list nat) : bool := existsb (Nat.eqb n) l.
(** UT 283-288: the loop over the neighbours; [sub] is the recursive call *)
Definition shortest_step (sub : nat -> result (option (list nat))) (path : list nat) (acc : result (option (list nat))) (node : nat) : result (option (list nat)) :=
  bind acc (fun shortest => if is_in node path then Ok shortest else
  bind (sub node) (fun newpath =>
  match newpath with
  | None => Ok shortest
  | Some p => match shortest with None => Ok (Some p) | Some s => if Nat.ltb (List.length p) (List.length s) then Ok (Some p) else Ok (Some s) end
  end)).
Fixpoint find_shortest_path (fuel : nat) (g : graph) (start finish : nat) (path : list nat) : result (option (list nat)) :=
  match fuel with
  | O => Err GenericException
  | S f =>
    let path := path ++ [start] in
    if Nat.eqb start finish then Ok (Some path) else
    match neighbours start g with
    | None => Ok None
    | Some l => fold_left (shortest_step (fun node => find_shortest_path f g node finish path) path) l (Ok None)
    end
  end.

(** ** UT 254-273: solve_dependencies *)
Definition deps := list (nat * list nat).
(** UT 266-268 *)
Definition layer (d : deps) : list nat :=
  filter (fun i => negb (is_in i (map fst d))) (flat_map snd d) ++ map fst (filter (fun kv => match snd kv with [] => true | _ => false end) d).
(** UT 272 *)
Definition without (t : list nat) (d : deps) : deps :=
  map (fun kv => (fst kv, filter (fun i => negb (is_in i t)) (snd kv))) (filter (fun kv => match snd kv with [] => false | _ => true end) d).
Fixpoint solve_dependencies (fuel : nat) (d : deps) : result (list (list nat)) :=
  match d with
  | [] => Ok []
  | _ => match fuel with O => Err GenericException | S f => let t := layer d in bind (solve_dependencies f (without t d)) (fun r => Ok (t :: r)) end
  end.

(** ** UT 60-110: column_echelon_form *)
Local Open Scope Qc_scope.
Definition row := list Qc.
Definition mat := list row.
Definition nonzero (q : Qc) : bool := negb (Qeq_bool (this q) 0%Q).
Definition entry (m : mat) (i j : nat) : Qc := nth j (nth i m []) 0.
(** UT 54-57; the matrices are rectangular *)
Definition transpose (m : mat) : mat := match m with [] => [] | r :: _ => map (fun j => map (fun r => nth j r 0) m) (seq 0 (List.length r)) end.
(** UT 77 *)
Definition identity (n : nat) : mat := map (fun i => map (fun j => if Nat.eqb i j then 1 else 0) (seq 0 n)) (seq 0 n).
(** UT 81-91: the first column from [lead] on with an entry that is not 0 in row [r] or below; [n] columns are left *)
Fixpoint find_pivot (m : mat) (r : nat) (lead n : nat) : option (nat * nat) :=
  match n with
  | O => None
  | S n' => match find (fun i => nonzero (entry m i lead)) (seq r (List.length m - r)) with Some i => Some (i, lead) | None => find_pivot m r (S lead) n' end
  end.
(** M[i] = x *)
Fixpoint put {A} (n : nat) (x : A) (l : list A) : list A := match l, n with [], _ => [] | _ :: r, O => x :: r | y :: r, S n' => y :: put n' x r end.
(** [f(a,b) for a, b in zip(...)] *)
Fixpoint zip_with {A B C} (f : A -> B -> C) (a : list A) (b : list B) : list C := match a, b with x :: a', y :: b' => f x y :: zip_with f a' b' | _, _ => [] end.
(** UT 93-94 *)
Definition swap (m : mat) (i r : nat) : mat := put r (nth i m []) (put i (nth r m []) m).
(** UT 98-99 *)
Definition scale_row (lv : Qc) (m : mat) (r : nat) : mat := put r (map (fun x => x / lv) (nth r m [])) m.
(** UT 101-106: [by_ i] is the entry of row [i] in the pivot's column; row [r] does not change during the loop *)
Definition clear_rows (by_ : nat -> Qc) (m : mat) (r : nat) : mat :=
  map (fun i => if Nat.eqb i r then nth i m [] else zip_with (fun rv iv => iv - by_ i * rv) (nth r m []) (nth i m [])) (seq 0 (List.length m)).
(** UT 93-106: one turn of the loop with pivot row [i] and column [lead] *)
Definition eliminate (m ident : mat) (r i lead : nat) : mat * mat :=
  let m1 := swap m i r in let i1 := swap ident i r in
  let lv := entry m1 r lead in
  let m2 := scale_row lv m1 r in let i2 := scale_row lv i1 r in
  (clear_rows (fun i => entry m2 i lead) m2 r, clear_rows (fun i => entry m2 i lead) i2 r).
(** UT 80-108: [n] turns are left *)
Fixpoint echelon (n : nat) (cols : nat) (m ident : mat) (r lead : nat) : mat * mat :=
  match n with
  | O => (m, ident)
  | S n' => match find_pivot m r lead (cols - lead) with
    | None => (m, ident)
    | Some (i, lead') => let (m', ident') := eliminate m ident r i lead' in echelon n' cols m' ident' (S r) (S lead')
    end
  end.
(** UT 60-78; [M[0]] raises IndexError when the matrix is empty *)
Definition column_echelon_form (matrix : mat) : result (mat * mat) :=
  match transpose matrix with
  | [] => Err IndexError
  | r0 :: _ => let m := transpose matrix in Ok (echelon (List.length m) (List.length r0) m (identity (List.length m)) 0 0)
  end.

(** ** UT 197-251: pi_theorem *)
Definition ofZ (z : Z) : Qc := Q2Qc (inject_Z z).
Definition dimension_of (d : string) (dims : dict Qc) : Qc := match dget d dims with Some v => v | None => 0 end.
Definition negative (q : Qc) : bool := match Qccompare q 0 with Lt => true | _ => false end.
Definition positive (q : Qc) : bool := match Qccompare q 0 with Gt => true | _ => false end.
(** UT 246-249 *)
Definition group (names : list string) (rowi : row) : dict Qc :=
  let max_den := fold_right Z.max 0%Z (map (fun f => Zpos (Qden (this f))) rowi) in
  let neg := if Nat.ltb (List.length (filter positive rowi)) (List.length (filter negative rowi)) then (-1)%Z else 1%Z in
  flat_map (fun nf => if Z.eqb (Qnum (this (snd nf))) 0 then [] else [(fst nf, ofZ neg * ofZ (Qnum (this (snd nf))) * ofZ max_den / ofZ (Zpos (Qden (this (snd nf)))))]) (combine names rowi).
(** [dimensions] is the set of all dimensions, in any order (UT 231) *)
Definition pi_theorem (quantities : list (string * dict Qc)) (dimensions : list string) : result (list (dict Qc)) :=
  bind (column_echelon_form (map (fun d => map (fun q => dimension_of d (snd q)) quantities) dimensions)) (fun mi =>
  Ok (flat_map (fun mr => if existsb nonzero (fst mr) then [] else [group (map fst quantities) (snd mr)]) (combine (fst mi) (snd mi)))).
