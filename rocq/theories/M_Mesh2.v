(** * Airfoils as masks of cells: model

    Source: /repo/trunk/SUAVE/Methods/Geometry/Two_Dimensional/Cross_Section/Airfoil/convert_airfoil_to_meshgrid.py (CM).
    Coordinates are reals.  The mask is the list of its columns (first index: along the chord), each the list of its cells.
    Where the code divides by a zero step or a zero chord numpy goes on with the integer made of an infinity; that is not modelled ([GenericException]). *)
From Coq Require Import Reals ZArith Bool List.
From Verif Require Import PyBase.
Import ListNotations.
Local Open Scope R_scope.

(** np.floor and np.ceil, as integers *)
Definition floorZ (r : R) : Z := Int_part r.
Definition ceilZ (r : R) : Z := (- Int_part (- r))%Z.
(** np.diff *)
Fixpoint steps (l : list R) : list R := match l with a :: (b :: _) as r => (b - a) :: steps r | _ => [] end.
Fixpoint stepsZ (l : list Z) : list Z := match l with a :: (b :: _) as r => (b - a)%Z :: stepsZ r | _ => [] end.
Definition least (l : list R) : result R := match l with [] => Err ValueError | a :: r => Ok (fold_left Rmin r a) end.
Definition greatest (l : list R) : result R := match l with [] => Err ValueError | a :: r => Ok (fold_left Rmax r a) end.
(** CM 104-107, 134-137 *)
Definition repeats (X : list Z) : list Z := stepsZ X ++ [0%Z].
(** CM 116-118: two negative numbers in a row *)
Fixpoint sequential (l : list Z) : bool := match l with a :: (b :: _) as r => ((a <? 0)%Z && (b <? 0)%Z) || sequential r | _ => false end.
(** CM 122-132: the elements before and after each negative step are exchanged, for steps of which no two follow each other *)
Fixpoint exchange (reps : list Z) (l : list Z) : list Z :=
  match reps, l with
  | r :: rs, a :: (b :: t) as u => if (r <? 0)%Z then match rs with _ :: rs' => b :: a :: exchange rs' t | [] => l end else a :: exchange rs u
  | _, _ => l
  end.
(** CM 147-148: np.repeat *)
Fixpoint spread (reps lo hi : list Z) : result (list (Z * Z)) :=
  match reps, lo, hi with
  | r :: rs, a :: ls, b :: hs => if (r <? 0)%Z then Err ValueError else bind (spread rs ls hs) (fun t => Ok (repeat (a, b) (Z.to_nat r) ++ t))
  | [], [], [] => Ok []
  | _, _, _ => Err ValueError
  end.
(** np.arange *)
Definition upto (n : Z) : list Z := map Z.of_nat (seq 0 (Z.to_nat n)).
(** CM 154-164; shapes that differ are broadcast if one of them is 1 *)
Definition column (ny : Z) (c : Z * Z) : list bool := map (fun j => (fst c <? j)%Z && (j <? snd c)%Z) (upto ny).
Definition fill (nx ny : Z) (cols : list (Z * Z)) : result (list (list bool)) :=
  let m := map (column ny) cols in
  if Z.eqb (Z.of_nat (length cols)) (Z.max 0 nx) then Ok m
  else match m with [c] => Ok (repeat c (Z.to_nat nx)) | _ => if Z.eqb nx 1 then Ok m else Err ValueError end.
(** CM 15-166; None is the result after the message *)
Definition meshgrid (xs lo hi : list R) : result (option (list (list bool))) :=
  bind (greatest xs) (fun len => bind (least (steps xs)) (fun d =>
  bind (greatest hi) (fun top => bind (least lo) (fun bottom =>
  if Req_EM_T d 0 then Err GenericException else if Req_EM_T len 0 then Err GenericException else
  let nx := ceilZ (len / Rabs d) in
  let s := IZR nx / len in
  let X := map (fun x => ceilZ (s * x)) xs in
  let L := map (fun y => floorZ (s * (y - bottom))) lo in
  let H := map (fun y => ceilZ (s * (y - bottom))) hi in
  let reps := repeats X in
  let height n := ceilZ (IZR n * (top - bottom)) in
  if existsb (fun r => (r <? 0)%Z) reps then
    if sequential reps then Ok None else
    let reps' := repeats (exchange reps X) in
    let nx' := fold_right Z.add 0%Z reps' in
    bind (spread reps' (exchange reps L) (exchange reps H)) (fun cols => bind (fill nx' (height nx') cols) (fun m => Ok (Some m)))
  else bind (spread reps L H) (fun cols => bind (fill nx (height nx) cols) (fun m => Ok (Some m))))))).
