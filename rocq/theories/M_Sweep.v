(** * Sweeps, records and surrogate based optimisation
    OP = trunk/SUAVE/Optimization; LP = OP/line_plot.py, CP = OP/carpet_plot.py, WO = OP/write_optimization_outputs.py,
    RO = OP/read_optimization_outputs.py, AD = OP/Package_Setups/additive_setup.py, SO = OP/Surrogate_Optimization.py
    Exact real numbers. Plots and printing are left out. *)
From Coq Require Import Reals List Arith Ascii String Bool.
From Verif Require Import PyBase M_Opt M_Noise.
Import ListNotations.
Local Open Scope R_scope.

(** ** sweeps *)
Definition values (t : list input) : list R := map i_val t.
(** numpy assignment to one entry of the column of values *)
Fixpoint set_val (i : nat) (v : R) (t : list input) : list input :=
  match t, i with [] , _ => [] | r :: t', O => with_val r v :: t' | r :: t', S k => r :: set_val k v t' end.
Definition at_index (t : list input) (i : nat) : result input := match nth_error t i with Some r => Ok r | None => Err IndexError end.
(** a problem: [f] and [g] give the scaled objective and constraints at the current values (a problem with hard bounds,
    which changes the table itself, is left out) *)
Record sweep := Sweep { sw_f : list R -> R; sw_g : list R -> list R; sw_scale : R }.
(** LP 79-83: state (inputs, objectives, constraints) *)
Fixpoint line_loop (p : sweep) (i : nat) (xs : list R) (t : list input) (acc : list (R * list R)) : list input * list (R * list R) :=
  match xs with
  | [] => (t, acc)
  | x :: xs' => let t' := set_val i x t in line_loop p i xs' t' (acc ++ [(sw_f p (values t') * sw_scale p, sw_g p (values t'))])
  end.
(** LP 54-108: (inputs left in the problem, swept inputs, results); a negative index is left out *)
Definition line_plot (p : sweep) (t : list input) (n i : nat) : result (list input * list R * list (R * list R)) :=
  bind (at_index t i) (fun r =>
  let xs := linspace (i_lo r) (i_up r) n in let '(t', res) := line_loop p i xs t [] in Ok (t', xs, res)).
(** CP 68-70, 79-86: arrays as functions of row and column *)
Definition table := nat -> nat -> R * list R.
Definition put (m : table) (r c : nat) (v : R * list R) : table := fun r' c' => if (Nat.eqb r r' && Nat.eqb c c')%bool then v else m r' c'.
Definition carpet_step (p : sweep) (i0 i1 : nat) (x0 x1 : list R) (s : list input * table) (ij : nat * nat) : list input * table :=
  let '(t, m) := s in let '(i, j) := ij in
  let t' := set_val i1 (nth j x1 0) (set_val i0 (nth i x0 0) t) in (t', put m j i (sw_f p (values t') * sw_scale p, sw_g p (values t'))).
Definition carpet_plot (p : sweep) (t : list input) (n i0 i1 : nat) : result (list input * (list R * list R) * table) :=
  bind (at_index t i0) (fun r0 => bind (at_index t i1) (fun r1 =>
  let x0 := linspace (i_lo r0) (i_up r0) n in let x1 := linspace (i_lo r1) (i_up r1) n in
  let '(t', m) := fold_left (carpet_step p i0 i1 x0 x1) (list_prod (seq 0 n) (seq 0 n)) (t, fun _ _ => (0, [])) in Ok (t', (x0, x1), m))).

(** ** records *)
Definition text := list ascii.
Definition chars (s : string) : text := list_ascii_of_string s.
Fixpoint starts (p s : text) : bool := match p, s with [], _ => true | _, [] => false | a :: p', b :: s' => (Ascii.eqb a b && starts p' s')%bool end.
(** str.replace(p, '') *)
Fixpoint remove (p : text) (skip : nat) (s : text) : text :=
  match s with
  | [] => []
  | c :: s' => match skip with S k => remove p k s' | O => if starts p s then remove p (List.length p - 1) s' else c :: remove p 0 s' end
  end.
(** str.split(' ') *)
Fixpoint split (s : text) : list text :=
  match s with
  | [] => [[]]
  | c :: s' => if Ascii.eqb c " " then [] :: split s' else match split s' with [] => [[c]] | w :: ws => (c :: w) :: ws end
  end.
Definition newline : ascii := "010".
(** readlines: each line keeps its end *)
Fixpoint readlines (s : text) : list text :=
  match s with
  | [] => []
  | c :: s' => if Ascii.eqb c newline then [c] :: readlines s' else match readlines s' with [] => [[c]] | l :: ls => (c :: l) :: ls end
  end.

Section Records.
(** numbers, how str prints them and how float reads them *)
Variables (A : Type) (show : A -> text) (parse : text -> option A).
Record entry := Entry { e_iter : A; e_obj : A; e_in : list A; e_con : list A }.
(** str of a list *)
Fixpoint commas (l : list text) : text := match l with [] => [] | [w] => w | w :: ws => w ++ chars ", " ++ commas ws end.
Definition show_list (l : list A) : text := chars "[" ++ commas (map show l) ++ chars "]".
(** WO 67-77 *)
Definition write_entry (e : entry) : text :=
  chars "iteration = " ++ show (e_iter e) ++ chars " , " ++ chars "objective = " ++ show (e_obj e) ++ chars ", inputs = " ++ show_list (e_in e)
  ++ chars ", constraints = " ++ show_list (e_con e) ++ [newline].
(** WO 66: appended to the file *)
Definition write_all (file : text) (es : list entry) : text := fold_left (fun f e => f ++ write_entry e) es file.
(** RO 40-47 *)
Definition strip (s : text) : text :=
  remove (chars "constraints = ") 0 (remove (chars "inputs = ") 0 (remove (chars " objective = ") 0 (remove (chars "iteration = ") 0
  (remove (chars ",") 0 (remove (chars "]") 0 (remove (chars "[") 0 s)))))).
(** RO 49-55; the test of 51 always holds *)
Fixpoint floats (ws : list text) : result (list A) :=
  match ws with [] => Ok [] | w :: r => match parse w with Some x => bind (floats r) (fun l => Ok (x :: l)) | None => Err ValueError end end.
Fixpoint rows (ls : list text) : result (list (list A)) :=
  match ls with [] => Ok [] | l :: r => bind (floats (split (strip l))) (fun x => bind (rows r) (fun xs => Ok (x :: xs))) end.
(** RO 87-99; no rows, or rows of different lengths, are not a matrix *)
Definition rectangular (m : list (list A)) : bool := match m with [] => false | r :: rs => forallb (fun q => Nat.eqb (List.length q) (List.length r)) rs end.
Definition column (i : nat) (m : list (list A)) : result (list A) :=
  (fix go (m : list (list A)) := match m with [] => Ok [] | r :: rs => match nth_error r i with Some x => bind (go rs) (fun xs => Ok (x :: xs)) | None => Err IndexError end end) m.
Definition read_outputs (file : text) (ninputs nconstraints : nat) : result (list A * list A * list (list A) * list (list A)) :=
  bind (rows (readlines file)) (fun m =>
  if rectangular m then
    bind (column 0 m) (fun its => bind (column 1 m) (fun os =>
    Ok (its, os, map (fun r => firstn ninputs (skipn 2 r)) m, map (fun r => firstn nconstraints (skipn (ninputs + 2) r)) m)))
  else Err IndexError).
End Records.
Arguments Entry {A}. Arguments e_iter {A}. Arguments e_obj {A}. Arguments e_in {A}. Arguments e_con {A}.
(** WO 46-48: column 3 is the scaling of a table with pairs of bounds (name, value, bounds, scaling, units)
    and the upper bound of one with separate bounds (name, value, lower, upper, scaling, units) *)
Definition recorded (separate : bool) (t : list input) : list R := map (fun r => i_val r / (if separate then i_up r else i_scale r)) t.

(** ** AD *)
Section Additive.
(** objective at fidelity 1 and 2; what the optimiser answers in iteration [k] on the data so far: the expected value and
    the point (None: nan); the final search of 'MEI' *)
Variables (f1 f2 : list R -> R).
Record data := Dat { d_x : list (list R); d_lo : list R; d_hi : list R }.
Variables (search : nat -> data -> R * option (list R)) (final : data -> list R).
Inductive mode := basic | mei.
(** 97-108 *)
Definition first_data (xs : list (list R)) : data := Dat xs (map f1 xs) (map f2 xs).
(** 203-210 *)
Definition add_point (d : data) (x : list R) : data := Dat (d_x d ++ [x]) (d_lo d ++ [f1 x]) (d_hi d ++ [f2 x]).
(** what is returned (320-325), whether it converged, the data saved (312-313) and the number of iterations; [a_f] is None for nan *)
Record answer := Answer { a_f : option R; a_x : option (list R); a_conv : bool; a_data : data; a_iter : nat }.
(** 112-305, iteration [k] of [k + S left]; [x0], [x1] of 214-215 raise IndexError for fewer than two inputs.
    The local optimiser is SLSQP. In 'MEI' the expected value is nan until 305, so the test of 260 fails. *)
Fixpoint iterate (m : mode) (tol : R) (k left : nat) (d : data) : result answer :=
  let '(fo, xo) := search k d in
  match xo with
  | None => match m with basic => Ok (Answer None None false d (S k)) | mei => let x := final d in Ok (Answer (Some (f2 x)) (Some x) false d (S k)) end
  | Some x =>
      if Nat.ltb (List.length x) 2 then Err IndexError else
      let d' := add_point d x in
      match left with
      | O => match m with basic => Ok (Answer (Some (f2 x)) (Some x) false d' (S k)) | mei => let y := final d' in Ok (Answer (Some (f2 y)) (Some y) false d' (S k)) end
      | S left' =>
          match m with
          | basic => if Rltb (Rabs (fo - last (d_hi d') 0)) tol then Ok (Answer (Some fo) (Some x) true d' (S k)) else iterate m tol (S k) left' d'
          | mei => iterate m tol (S k) left' d'
          end
      end
  end.
(** 44-325; with no iteration [fOpt] of 315 has no value *)
Definition additive (m : mode) (tol : R) (max : nat) (xs : list (list R)) : result answer :=
  match max with O => Err UnboundLocalError | S n => iterate m tol 0 n (first_data xs) end.
End Additive.
(** 383-391 *)
Definition corrected (low : list R -> R) (predict : list R -> R) (x : list R) : R := low x + predict x.
(** 599-600, 613-623: (lower, upper) edges, None for an infinite one; other senses add no edge *)
Definition edges (c : constraint) : option (option R * option R) :=
  let e := scale_const_value c (scale_const_bnd c) in
  if is_lt c then Some (None, Some e) else if is_gt c then Some (Some e, None) else if is_eq c then Some (Some e, Some e) else None.
(** 680-715 (and 723-736): equality or inequality, and its value at the corrected scaled value [v] *)
Definition slsqp_constraint (c : constraint) (v : R) : result (bool * R) :=
  if (is_lt c || is_gt c)%bool then Ok (false, (v - c_bound c) * (if is_lt c then -1 else 1)) else if is_eq c then Ok (true, (v - c_bound c) * 1) else Err ValueError.

(** ** SO *)
Section Surrogate.
(** the optimum of the surrogate built in iteration [j], and the problem's objective *)
Variables (optimum : nat -> list R) (objective : list R -> R).
(** np.linalg.norm of a difference *)
Definition distance (a b : list R) : R := sqrt (fold_right Rplus 0 (map2 (fun x y => (x - y) ^ 2) a b)).
(** 155-213: the points evaluated, in order *)
Fixpoint refine (j left : nat) (done : list (list R)) : list (list R) :=
  match left with
  | O => done
  | S left' =>
      let x := optimum j in
      if (Nat.ltb 1 j && Rltb (distance x (last done [])) (1 / 10000))%bool then done else refine (S j) left' (done ++ [x])
  end.
(** 121-216: the value returned, where it was evaluated, the evaluations; [output_real] of 216 has no value without an iteration *)
Definition iterative_optimization (max : nat) : result (R * list R * list (list R)) :=
  match refine 0 max [] with [] => Err UnboundLocalError | e => Ok (objective (last e []), last e [], e) end.
End Surrogate.
(** 97-99, 111-115: points of the sampling plan, in scaled units, to values *)
Definition plan_values (t : list input) (x : list R) : list R := map2 (fun r v => v * i_scale r) t x.
Definition plan_bounds (t : list input) : list (R * R) := map (fun r => (i_lo r / i_scale r, i_up r / i_scale r)) t.
