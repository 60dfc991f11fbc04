(** * Model of the numerical part of the optimisation interface

    Source: /repo/trunk/SUAVE/Optimization/helper_functions.py 124-211, 264-373
            /repo/trunk/SUAVE/Optimization/Nexus.py 75-139, 171-222, 224-263, 265-292, 295-329, 352-401
            /repo/trunk/SUAVE/Optimization/Package_Setups/scipy_setup.py 56-104
            /repo/trunk/SUAVE/Optimization/Package_Setups/pyopt_setup.py 65-96

    Simplifications: numbers are reals; the numpy object tables are lists of records; reading the
    model's outputs (get_values, see M_SetValues) and running the analysis procedure are
    parameters. *)
From Coq Require Import Reals String List Bool.
From Verif Require Import PyBase.
Import ListNotations.
Local Open Scope R_scope.
Local Open Scope list_scope.

(** a row of optimization_problem.inputs: name, value, lower, upper, scale, units *)
Record input := { i_name : string; i_val : R; i_lo : R; i_up : R; i_scale : R; i_units : R }.
Definition with_val (r : input) (v : R) : input :=
  {| i_name := i_name r; i_val := v; i_lo := i_lo r; i_up := i_up r; i_scale := i_scale r; i_units := i_units r |}.

Fixpoint map2 {X Y Z} (f : X -> Y -> Z) (a : list X) (b : list Y) : list Z :=
  match a, b with
  | x :: a', y :: b' => f x y :: map2 f a' b'
  | _, _ => []
  end.

(** helper_functions.py 124-147; numpy raises when the lengths differ (a vector of length one
    would be broadcast, which is not modelled) *)
Definition scale_input_values (inputs : list input) (x : list R) : result (list input) :=
  if Nat.eqb (List.length x) (List.length inputs)
  then Ok (map2 (fun r xi => with_val r (xi * i_scale r)) inputs x)
  else Err ValueError.

Definition Rltb (a b : R) : bool := if Rlt_dec a b then true else false.

(** helper_functions.py 149-180: first the lower bounds, then the upper bounds *)
Definition limit_low (r : input) : input := if Rltb (i_val r) (i_lo r) then with_val r (i_lo r) else r.
Definition limit_up (r : input) : input := if Rltb (i_up r) (i_val r) then with_val r (i_up r) else r.
Definition limit_input_values (inputs : list input) : list input := map limit_up (map limit_low inputs).

(** helper_functions.py 184-211 *)
Definition convert_values (inputs : list input) : list R := map (fun r => i_val r * i_units r) inputs.

(** Nexus.py 315-324 *)
Definition unpack_table (hard : bool) (x : option (list R)) (inputs : list input) : result (list input) :=
  bind (match x with Some v => scale_input_values inputs v | None => Ok inputs end)
       (fun i => Ok (if hard then limit_input_values i else i)).

(** a row of the constraints: name, sense, bound, scale, units; of the objective: name, scale, units *)
Record constraint := { c_name : string; c_sense : string; c_bound : R; c_scale : R; c_units : R }.
Record objective := { o_name : string; o_scale : R; o_units : R }.

(** helper_functions.py 264-290, 293-316, 319-346, 349-373 *)
Definition scale_obj_value (o : objective) (x : R) : R := x / (o_scale o * o_units o).
Definition scale_const_value (c : constraint) (x : R) : R := x / c_scale c.
Definition scale_const_bnd (c : constraint) : R := c_bound c * c_units c.
(** as called by Nexus.translate (435, 445): the scaled value back to a physical one *)
Definition unscale_const_value (c : constraint) (x : R) : R := x * c_scale c / c_units c.
Definition unscale_obj_value (o : objective) (x : R) : R := x * o_scale o / o_units o.

Definition is_eq (c : constraint) : bool := String.eqb (c_sense c) "=".
Definition is_lt (c : constraint) : bool := String.eqb (c_sense c) "<".
Definition is_gt (c : constraint) : bool := String.eqb (c_sense c) ">".

(** Nexus.py 171-222, 224-263, 265-292; [value] is the physical (SI) value of the named
    output.  With no constraint table at all numpy's slicing raises (IndexError). *)
Definition inequality_constraint (cons : list constraint) (value : string -> R) : result (list R) :=
  match cons with
  | [] => Err IndexError
  | _ =>
    Ok (map (fun c => let e := scale_const_value c (value (c_name c)) - scale_const_bnd c in
                      if is_lt c then - e else e)
            (filter (fun c => negb (is_eq c)) cons))
  end.
Definition equality_constraint (cons : list constraint) (value : string -> R) : result (list R) :=
  match cons with
  | [] => Err IndexError
  | _ =>
    Ok (map (fun c => scale_const_value c (value (c_name c)) - scale_const_bnd c)
            (filter (fun c => negb (is_gt c || is_lt c)) cons))
  end.
Definition all_constraints (cons : list constraint) (value : string -> R) : list R :=
  map (fun c => scale_const_value c (value (c_name c))) cons.

(** ** Nexus.finite_difference 352-401
    [obj]/[con] are the scaled objective and constraints as functions of the scaled inputs. *)
Fixpoint set_nth (n : nat) (v : R) (l : list R) : list R :=
  match l, n with
  | [], _ => []
  | _ :: r, O => v :: r
  | x :: r, S n' => x :: set_nth n' v r
  end.
(** newx = x; newx[ii] += diff_interval *)
Definition perturb (x : list R) (i : nat) (h : R) : list R := set_nth i (nth i x 0 + h) x.
(** the points at which the problem is evaluated, in order: objective and all_constraints at
    [x], then both at every perturbed point *)
Definition fd_points (x : list R) (n : nat) (h : R) : list (list R) :=
  x :: x :: flat_map (fun i => [perturb x i h; perturb x i h]) (seq 0 n).
Definition finite_difference (obj : list R -> R) (con : list R -> list R) (x : list R) (n : nat) (h : R)
  : list R * list (list R) :=
  let o := obj x in let c := con x in
  let go := map (fun i => obj (perturb x i h)) (seq 0 n) in
  let gc := map (fun i => con (perturb x i h)) (seq 0 n) in
  (map (fun g => (g - o) / h) go,
   (* (jac_con - con2).T / h : row j, column i *)
   map (fun j => map (fun row => (nth j row 0 - nth j c 0) / h) gc) (seq 0 (List.length c))).

(** ** Nexus.evaluate 75-139
    [I] the inputs table, [X] the vector given to evaluate, [D] everything the procedure reads
    and writes. *)
Section Nexus.
  Context {I X D : Type}.
  (** unpack_inputs: the new table (scaled and, if asked for, limited; see [unpack_table]), and
      the values written into the configurations.  A vector of the wrong length, which raises
      before anything is run, is not modelled here. *)
  Variable store : option X -> I -> I.
  Variable write : I -> D -> D.
  (** [np.all(inputs == last_inputs)] *)
  Variable same : I -> I -> bool.
  (** the procedure: new content, and whether it ended or raised *)
  Variable procedure : D -> nat -> D * option pyerr.

  Record nexus := {
    inputs : I; data : D; fidelity : nat; force : bool;
    last_inputs : option I; last_fidelity : option nat; evaluation_count : nat;
  }.

  (** Nexus.py 98-103 *)
  Definition up_to_date (n : nexus) : bool :=
    match last_inputs n, last_fidelity n with
    | Some i, Some f => same (inputs n) i && Nat.eqb f (fidelity n) && negb (force n)
    | _, _ => false
    end.
  (** Nexus.py 295-329 *)
  Definition unpack_inputs (x : option X) (n : nexus) : nexus :=
    let i := store x (inputs n) in
    {| inputs := i; data := write i (data n); fidelity := fidelity n; force := force n;
       last_inputs := last_inputs n; last_fidelity := last_fidelity n; evaluation_count := evaluation_count n |}.
  (** Nexus.py 106-139: on an exception the bookkeeping at the end is not reached *)
  Definition really_evaluate (n : nexus) : nexus * option pyerr :=
    let '(d, r) := procedure (data n) (fidelity n) in
    match r with
    | None => ({| inputs := inputs n; data := d; fidelity := fidelity n; force := force n;
                  last_inputs := Some (inputs n); last_fidelity := Some (fidelity n);
                  evaluation_count := S (evaluation_count n) |}, None)
    | Some e => ({| inputs := inputs n; data := d; fidelity := fidelity n; force := force n;
                    last_inputs := last_inputs n; last_fidelity := last_fidelity n;
                    evaluation_count := S (evaluation_count n) |}, Some e)
    end.
  Definition evaluate (x : option X) (n : nexus) : nexus * option pyerr :=
    let n' := unpack_inputs x n in
    if up_to_date n' then (n', None) else really_evaluate n'.

  (** what a user does with a Nexus *)
  Inductive op := Evaluate (x : option X) | SetFidelity (f : nat) | SetForce (b : bool).
  Definition run_op (o : op) (n : nexus) : nexus * option pyerr :=
    match o with
    | Evaluate x => evaluate x n
    | SetFidelity f => ({| inputs := inputs n; data := data n; fidelity := f; force := force n;
                           last_inputs := last_inputs n; last_fidelity := last_fidelity n;
                           evaluation_count := evaluation_count n |}, None)
    | SetForce b => ({| inputs := inputs n; data := data n; fidelity := fidelity n; force := b;
                        last_inputs := last_inputs n; last_fidelity := last_fidelity n;
                        evaluation_count := evaluation_count n |}, None)
    end.
  (** stops at the first exception *)
  Fixpoint run_ops (l : list op) (n : nexus) : nexus * option pyerr :=
    match l with
    | [] => (n, None)
    | o :: r => match run_op o n with
                | (n', None) => run_ops r n'
                | (n', Some e) => (n', Some e)
                end
    end.
  (** Nexus.__defaults__ 43-73 *)
  Definition new_nexus (i : I) (d : D) : nexus :=
    {| inputs := i; data := d; fidelity := 1; force := false; last_inputs := None;
       last_fidelity := None; evaluation_count := 0 |}.
End Nexus.
Arguments nexus I D : clear implicits.
Arguments op X : clear implicits.

(** ** Package set-ups *)
(** scipy_setup.py 62-73, pyopt_setup.py 75-79: start point and bounds handed to the solver *)
Definition solver_start (inputs : list input) : list R := map (fun r => i_val r / i_scale r) inputs.
Definition solver_bounds (inputs : list input) : list (R * R) :=
  map (fun r => (i_lo r / i_scale r, i_up r / i_scale r)) inputs.

(** pyopt_setup.py 73-74, 87-96: a constraint as bounds on the value returned by
    all_constraints; None is no bound *)
Definition pyopt_edge (c : constraint) : R := scale_const_value c (scale_const_bnd c).
Inductive limits := Upper (u : R) | Lower (l : R) | Equal (e : R) | NoLimit.
Definition pyopt_constraint (c : constraint) : limits :=
  if is_lt c then Upper (pyopt_edge c)
  else if is_gt c then Lower (pyopt_edge c)
  else if is_eq c then Equal (pyopt_edge c) else NoLimit.

(** scipy_setup.py 81-104: differential evolution.  [fun] is a closure over the local variable
    [de_constraint], which the loop reassigns; it is called after the loop.  An equality keeps
    the previous iteration's constraint object (UnboundLocalError for the first). *)
Definition de_env := option constraint.                  (* the variable de_constraint *)
Record de_con := { de_fun : de_env -> (string -> R) -> result R; de_lim : limits }.
Definition de_closure : de_env -> (string -> R) -> result R :=
  fun env value => match env with Some c => Ok (value (c_name c)) | None => Err NameError end.
Fixpoint de_loop (cons : list constraint) (env : de_env) (nlc : option de_con) (acc : list de_con)
  : result (list de_con * de_env) :=
  match cons with
  | [] => Ok (acc, env)
  | c :: r =>
      let env' := Some c in
      let nlc' := if is_gt c then Some {| de_fun := de_closure; de_lim := Lower (scale_const_bnd c) |}
                  else if is_lt c then Some {| de_fun := de_closure; de_lim := Upper (scale_const_bnd c) |}
                  else nlc in
      match nlc' with
      | None => Err UnboundLocalError
      | Some k => de_loop r env' nlc' (acc ++ [k])
      end
  end.
(** what the solver sees: each constraint object evaluated with the variable as the loop left it *)
Definition de_constraints (cons : list constraint) (value : string -> R) : result (list (R * limits)) :=
  match de_loop cons None None [] with
  | Err e => Err e
  | Ok (l, env) =>
      (fix go (l : list de_con) : result (list (R * limits)) :=
         match l with
         | [] => Ok []
         | k :: r => bind (de_fun k env value) (fun v => bind (go r) (fun vs => Ok ((v, de_lim k) :: vs)))
         end) l
  end.
