(** * Further solver set-ups
    OS = trunk/SUAVE/Optimization/Package_Setups/pyoptsparse_setup.py, OI = .../ipopt_setup.py, OU = .../pyopt_surrogate_setup.py,
    SP = trunk/SUAVE/Surrogate/Surrogate_Problem.py, SK = .../scikit_surrogate_functions.py (kriging_surrogate_functions.py 50-64 and svr_surrogate_functions.py 53-68 have the same loop), SV = .../svr_surrogate_functions.py
    Numbers are reals; where nan matters a number is an option, None for nan. Constraint and input rows are those of M_Opt. *)
From Coq Require Import Reals String List Bool Arith ZArith.
From Verif Require Import PyBase M_Opt.
Import ListNotations.
Local Open Scope R_scope.
Local Open Scope list_scope.

(** ** pyoptsparse *)
(** OS 78-79, 92-101: lower and upper bound on the value all_constraints returns (as pyopt_edge); a row with another sense is not added *)
Definition sparse_constraint (c : constraint) : option (string * (option R * option R)) :=
  let edge := pyopt_edge c in
  if is_lt c then Some (c_name c, (None, Some edge))
  else if is_gt c then Some (c_name c, (Some edge, None))
  else if is_eq c then Some (c_name c, (Some edge, Some edge)) else None.
(** OS 184-187: the vector the problem is asked for, from the solver's dictionary *)
Definition sparse_x (xdict : dict R) : list R := dvals xdict.
(** OS 194-200: the dictionary of answers; as many values as names *)
Definition fill (d : dict R) (names : list string) (vals : list R) : dict R := fold_left (fun d nv => dset (fst nv) (snd nv) d) (combine names vals) d.
Definition sparse_funcs (onames cnames : list string) (obj con : list R) : dict R := fill (fill [] onames obj) cnames con.
(** OS 192, SP 46 (pyopt_setup.py 187 is the same): isnan of any() of the constraints is isnan of a truth value; the truth of several values is ambiguous *)
Definition fails (obj con : list (option R)) : result bool :=
  match obj with
  | [] => Ok false
  | [o] => Ok (match o with None => true | Some _ => false end)
  | _ => Err ValueError
  end.

(** ** Ipopt *)
Inductive ext := NegInf | Fin (x : R) | PosInf.
(** OI 69-84: a row of the two arrays of bounds; the arrays have the shape of the constraint table, five columns, and a row is set at once *)
Definition ipopt_limits (c : constraint) : ext * ext :=
  if is_lt c then (NegInf, Fin (c_bound c)) else if is_gt c then (Fin (c_bound c), PosInf)
  else if is_eq c then (Fin (c_bound c), Fin (c_bound c)) else (Fin 0, Fin 0).
Definition ipopt_arrays (cons : list constraint) : list (list ext) * list (list ext) :=
  (map (fun c => repeat (fst (ipopt_limits c)) 5) cons, map (fun c => repeat (snd (ipopt_limits c)) 5) cons).
(** OI 223-264 *)
Definition structure (nvar ncon : nat) : list nat * list nat :=
  (map (fun nn => Nat.div nn nvar) (seq 0 (nvar * ncon)), map (fun nn => Nat.modulo nn nvar) (seq 0 (nvar * ncon))).
(** OI 165-168: with Nexus.finite_difference (M_Opt) *)
Definition jacobian_values (obj : list R -> R) (con : list R -> list R) (x : list R) (n : nat) (h : R) : list R := concat (snd (finite_difference obj con x n h)).

(** ** surrogates *)
(** OU 57-59, 71-79: the last branch asks for the sense of the one before *)
Definition surrogate_edge (c : constraint) : R := pyopt_edge c * c_units c.
Definition surrogate_constraint (c : constraint) : limits :=
  if is_lt c then Upper (surrogate_edge c) else if is_gt c then Lower (surrogate_edge c) else if is_gt c then Equal (surrogate_edge c) else NoLimit.
Section Surrogate.
  (** a regression: [fit inputs outputs] and its prediction *)
  Context {model : Type}.
  Variable fit : list (list R) -> list R -> model.
  Variable predict : model -> list R -> R.
  (** SK 48-61 *)
  Definition column (j : nat) (rows : list (list R)) : list R := map (fun r => nth j r 0) rows.
  Definition build_models (obj_values : list R) (inputs constraints : list (list R)) : result (model * list model) :=
    match constraints with
    | [] => Err IndexError
    | r :: _ => Ok (fit inputs obj_values, map (fun j => fit inputs (column j constraints)) (seq 0 (List.length r)))
    end.
  (** SP 39-43 *)
  Definition compute (m : model * list model) (x : list R) : R * list R := (predict (fst m) x, map (fun s => predict s x) (snd m)).
  (** python's slices l[:k] and l[k:] *)
  Definition slice_to {A} (k : Z) (l : list A) : list A := firstn (Z.to_nat (if Z.ltb k 0 then Z.of_nat (List.length l) + k else k)) l.
  Definition slice_from {A} (k : Z) (l : list A) : list A := skipn (Z.to_nat (if Z.ltb k 0 then Z.of_nat (List.length l) + k else k)) l.
  (** SV 99-104 *)
  Definition left_out {A} (imin : Z) (l : list A) : list A := if Z.eqb imin 0 then slice_from 1 l else slice_to imin l ++ slice_from (imin + 1) l.
  (** SV 106-110: the predictions compared with row [imin]; they are made at the last point *)
  Definition svr_predictions (imin : Z) (data_inputs data_outputs : list (list R)) : list R :=
    map (fun j => predict (fit (left_out imin data_inputs) (column j (left_out imin data_outputs))) (last data_inputs []))
        (seq 0 (List.length (hd [] data_outputs))).
End Surrogate.
