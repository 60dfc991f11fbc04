(** * Model of the trust-region model-management optimiser

    Source: /repo/trunk/SUAVE/Optimization/Package_Setups/TRMM/Trust_Region_Optimization.py 71-389,
            432-479, 533-602, 605-669, 672-706, 709-759, 761-793
            /repo/trunk/SUAVE/Optimization/Package_Setups/TRMM/Trust_Region.py 48-78

    Simplifications: numbers are reals; an infinite edge is [None]; the sub-optimiser (scipy's
    minimize) is an oracle that is given its bounds and returns anything; writing and printing
    are left out.  The log of centres and radii is the one written to TRM_hist.txt (154-156). *)
From Coq Require Import Reals String List Bool.
From Verif Require Import PyBase M_Opt M_Swarm S_Opt.
Import ListNotations.
Local Open Scope R_scope.
Local Open Scope list_scope.

(** ** Additive correction *)
(** calculate_correction 565-602: row 0 is the objective, the others the constraints;
    [f], [df], [g], [dg] of the low and of the high fidelity level *)
Record level_values := { lv_f : R; lv_df : vec; lv_g : vec; lv_dg : list vec }.
Definition calculate_correction (lo hi : level_values) : list vec * vec :=
  (vsub (lv_df hi) (lv_df lo) :: map2 vsub (lv_dg hi) (lv_dg lo),
   lv_f hi - lv_f lo :: vsub (lv_g hi) (lv_g lo)).
(** evaluate_corrected_model 432-479: objective and constraints at [x], centre [x0] *)
Definition corrected_objective (lo_f : vec -> R) (corr : list vec * vec) (x0 x : vec) : R :=
  lo_f x + dot (hd [] (fst corr)) (vsub x x0) + hd 0 (snd corr).
Definition corrected_constraints (lo_g : vec -> vec) (corr : list vec * vec) (x0 x : vec) : vec :=
  vadd (vadd (lo_g x) (map (fun row => dot row (vsub x x0)) (tl (fst corr)))) (tl (snd corr)).

(** unpack_constraints_slsqp 781-793 with the arguments of initialize_SLSQP_constraints 761-779:
    what SLSQP is told about a constraint; [g] is the corrected scaled value *)
Definition slsqp_constraint (c : constraint) (g : R) : R :=
  (g - c_bound c) * (if is_lt c then -1 else 1).

(** ** Trust region *)
(** Trust_Region.py 48-54 *)
Record trust := { minimum_size : R; contract_threshold : R; expand_threshold : R;
                  contraction_factor : R; expansion_factor : R }.
Definition default_trust : trust :=
  {| minimum_size := / 10 ^ 15; contract_threshold := 1 / 4; expand_threshold := 3 / 4;
     contraction_factor := 1 / 4; expansion_factor := 3 / 2 |}.
(** Trust_Region.py 57-78 *)
Definition merit (f viol : R) : R := f + viol * viol.

(** calculate_constraint_violation 533-563 *)
Definition viol_terms (g : R) (edges : option R * option R) : list R :=
  (match fst edges with Some l => if Rltb g l then [l - g] else [] | None => [] end) ++
  (match snd edges with Some u => if Rltb u g then [g - u] else [] | None => [] end).
Definition violation (g : vec) (edges : list (option R * option R)) : R :=
  sqrt (fold_right Rplus 0 (map (fun d => d * d) (List.concat (map2 viol_terms g edges)))).

(** scale_vals 651-662: (lower, upper) edge of a constraint *)
Definition con_edges (c : constraint) : option R * option R :=
  let e := scale_const_value c (scale_const_bnd c) in
  if is_lt c then (None, Some e) else if is_gt c then (Some e, None) else (Some e, Some e).

(** accuracy_ratio 672-706 *)
Definition accuracy_ratio (precision f_center f_hi f_corr v_center v_hi v_corr : R) : R :=
  let hc := merit f_center v_center in let ho := merit f_hi v_hi in
  let lc := merit f_center v_center in let lo := merit f_corr v_corr in
  if Rltb (Rabs (lc - lo)) precision then 1 else (hc - ho) / (lc - lo).

(** update_tr_size 709-759; 1: shrink, 2: no change, 3: expand *)
Definition update_tr_size (t : trust) (size rho : R) (accepted : bool) : R * nat :=
  if negb accepted then (size * contraction_factor t, 1%nat)
  else if Rltb rho 0 then (size * contraction_factor t, 1%nat)
  else if negb (Rltb (contract_threshold t) rho) then (size * contraction_factor t, 1%nat)
  else if negb (Rltb (expand_threshold t) rho) then (size, 2%nat)
  else if negb (Rltb (5 / 4) rho) then (size * expansion_factor t, 3%nat)
  else (size, 2%nat).

Section Optimize.
  Variable t : trust.
  Variable precision tolerance : R.
  (** the design variable bounds, scaled; the constraint edges *)
  Variables x_low x_up : vec.
  Variable edges : list (option R * option R).
  (** the high-fidelity model *)
  Variable hi_f : vec -> R.
  Variable hi_g : vec -> vec.

  (** what the sub-optimiser answered: objective, point, constraints, success flag *)
  Record answer := { a_f : R; a_x : vec; a_g : vec; a_success : bool }.
  (** the oracle: iteration number, start, bounds *)
  Variable solve : nat -> vec -> vec -> vec -> answer.
  (** the second optimisation when the first one failed (288-303); its bounds are the
      constraint edges, not the trust region *)
  Variable solve_violation : nat -> vec -> list (option R * option R) -> answer.

  (** 185-186 *)
  Definition tr_lower (x : vec) (size : R) : vec := map2 Rmax x_low (map (fun xi => xi - size) x).
  Definition tr_upper (x : vec) (size : R) : vec := map2 Rmin x_up (map (fun xi => xi + size) x).

  (** np.isclose(a, b, rtol=1e-15, atol=1e-14) for all entries *)
  Fixpoint all_close (a b : vec) : bool :=
    match a, b with
    | y :: a', z :: b' => negb (Rltb (/ 10 ^ 14 + / 10 ^ 15 * Rabs z) (Rabs (y - z))) && all_close a' b'
    | [], [] => true
    | _, _ => false
    end.

  Inductive ending := TooSmall | Infeasible | Converged | MaxIterations.
  (** one pass 150-378 *)
  Inductive step_out :=
  | Stop (f : R) (x : vec) (m : ending)
  | Next (x : vec) (size : R) (f : R) (xopt : vec).
  Definition step (n : nat) (x : vec) (size : R) : step_out :=
    let f_center := hi_f x in
    let v_center := violation (hi_g x) edges in
    let first := solve n x (tr_lower x size) (tr_upper x size) in
    let a := if a_success first then first else solve_violation n x edges in
    let xo := a_x a in
    let f_hi := hi_f xo in
    let v_corr := violation (a_g a) edges in
    let v_hi := violation (hi_g xo) edges in
    let rho := accuracy_ratio precision f_center f_hi (a_f a) v_center v_hi v_corr in
    let accepted := Rltb f_hi f_center || Rltb v_hi v_center in
    let '(size', action) := update_tr_size t size rho accepted in
    if Rltb size' (minimum_size t) then Stop (a_f a) xo TooSmall
    else if negb (a_success first) && Nat.ltb action 3 && all_close xo x then Stop (a_f a) xo Infeasible
    else if accepted && Rltb (Rabs (f_center - f_hi)) tolerance then Stop (a_f a) xo Converged
    else Next (if accepted then xo else x) size' (a_f a) xo.

  (** the loop 150-389, with [k] iterations left; returns what is returned and the log *)
  Fixpoint loop (k n : nat) (x : vec) (size : R) (last : option (R * vec)) : option (R * vec * ending) * list (vec * R) :=
    match k with
    | O => (match last with Some (f, xo) => Some (f, xo, MaxIterations) | None => None end, [])
    | S k' =>
        match step n x size with
        | Stop f xo m => (Some (f, xo, m), [(x, size)])
        | Next x' size' f xo =>
            let '(r, log) := loop k' (S n) x' size' (Some (f, xo)) in (r, (x, size) :: log)
        end
    end.
  (** optimize 71-389; with no iteration allowed nothing is defined to be returned (UnboundLocalError) *)
  Definition optimize (max_iterations : nat) (x : vec) (size : R) : option (R * vec * ending) * list (vec * R) :=
    loop max_iterations 1 x size None.
End Optimize.
