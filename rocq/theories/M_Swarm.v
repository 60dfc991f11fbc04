(** * Model of particle_swarm_optimization

    Source: /repo/trunk/SUAVE/Optimization/Package_Setups/particle_swarm_optimization.py 15-198

    Simplifications: numbers are reals; the random numbers are given (one list per use); printing
    is left out.  [trace] is added: the points at which the objective was evaluated, in order. *)
From Coq Require Import Reals List Bool.
From Verif Require Import PyBase M_Opt.
Import ListNotations.
Local Open Scope R_scope.
Local Open Scope list_scope.

Notation vec := (list R).
Definition vadd (a b : vec) : vec := map2 Rplus a b.
Definition vsub (a b : vec) : vec := map2 Rminus a b.
Definition vmul (a b : vec) : vec := map2 Rmult a b.
Definition vscale (c : R) (a : vec) : vec := map (Rmult c) a.

(** lines 161-164: first everything below the lower bound, then what was above the upper bound
    (both marks are taken before) *)
Definition clamp1 (l u x : R) : R :=
  let m1 := Rltb x l in let m2 := Rltb u x in
  let x1 := if m1 then l else x in if m2 then u else x1.
Fixpoint clamp (lb ub x : vec) : vec :=
  match lb, ub, x with
  | l :: lb', u :: ub', y :: x' => clamp1 l u y :: clamp lb' ub' x'
  | _, _, _ => []
  end.

Record particle := { pos : vec; vel : vec; best : vec; best_val : R }.

Section Swarm.
  Variables lb ub : vec.
  Variable obj : vec -> R.
  (** is_feasible 109-111: all(cons(x) >= 0) *)
  Variable feasible : vec -> bool.
  Variables omega phip phig minstep minfunc : R.

  (** line 121 *)
  Definition huge : R := 10 ^ 100.

  Record swarm := { parts : list particle; sw_best : vec; sw_val : R; trace : list vec }.

  (** lines 123-145, with the two random vectors used for particle [i] *)
  Definition spread : vec := vsub ub lb.
  Definition init_particle (rx rv : vec) : particle :=
    let x := vadd lb (vmul rx spread) in
    let vhigh := map Rabs spread in let vlow := map Ropp vhigh in
    {| pos := x; vel := vadd vlow (vmul rv (vsub vhigh vlow)); best := x; best_val := obj x |}.
  Fixpoint init (seeds : list (vec * vec)) (first : bool) (s : swarm) : swarm :=
    match seeds with
    | [] => s
    | (rx, rv) :: rest =>
        let q := init_particle rx rv in
        let g0 := if first then best q else sw_best s in
        let better := Rltb (best_val q) (sw_val s) && feasible (best q) in
        init rest false
          {| parts := parts s ++ [q];
             sw_best := if better then best q else g0;
             sw_val := if better then best_val q else sw_val s;
             trace := trace s ++ [best q] |}
    end.
  Definition init_swarm (seeds : list (vec * vec)) : swarm :=
    init seeds true {| parts := []; sw_best := []; sw_val := huge; trace := [] |}.

  (** line 179 *)
  Definition stepsize (a b : vec) : R := sqrt (fold_right Rplus 0 (map (fun d => d * d) (vsub a b))).

  (** lines 155-188 for one particle *)
  Definition move (q : particle) (g rp rg : vec) : particle :=
    let v := vadd (vadd (vscale omega (vel q)) (vmul (vscale phip rp) (vsub (best q) (pos q))))
                  (vmul (vscale phig rg) (vsub g (pos q))) in
    {| pos := clamp lb ub (vadd (pos q) v); vel := v; best := best q; best_val := best_val q |}.

  (** the particles already moved, the swarm best, the points evaluated; [inr] is an early return *)
  Fixpoint sweep (todo : list (particle * (vec * vec))) (done : list particle) (g : vec) (fg : R) (tr : list vec)
    : swarm + (vec * R * list vec) :=
    match todo with
    | [] => inl {| parts := done; sw_best := g; sw_val := fg; trace := tr |}
    | (q, (rp, rg)) :: rest =>
        let q1 := move q g rp rg in
        let fx := obj (pos q1) in
        let tr' := tr ++ [pos q1] in
        if Rltb fx (best_val q1) && feasible (pos q1) then
          let q2 := {| pos := pos q1; vel := vel q1; best := pos q1; best_val := fx |} in
          if Rltb fx fg then
            if negb (Rltb minfunc (Rabs (fg - fx))) then inr (pos q1, fx, tr')
            else if negb (Rltb minstep (stepsize g (pos q1))) then inr (pos q1, fx, tr')
            else sweep rest (done ++ [q2]) (pos q1) fx tr'
          else sweep rest (done ++ [q2]) g fg tr'
        else sweep rest (done ++ [q1]) g fg tr'
    end.

  (** lines 148-198: one list of random vectors per iteration *)
  Fixpoint iterate (rnd : list (list (vec * vec))) (s : swarm) : vec * R * list vec :=
    match rnd with
    | [] => (sw_best s, sw_val s, trace s)
    | r :: rest => match sweep (combine (parts s) r) [] (sw_best s) (sw_val s) (trace s) with
                   | inl s' => iterate rest s'
                   | inr out => out
                   end
    end.
  Definition particle_swarm (seeds : list (vec * vec)) (rnd : list (list (vec * vec))) : vec * R * list vec :=
    iterate rnd (init_swarm seeds).
End Swarm.
