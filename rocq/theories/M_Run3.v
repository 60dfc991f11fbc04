(** Model of the container of analyses (Analyses/Analysis.py) and of the
    convergence of a rotor's vortex wake
    (Methods/Propulsion/Rotor_Wake/Fidelity_One/fidelity_one_wake_convergence.py). *)
From Coq Require Import Reals List Bool Arith String.
From Verif Require Import PyBase M_Opt.
Import ListNotations.
Local Open Scope R_scope.

(** ** Analyses/Analysis.py *)
Section Analyses.
Variable World Value : Type.

(** A call: what it leaves behind, and what it returns or raises. *)
Definition call (A : Type) : Type := World -> World * result A.

(** A member of the container.  [None] is a missing attribute: [hasattr] is
    false.  [ev_call] is calling the object itself (__call__). *)
Record member : Type := mk_member {
  ev_compile : option (call unit);
  ev_initialize : option (call unit);
  ev_evaluate : option (call Value);
  ev_finalize : option (call unit);
  ev_call : option (call Value) }.

Definition container : Type := list (string * member).

(** 194-196, 269-271: one method of every member that has it, in order *)
Fixpoint each (m : member -> option (call unit)) (c : container) (w : World)
  : World * result unit :=
  match c with
  | [] => (w, Ok tt)
  | (_, a) :: t =>
      match m a with
      | None => each m t w
      | Some f =>
          match f w with
          | (w1, Ok _) => each m t w1
          | (w1, Err e) => (w1, Err e)
          end
      end
  end.
Definition compile : container -> call unit := each ev_compile.
Definition finalize : container -> call unit := each ev_finalize.

(** 217: [self.items] is the method itself, which is not iterable *)
Definition initialize (c : container) : call unit := fun w => (w, Err TypeError).

(** 242-245: calling something that cannot be called is a TypeError *)
Definition run_one (a : member) : call Value :=
  match ev_evaluate a with
  | Some f => f
  | None => match ev_call a with Some f => f | None => fun w => (w, Err TypeError) end
  end.
(** [results[tag] = result] (246) *)
Fixpoint put (tag : string) (v : Value) (l : list (string * Value)) : list (string * Value) :=
  match l with
  | [] => [(tag, v)]
  | (k, x) :: t => if String.eqb k tag then (k, v) :: t else (k, x) :: put tag v t
  end.
(** 240-247 *)
Fixpoint eval_from (results : list (string * Value)) (c : container) (w : World)
  : World * result (list (string * Value)) :=
  match c with
  | [] => (w, Ok results)
  | (tag, a) :: t =>
      match run_one a w with
      | (w1, Ok v) => eval_from (put tag v results) t w1
      | (w1, Err e) => (w1, Err e)
      end
  end.
Definition evaluate (c : container) : call (list (string * Value)) := eval_from [] c.
(** 292-294: calling the container evaluates it *)
Definition call_container (c : container) : call (list (string * Value)) := evaluate c.

(** Analysis (52-155): a plain analysis.  NotImplementedError (112) is
    [GenericException]. *)
Definition plain : member :=
  mk_member (Some (fun w => (w, Ok tt))) (Some (fun w => (w, Ok tt)))
    (Some (fun w => (w, Err GenericException))) (Some (fun w => (w, Ok tt)))
    (Some (fun w => (w, Err GenericException))).
End Analyses.

Arguments ev_compile {World Value}.
Arguments ev_initialize {World Value}.
Arguments ev_evaluate {World Value}.
Arguments ev_finalize {World Value}.
Arguments ev_call {World Value}.
Arguments mk_member {World Value}.
Arguments each {World Value}.
Arguments compile {World Value}.
Arguments initialize {World Value}.
Arguments evaluate {World Value}.
Arguments eval_from {World Value}.
Arguments run_one {World Value}.
Arguments put {Value}.
Arguments finalize {World Value}.
Arguments call_container {World Value}.
Arguments plain {World Value}.

(** ** fidelity_one_wake_convergence.py *)
(** A float: [None] is nan. *)
Definition num : Type := option R.
Definition nmul (a b : num) : num :=
  match a, b with Some x, Some y => Some (x * y) | _, _ => None end.
Definition ndist (a b : num) : num :=
  match a, b with Some x, Some y => Some (Rabs (x - y)) | _, _ => None end.
Definition nmax2 (a b : num) : num :=
  match a, b with Some x, Some y => Some (Rmax x y) | _, _ => None end.
(** [np.max]: nan when any is; an empty array raises *)
Definition nmax (l : list num) : result num :=
  match l with [] => Err ValueError | a :: t => Ok (fold_left nmax2 t a) end.
(** [a > b]: false when a is nan *)
Definition ngt (a : num) (b : R) : bool := match a with Some x => Rltb b x | None => false end.

Section Wake.
(** [Wake] is everything else of the wake and the rotor.  The shape is made
    from the axial velocity at the disc (58, 81); the velocities it induces
    (61) and the tip loss factor (64-67) are arbitrary functions, the free
    stream, the radii and the blades being fixed. *)
Variable Wake : Type.
Variable shape : Wake -> list num -> Wake.
Variable inflow : Wake -> list num * list num.
Variable loss : list num -> list num -> list num.

Record round_out : Type := mk_round {
  o_wake : Wake; o_disc : list num; o_va : list num; o_vt : list num; o_diff : num }.

(** 57-72: one pass *)
Definition one_round (w : Wake) (disc : list num) : result round_out :=
  let w1 := shape w disc in
  let (va, vt) := inflow w1 in
  let new := map2 nmul (loss va vt) va in
  match nmax (map2 ndist new disc) with
  | Ok d => Ok (mk_round w1 new va vt d)
  | Err e => Err e
  end.

(** 56-78.  [last] holds the values of va and vt, if there are any; [fuel]
    bounds the number of passes and running out of it is [None] (it never
    happens: see [C215_ends]). *)
Fixpoint spin (fuel : nat) (ii_max ii : nat) (tol : R) (diff : num)
    (w : Wake) (disc : list num) (last : option (list num * list num))
  : option (result (Wake * list num * option (list num * list num) * nat)) :=
  if ngt diff tol then
    match fuel with
    | O => None
    | S k =>
        match one_round w disc with
        | Err e => Some (Err e)
        | Ok o =>
            let ii' := S ii in
            if Nat.leb ii_max ii' && ngt (o_diff o) tol
            then Some (Ok (o_wake o, o_disc o, Some (o_va o, o_vt o), ii'))
            else spin k ii_max ii' tol (o_diff o) (o_wake o) (o_disc o) (Some (o_va o, o_vt o))
        end
    end
  else Some (Ok (w, disc, last, ii)).

(** 44-83: the wake, the disc velocity, va, vt, and the number of passes *)
Definition converge (fuel : nat) (semi : bool) (max_iteration : nat) (tol : R)
    (w : Wake) (disc : list num)
  : option (result (Wake * list num * list num * list num * nat)) :=
  let ii_max := if semi then max_iteration else 1%nat in
  match spin fuel ii_max 0 tol (Some 1) w disc None with
  | None => None
  | Some (Err e) => Some (Err e)
  | Some (Ok (w1, d1, last, n)) =>
      let w2 := shape w1 d1 in
      match last with
      | Some (va, vt) => Some (Ok (w2, d1, va, vt, n))
      | None => Some (Err UnboundLocalError)
      end
  end.
End Wake.
Arguments mk_round {Wake}.
Arguments o_wake {Wake}.
Arguments o_disc {Wake}.
Arguments o_va {Wake}.
Arguments o_vt {Wake}.
Arguments o_diff {Wake}.
Arguments one_round {Wake}.
Arguments spin {Wake}.
Arguments converge {Wake}.
