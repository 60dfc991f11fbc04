(** * C13: Process.evaluate *)
From Coq Require Import String List Bool.
From Verif Require Import PyBase M_Process S_Process P_Process.
Import ListNotations.
Local Open Scope string_scope.
Local Open Scope list_scope.

Section Props.
  Context {St R : Type}.

  (** C13: a successful evaluation ran every step exactly once, in insertion order (depth
      first), threading the state, and holds each step's value under its tag path *)
  Theorem C13_runs_all_once : forall (p : process St R) s s' out, tagged p -> evaluate p s = (s', Ok out) ->
    runs (steps p) s (leaves out) s' /\ mirrors p out.
  Proof. exact evaluate_ok. Qed.

  (** C13: if no step raises it does succeed *)
  Theorem C13_succeeds : forall (p : process St R) s outs s', tagged p -> runs (steps p) s outs s' ->
    exists out, evaluate p s = (s', Ok out) /\ leaves out = outs.
  Proof. exact evaluate_complete. Qed.

  (** C13: an evaluation that raised ran the steps before the raising one, and no later ones;
      the state is the one the raising step left *)
  Theorem C13_stops_at_first_error : forall (p : process St R) s s' e, tagged p ->
    (evaluate p s = (s', Err e) <->
     exists before path f after outs s1,
       steps p = before ++ (path, f) :: after /\ runs before s outs s1 /\ f s1 = (s', Err e)).
  Proof.
    intros p s s' e Ht. split; [apply evaluate_err; exact Ht|].
    intros (l1 & path & f & l2 & outs & s1 & E & H1 & H2). eapply evaluate_err_complete; eauto.
  Qed.
End Props.

(** steps that append their name to a log; "bad" raises after writing *)
Definition say (x : string) : @step (list string) nat := fun s => (s ++ [x], Ok (List.length s)).
Definition bad : @step (list string) nat := fun s => (s ++ ["bad"], Err ValueError).
Definition mission : process (list string) nat :=
  Proc [("initialize", Proc [("expand", Step (say "expand")); ("state", Step (say "state"))]);
        ("empty", Proc []); ("converge", Step (say "converge"))].
Definition failing : process (list string) nat :=
  Proc [("a", Step (say "a")); ("b", Proc [("c", Step bad); ("d", Step (say "d"))]); ("e", Step (say "e"))].
Example C13_ok_case : tagged mission /\ evaluate mission [] =
  (["expand"; "state"; "converge"],
   Ok (Results [("initialize", Results [("expand", Res 0); ("state", Res 1)]); ("empty", Results []); ("converge", Res 2)])).
Proof.
  split; [|reflexivity].
  repeat (constructor; cbn; try (intuition discriminate)).
Qed.
Example C13_err_case : tagged failing /\ evaluate failing [] = (["a"; "bad"], Err ValueError).
Proof. split; [|reflexivity]. repeat (constructor; cbn; try (intuition discriminate)). Qed.

Print Assumptions C13_runs_all_once.
Print Assumptions C13_succeeds.
Print Assumptions C13_stops_at_first_error.
