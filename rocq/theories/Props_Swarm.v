(** * C48: the particle swarm optimiser *)
From Coq Require Import Reals List Bool Lia Lra.
From Verif Require Import PyBase M_Opt P_Opt M_Swarm S_Swarm P_Swarm.
Import ListNotations.
Local Open Scope R_scope.
Local Open Scope list_scope.

Section Props.
  Variables lb ub : vec.
  Variable obj : vec -> R.
  Variable feasible : vec -> bool.
  Variables omega phip phig minstep minfunc : R.
  Notation run := (particle_swarm lb ub obj feasible omega phip phig minstep minfunc).
  Notation start seeds := (trace (init_swarm lb ub obj feasible seeds)).

  (** C48: the objective is only evaluated inside the bounds *)
  Theorem C48_within_bounds : forall m seeds rnd x fx visited,
    good_bounds lb ub -> m <> O -> good_random (List.length lb) m seeds -> Forall (good_random (List.length lb) m) rnd ->
    run seeds rnd = (x, fx, visited) -> Forall (inside lb ub) visited.
  Proof.
    intros m seeds rnd x fx t Hb Hm Hs Hr E. pose proof (swarm_main lb ub obj feasible omega phip phig minstep minfunc Hb m seeds rnd Hs Hm Hr) as M.
    rewrite E in M. apply M.
  Qed.
  (** C48: the result is a feasible point that was evaluated, with its value; or the value is the
      artificial 1e100, and then no starting point was feasible (with a smaller value) *)
  Theorem C48_result : forall m seeds rnd x fx visited,
    good_bounds lb ub -> m <> O -> good_random (List.length lb) m seeds -> Forall (good_random (List.length lb) m) rnd ->
    run seeds rnd = (x, fx, visited) ->
    (feasible x = true /\ fx = obj x /\ In x visited /\ inside lb ub x /\ fx < huge) \/
    (fx = huge /\ forall y, In y (start seeds) -> feasible y = false \/ obj y >= huge).
  Proof.
    intros m seeds rnd x fx t Hb Hm Hs Hr E. pose proof (swarm_main lb ub obj feasible omega phip phig minstep minfunc Hb m seeds rnd Hs Hm Hr) as M.
    rewrite E in M. destruct M as (A & B & _). destruct B as [(B1 & B2 & B3 & B4)|B]; [left|right; exact B].
    repeat split; auto. rewrite Forall_forall in A. auto.
  Qed.
  (** C48: it is no worse than any feasible starting point *)
  Theorem C48_improves_start : forall m seeds rnd x fx visited,
    good_bounds lb ub -> m <> O -> good_random (List.length lb) m seeds -> Forall (good_random (List.length lb) m) rnd ->
    run seeds rnd = (x, fx, visited) ->
    forall y, In y (start seeds) -> feasible y = true -> fx <= obj y.
  Proof.
    intros m seeds rnd x fx t Hb Hm Hs Hr E. pose proof (swarm_main lb ub obj feasible omega phip phig minstep minfunc Hb m seeds rnd Hs Hm Hr) as M.
    rewrite E in M. apply M.
  Qed.
  (** C48: when every starting point is feasible (always, without constraints) it is the best of
      all feasible points evaluated *)
  Theorem C48_best_visited : forall m seeds rnd x fx visited,
    good_bounds lb ub -> m <> O -> good_random (List.length lb) m seeds -> Forall (good_random (List.length lb) m) rnd ->
    run seeds rnd = (x, fx, visited) -> Forall (fun y => feasible y = true) (start seeds) ->
    forall y, In y visited -> feasible y = true -> fx <= obj y.
  Proof.
    intros m seeds rnd x fx t Hb Hm Hs Hr E Hf. pose proof (swarm_main lb ub obj feasible omega phip phig minstep minfunc Hb m seeds rnd Hs Hm Hr) as M.
    rewrite E in M. destruct M as (_ & _ & _ & _ & M). exact (M Hf).
  Qed.
End Props.

Definition first_coord (x : vec) : R := match x with [y] => y | _ => 0 end.
Definition beyond5 (x : vec) : bool := if Rle_dec 5 (first_coord x) then true else false.
Example C48_case : good_bounds [0; -1] [10; 1] /\ good_random 2 2 [([1/2; 0], [1; 1]); ([0; 1/4], [0; 1/3])].
Proof.
  split; [repeat constructor; lra|]. split; [reflexivity|].
  repeat apply Forall_cons; try apply Forall_nil; (split; (split; [reflexivity|cbn; repeat apply Forall_cons; try apply Forall_nil; lra])).
Qed.
(** C48: without that guard it fails: a starting point that is infeasible but has a low value is
    remembered as the particle's best, and feasible points it reaches later are thrown away; an
    infeasible design is returned with value 1e100 although a feasible one was evaluated *)
Theorem C48_feasible_point_ignored_refuted : exists seeds rnd x fx visited,
  good_bounds [0] [10] /\ good_random 1 1 seeds /\ Forall (good_random 1 1) rnd /\
  particle_swarm [0] [10] first_coord beyond5 (1/2) (1/2) (1/2) (1/100) (1/100) seeds rnd = (x, fx, visited) /\
  beyond5 x = false /\ fx = huge /\ exists y, In y visited /\ beyond5 y = true /\ first_coord y < 10.
Proof.
  exists [([1/10], [1])], [[([0], [0])]].
  assert (Hh : 10 < huge). { unfold huge. replace 10 with (10 ^ 1) at 1 by ring. apply Rlt_pow; [lra|lia]. }
  assert (R1 : forall y, y < 5 -> beyond5 [y] = false) by (intros y Hy; unfold beyond5; cbn; destruct (Rle_dec 5 y); [lra|reflexivity]).
  assert (R2 : forall y, 5 <= y -> beyond5 [y] = true) by (intros y Hy; unfold beyond5; cbn; destruct (Rle_dec 5 y); [reflexivity|lra]).
  unfold particle_swarm, init_swarm. cbn [init]. unfold init_particle, spread.
  cbn [vsub vadd vmul map2 map best best_val pos vel parts sw_best sw_val trace app].
  set (x0 := 0 + 1 / 10 * (10 - 0)). set (v0 := - Rabs (10 - 0) + 1 * (Rabs (10 - 0) - - Rabs (10 - 0))).
  assert (Hx0 : x0 = 1) by (unfold x0; lra).
  assert (Hv0 : v0 = 10) by (unfold v0; rewrite Rabs_right; lra).
  clearbody x0 v0. subst x0 v0. rewrite (R1 1) by lra. rewrite andb_false_r.
  cbn [iterate combine sweep parts sw_best sw_val trace app].
  unfold move. cbn [vscale vsub vadd vmul map2 map best best_val pos vel].
  set (v1 := 1 / 2 * 10 + 1 / 2 * 0 * (1 - 1) + 1 / 2 * 0 * (1 - 1)).
  assert (Hv1 : v1 = 5) by (unfold v1; lra). clearbody v1. subst v1.
  cbn [clamp]. unfold clamp1.
  replace (Rltb (1 + 5) 0) with false by (symmetry; apply Rltb_false; lra).
  replace (Rltb 10 (1 + 5)) with false by (symmetry; apply Rltb_false; lra).
  cbn [first_coord]. replace (Rltb (1 + 5) 1) with false by (symmetry; apply Rltb_false; lra). cbn [andb].
  do 3 eexists. split; [constructor; [lra|constructor]|]. split.
  { split; [reflexivity|]. constructor; [|constructor]. split; (split; [reflexivity|]); constructor; cbn; try lra; constructor. }
  split. { constructor; [|constructor]. split; [reflexivity|]. constructor; [|constructor]. split; (split; [reflexivity|]); constructor; cbn; try lra; constructor. }
  split; [reflexivity|]. split; [apply R1; lra|]. split; [reflexivity|].
  exists [1 + 5]. split; [right; left; reflexivity|]. split; [apply R2; lra|]. cbn. lra.
Qed.

Print Assumptions C48_within_bounds.
Print Assumptions C48_result.
Print Assumptions C48_improves_start.
Print Assumptions C48_best_visited.
Print Assumptions C48_feasible_point_ignored_refuted.
