(** * C14 (part two) to C17 and C47: the numbers an optimiser exchanges with the problem *)
From Coq Require Import Reals String List Bool Lia Lra.
From Verif Require Import PyBase M_Opt S_Opt P_Opt.
Import ListNotations.
Local Open Scope R_scope.
Local Open Scope list_scope.

(** ** C14 *)
(** C14: a vector of the right length is accepted, and entry n becomes x_n times its scale *)
Theorem C14_scale_inputs : forall inputs x,
  (List.length x = List.length inputs <-> exists r, scale_input_values inputs x = Ok r) /\
  forall r, scale_input_values inputs x = Ok r ->
    List.length r = List.length inputs /\
    forall n i xi, nth_error inputs n = Some i -> nth_error x n = Some xi ->
      nth_error r n = Some {| i_name := i_name i; i_val := xi * i_scale i; i_lo := i_lo i; i_up := i_up i;
                              i_scale := i_scale i; i_units := i_units i |}.
Proof.
  intros inputs x. split; [apply scale_ok|]. intros r H. destruct (scale_spec _ _ _ H) as (_ & L & N). split; [exact L|exact N].
Qed.
(** C14: afterwards each value is inside its bounds; values inside are unchanged, others are at
    the nearest bound; nothing else changes *)
Theorem C14_limit_inputs : forall inputs n r, nth_error inputs n = Some r -> i_lo r <= i_up r ->
  exists r', nth_error (limit_input_values inputs) n = Some r' /\
    i_lo r <= i_val r' <= i_up r /\ i_val r' = Rmin (i_up r) (Rmax (i_lo r) (i_val r)) /\
    i_name r' = i_name r /\ i_lo r' = i_lo r /\ i_up r' = i_up r /\ i_scale r' = i_scale r /\ i_units r' = i_units r.
Proof.
  intros inputs n r H Hb. exists (limit_up (limit_low r)). split; [apply limit_values_nth; exact H|].
  destruct (limit_val r Hb) as (B & K & L & U). destruct (limit_fields r) as (F1 & F2 & F3 & F4 & F5).
  split; [exact B|]. split; [|auto]. unfold Rmin, Rmax.
  destruct (Rle_dec (i_lo r) (i_val r)) as [E1|E1];
    match goal with |- context [Rle_dec ?a ?b] => destruct (Rle_dec a b) as [E2|E2] end.
  - destruct (Rle_lt_or_eq_dec _ _ E2) as [E3|E3]; [apply U; exact E3|rewrite K by lra; lra].
  - rewrite K by lra. reflexivity.
  - rewrite L by lra. lra.
  - apply L. lra.
Qed.
Theorem C14_limit_idempotent : forall inputs, Forall (fun r => i_lo r <= i_up r) inputs ->
  limit_input_values (limit_input_values inputs) = limit_input_values inputs.
Proof. exact limit_idem. Qed.
(** C14: the values written are value times unit *)
Theorem C14_convert : forall inputs n r, nth_error inputs n = Some r ->
  nth_error (convert_values inputs) n = Some (i_val r * i_units r).
Proof. intros inputs n r H. apply (map_nth_error (fun r => i_val r * i_units r)). exact H. Qed.
(** C14: with crossed bounds the value can end up below its lower bound *)
Theorem C14_crossed_bounds_refuted : exists r, ~ (i_lo r <= i_up r) /\
  exists r', limit_input_values [r] = [r'] /\ i_val r' < i_lo r.
Proof.
  exists {| i_name := "x"; i_val := 0; i_lo := 2; i_up := 1; i_scale := 1; i_units := 1 |}. cbn. split; [lra|].
  eexists. split; [reflexivity|]. unfold limit_low. cbn [i_val i_lo].
  replace (Rltb 0 2) with true by (symmetry; apply Rltb_true; lra). unfold limit_up. cbn [with_val i_up i_val].
  replace (Rltb 1 2) with true by (symmetry; apply Rltb_true; lra). cbn. lra.
Qed.
Definition ex_input : input := {| i_name := "span"; i_val := 5; i_lo := 10; i_up := 40; i_scale := 10; i_units := 2 |}.
Example C14_limit_case : i_lo ex_input <= i_up ex_input /\ i_val ex_input < i_lo ex_input /\
  scale_input_values [ex_input] [3] = Ok [with_val ex_input (3 * 10)].
Proof. cbn. split; [lra|]. split; [lra|reflexivity]. Qed.

(** ** C15 *)
Section Nexus.
  Context {I X D S : Type}.
  Variable store : option X -> I -> I.
  Variable write : I -> D -> D.
  Variable same : I -> I -> bool.
  Variable procedure : D -> nat -> D * option pyerr.
  Variable summary : D -> S.

  (** C15: after any history of evaluations and changes of fidelity and force flag in which
      nothing raised, what is stored after evaluate(x) is what any run of the procedure at the
      current inputs and fidelity gives *)
  Theorem C15_transparent :
    (forall a b, same a b = true -> a = b) ->
    (forall i f d1 d2 d1' d2', procedure (write i d1) f = (d1', None) ->
       procedure (write i d2) f = (d2', None) -> summary d1' = summary d2') ->
    (forall i d, summary (write i d) = summary d) ->
    forall i0 d0 history x n n',
    run_ops store write same procedure history (new_nexus i0 d0) = (n, None) ->
    evaluate store write same procedure x n = (n', None) ->
    inputs n' = store x (inputs n) /\ fidelity n' = fidelity n /\
    forall d d', procedure (write (inputs n') d) (fidelity n') = (d', None) -> summary (data n') = summary d'.
  Proof. intros H1 H2 H3. exact (cache_transparent store write same procedure summary H1 H2 H3). Qed.

  (** C15: the procedure is run (and counted) exactly when the inputs or the fidelity are not those
      of the last evaluation that ended, or force_evaluate is set *)
  Theorem C15_runs_exactly_when : forall x n n' r,
    evaluate store write same procedure x n = (n', r) ->
    (evaluation_count n' = evaluation_count n \/ evaluation_count n' = Datatypes.S (evaluation_count n)) /\
    (evaluation_count n' = evaluation_count n <->
     exists j f, last_inputs n = Some j /\ last_fidelity n = Some f /\
       same (store x (inputs n)) j = true /\ f = fidelity n /\ force n = false).
  Proof. intros x n n' r. exact (run_exactly_when store write same procedure x n n' r). Qed.
End Nexus.

(** a problem with one number as input, result input*fidelity; an input of 0 raises after
    spoiling the results *)
Definition ex_store (x : option nat) (i : nat) : nat := match x with Some v => v | None => i end.
Definition ex_write (i : nat) (d : nat * nat) : nat * nat := (i, snd d).
Definition ex_procedure (d : nat * nat) (f : nat) : (nat * nat) * option pyerr :=
  match fst d with O => ((O, 999%nat), Some ValueError) | _ => ((fst d, (fst d * f)%nat), None) end.
Example C15_case :
  (forall a b, Nat.eqb a b = true -> a = b) /\
  (forall i f d1 d2 d1' d2', ex_procedure (ex_write i d1) f = (d1', None) ->
     ex_procedure (ex_write i d2) f = (d2', None) -> snd d1' = snd d2') /\
  (forall i d, snd (ex_write i d) = snd d) /\
  (let '(n, e) := run_ops ex_store ex_write Nat.eqb ex_procedure
     [Evaluate (Some 3%nat); Evaluate (Some 3%nat); SetFidelity 2; Evaluate None; SetForce true; Evaluate None]
     (new_nexus 1%nat (0, 0)%nat) in
   e = None /\ snd (data n) = 6%nat /\ evaluation_count n = 3%nat).
Proof.
  split; [intros a b; apply PeanoNat.Nat.eqb_eq|]. split.
  - intros i f d1 d2 d1' d2'. unfold ex_procedure, ex_write. cbn [fst snd]. destruct i; [discriminate|].
    intros H1 H2. inversion H1; inversion H2; reflexivity.
  - split; [reflexivity|]. cbn. auto.
Qed.
(** C15: the guard "nothing raised" is needed: after a failed evaluation elsewhere, returning to
    the last good inputs is taken for up to date although the results are those the failed run
    left behind *)
Theorem C15_after_exception_refuted : exists n1 n2 n3 e,
  evaluate ex_store ex_write Nat.eqb ex_procedure (Some 1%nat) (new_nexus 5%nat (0, 0)%nat) = (n1, None) /\
  snd (data n1) = 1%nat /\
  evaluate ex_store ex_write Nat.eqb ex_procedure (Some 0%nat) n1 = (n2, Some e) /\
  evaluate ex_store ex_write Nat.eqb ex_procedure (Some 1%nat) n2 = (n3, None) /\
  inputs n3 = inputs n1 /\ evaluation_count n3 = evaluation_count n2 /\ snd (data n3) = 999%nat.
Proof. do 4 eexists. repeat split; reflexivity. Qed.

(** ** C16 *)
(** C16: the entries are those of the constraints that are not equalities, in order; with scale 1
    an entry is non-negative exactly when its constraint is satisfied *)
Theorem C16_sign : forall cons value l, inequality_constraint cons value = Ok l ->
  Forall2 (fun c e => (c_sense c = ">"%string \/ c_sense c = "<"%string) -> c_scale c = 1 ->
                      (e >= 0 <-> satisfied c value))
          (filter (fun c => negb (String.eqb (c_sense c) "=")) cons) l.
Proof.
  intros cons value l H. unfold inequality_constraint in H. destruct cons as [|c0 cons]; [discriminate|].
  revert H. generalize (c0 :: cons). intros cs H. injection H as <-.
  change (fun c => negb (is_eq c)) with (fun c => negb (String.eqb (c_sense c) "=")).
  induction (filter (fun c => negb (String.eqb (c_sense c) "=")) cs) as [|c r IH]; [constructor|].
  constructor; [|exact IH]. intros Hs H1. exact (ineq_sign c value Hs H1).
Qed.
(** C16: in general the bound that is enforced is scale times the bound asked for *)
Theorem C16_enforced_bound : forall cons value l, inequality_constraint cons value = Ok l ->
  Forall2 (fun c e => (c_sense c = ">"%string \/ c_sense c = "<"%string) -> 0 < c_scale c ->
             (e >= 0 <->
              (c_sense c = ">"%string /\ value (c_name c) >= c_scale c * (c_bound c * c_units c)) \/
              (c_sense c = "<"%string /\ value (c_name c) <= c_scale c * (c_bound c * c_units c))))
          (filter (fun c => negb (String.eqb (c_sense c) "=")) cons) l.
Proof.
  intros cons value l H. unfold inequality_constraint in H. destruct cons as [|c0 cons]; [discriminate|].
  revert H. generalize (c0 :: cons). intros cs H. injection H as <-.
  change (fun c => negb (is_eq c)) with (fun c => negb (String.eqb (c_sense c) "=")).
  induction (filter (fun c => negb (String.eqb (c_sense c) "=")) cs) as [|c r IH]; [constructor|].
  constructor; [|exact IH]. intros Hs H1. exact (ineq_general c value Hs H1).
Qed.
(** C16: equality constraints vanish exactly when satisfied, with scale 1 *)
Theorem C16_equality : forall cons value l, equality_constraint cons value = Ok l -> Forall known_sense cons ->
  Forall2 (fun c e => c_sense c = "="%string /\ (c_scale c = 1 -> (e = 0 <-> satisfied c value)))
          (filter (fun c => String.eqb (c_sense c) "=") cons) l.
Proof.
  intros cons value l H Hk. unfold equality_constraint in H. destruct cons as [|c0 cons]; [discriminate|].
  revert H Hk. generalize (c0 :: cons). intros cs H Hk. injection H as <-.
  replace (filter (fun c => negb (is_gt c || is_lt c)) cs) with (filter (fun c => String.eqb (c_sense c) "=") cs).
  - clear Hk. induction cs as [|c r IH]; [constructor|]. cbn [filter].
    destruct (String.eqb_spec (c_sense c) "=") as [E|E]; [|exact IH]. cbn [map]. constructor; [|exact IH].
    split; [exact E|]. intros H1. unfold scale_const_value, scale_const_bnd, satisfied. rewrite H1, E.
    replace (value (c_name c) / 1) with (value (c_name c)) by field. split.
    + intros H. split; [discriminate|]. split; [discriminate|]. intros _. lra.
    + intros (_ & _ & H). specialize (H eq_refl). lra.
  - induction Hk as [|c r Hc _ IH]; [reflexivity|]. cbn [filter]. rewrite IH.
    destruct (sense_bools c) as (G & L & E).
    destruct Hc as [Hc|[Hc|Hc]]; [destruct (G Hc) as (-> & -> & _)|destruct (L Hc) as (-> & -> & _)|destruct (E Hc) as (-> & -> & _)];
      rewrite Hc; reflexivity.
Qed.
Definition ex_con (sense : string) (bound scale : R) : constraint :=
  {| c_name := "range"; c_sense := sense; c_bound := bound; c_scale := scale; c_units := 1 |}.
Example C16_case : exists l, inequality_constraint [ex_con ">" 10 1; ex_con "=" 12 1; ex_con "<" 20 1] (fun _ => 12) = Ok l /\
  l = [12 / 1 - 10 * 1; - (12 / 1 - 20 * 1)] /\ Forall (fun e => e >= 0) l.
Proof. eexists. split; [reflexivity|]. split; [reflexivity|].
  repeat apply Forall_cons; try apply Forall_nil; cbn; unfold scale_const_value, scale_const_bnd; cbn; lra. Qed.
(** C16: a scale other than 1 moves the constraint: a feasible design is reported infeasible and
    an infeasible one feasible *)
Theorem C16_scale_refuted :
  (exists c v e, c_scale c = 10 /\ satisfied c (fun _ => v) /\ inequality_constraint [c] (fun _ => v) = Ok [e] /\ e < 0) /\
  (exists c v e, c_scale c = 1 / 10 /\ ~ satisfied c (fun _ => v) /\ inequality_constraint [c] (fun _ => v) = Ok [e] /\ e > 0).
Proof.
  split.
  - exists (ex_con ">" 10 10), 12. eexists. split; [reflexivity|]. split; [|split; [reflexivity|cbn; unfold scale_const_value, scale_const_bnd; cbn; lra]].
    split; [cbn; intros _; lra|]. split; discriminate.
  - exists (ex_con ">" 10 (1 / 10)), 5. eexists. split; [reflexivity|]. split; [|split; [reflexivity|cbn; unfold scale_const_value, scale_const_bnd; cbn; lra]].
    intros (H & _ & _). cbn in H. specialize (H eq_refl). lra.
Qed.
(** C16: a sense spelled in another way is not an error: "<=" is treated as ">" here and as an
    equality there *)
Theorem C16_unknown_sense_refuted : exists c v e e', c_sense c = "<="%string /\ v < c_bound c * c_units c /\
  inequality_constraint [c] (fun _ => v) = Ok [e] /\ e < 0 /\ equality_constraint [c] (fun _ => v) = Ok [e'] /\ e' <> 0.
Proof.
  exists (ex_con "<=" 10 1), 5. do 2 eexists. split; [reflexivity|]. split; [cbn; lra|].
  split; [reflexivity|]. split; [cbn; unfold scale_const_value, scale_const_bnd; cbn; lra|].
  split; [reflexivity|]. unfold scale_const_value, scale_const_bnd; cbn. lra.
Qed.
(** C16: and a problem without constraints raises *)
Theorem C16_no_constraints : forall value, inequality_constraint [] value = Err IndexError.
Proof. reflexivity. Qed.

(** ** C17 *)
Theorem C17_gradient_exact : forall b a obj con x h, affine b a obj -> List.length x = List.length a -> h <> 0 ->
  fst (finite_difference obj con x (List.length a) h) = a.
Proof. exact fd_affine_obj. Qed.
Theorem C17_jacobian_exact : forall (bs : list (R * list R)) obj con x n h,
  (forall y, List.length y = n -> con y = map (fun ba => fst ba + dot (snd ba) y) bs) ->
  Forall (fun ba => List.length (snd ba) = n) bs -> List.length x = n -> h <> 0 ->
  snd (finite_difference obj con x n h) = map snd bs.
Proof. exact fd_affine_con. Qed.
(** C17: the points visited: the base point, then one per input with that coordinate moved by the
    step; each is visited twice in a row (objective, constraints) *)
Theorem C17_points : forall x n h, n = List.length x -> exists pts,
  fd_points x n h = flat_map (fun p => [p; p]) (x :: pts) /\ List.length pts = n /\
  forall i, (i < n)%nat -> exists p, nth_error pts i = Some p /\ List.length p = n /\
    nth i p 0 = nth i x 0 + h /\ forall j, j <> i -> nth j p 0 = nth j x 0.
Proof.
  intros x n h Hn. exists (map (fun i => perturb x i h) (seq 0 n)). split; [apply fd_points_pairs|].
  split; [rewrite map_length, seq_length; reflexivity|]. intros i Hi. exists (perturb x i h). split.
  - apply (map_nth_error (fun i => perturb x i h)). rewrite (nth_error_nth' _ 0%nat) by (rewrite seq_length; exact Hi).
    rewrite seq_nth by exact Hi. reflexivity.
  - destruct (perturb_spec x i h) as (L & A & B); [lia|]. repeat split; [congruence|exact A|exact B].
Qed.
(** C17: with the cache of C15 this costs at most one run per distinct point *)
Theorem C17_cost : forall I D (store : option (list R) -> I -> I) write same (procedure : D -> nat -> D * option pyerr),
  (forall a b : I, same a b = true <-> a = b) -> (forall x i, store x (store x i) = store x i) ->
  forall x k h n n' r, force n = false ->
  run_ops store write same procedure (map (fun p => Evaluate (Some p)) (fd_points x k h)) n = (n', r) ->
  (evaluation_count n' <= evaluation_count n + (k + 1))%nat.
Proof.
  intros I D store write same procedure Hs Hi x k h n n' r Hf H. rewrite fd_points_pairs in H.
  assert (E : forall pts : list (list R), map (fun p => Evaluate (Some p)) (flat_map (fun p => [p; p]) pts) =
              flat_map (fun p => [Evaluate (Some p); Evaluate (Some p)]) pts).
  { induction pts as [|p pts IH]; [reflexivity|]. cbn [flat_map app map]. rewrite IH. reflexivity. }
  rewrite E in H.
  eapply (pairs_cost store write same procedure) in H; eauto.
  - cbn [List.length] in H. rewrite map_length, seq_length in H. lia.
  - intros a b Hab. apply Hs. exact Hab.
  - intros a. apply Hs. reflexivity.
Qed.
(** the table update of the code meets C17_cost's hypothesis, with or without hard bounds *)
Theorem C17_cost_table : forall hard inputs x r,
  unpack_table hard (Some x) inputs = Ok r -> unpack_table hard (Some x) r = Ok r.
Proof. exact unpack_twice. Qed.
(** C17: on a problem that is not affine the error is at most curvature times step *)
Theorem C17_error_bound : forall obj con x n h i g M, (i < n)%nat -> h > 0 ->
  (forall e, Rabs (obj (perturb x i e) - obj x - e * g) <= M * e * e) ->
  Rabs (nth i (fst (finite_difference obj con x n h)) 0 - g) <= M * h.
Proof.
  intros obj con x n h i g M Hi Hh H. unfold finite_difference. cbn [fst]. rewrite map_map.
  rewrite (nth_map_lt _ _ _ 0%nat) by (rewrite seq_length; exact Hi). rewrite seq_nth by exact Hi.
  apply (fd_error g obj x i h M Hh H).
Qed.
Example C17_case : affine 1 [2; 3] (fun x => 1 + dot [2; 3] x) /\
  fst (finite_difference (fun x => 1 + dot [2; 3] x) (fun x => [dot [1; 0] x]) [5; 7] 2 (1 / 2)) = [2; 3] /\
  snd (finite_difference (fun x => 1 + dot [2; 3] x) (fun x => [4 + dot [1; 6] x]) [5; 7] 2 (1 / 2)) = [[1; 6]].
Proof.
  split; [intros x _; reflexivity|]. split.
  - apply (C17_gradient_exact 1 [2; 3]); [intros x _; reflexivity|reflexivity|lra].
  - apply (C17_jacobian_exact [(4, [1; 6])]); [reflexivity| |reflexivity|lra]. constructor; [reflexivity|constructor].
Qed.

(** ** C47 *)
(** C47: the start point handed over by scipy_setup and pyopt_setup stands for the values in the table, and the
    bounds for the bounds in the table (positive scales) *)
Theorem C47_start : forall inputs, Forall (fun r => i_scale r <> 0) inputs ->
  scale_input_values inputs (solver_start inputs) = Ok inputs.
Proof. exact start_roundtrip. Qed.
Theorem C47_bounds : forall inputs n r lo up x, nth_error inputs n = Some r -> 0 < i_scale r ->
  nth_error (solver_bounds inputs) n = Some (lo, up) ->
  (lo <= x <= up <-> i_lo r <= x * i_scale r <= i_up r).
Proof.
  intros inputs n r lo up x Hn Hs Hb.
  unfold solver_bounds in Hb. rewrite (map_nth_error (fun r => (i_lo r / i_scale r, i_up r / i_scale r)) n inputs Hn) in Hb.
  inversion Hb; subst. apply bounds_equiv. exact Hs.
Qed.
(** C47: a negative scale turns the bounds round, no vector satisfies them *)
Theorem C47_negative_scale_refuted : exists r lo up, i_lo r < i_up r /\ i_scale r < 0 /\
  solver_bounds [r] = [(lo, up)] /\ forall x, ~ (lo <= x <= up).
Proof.
  exists {| i_name := "x"; i_val := 1; i_lo := 0; i_up := 2; i_scale := -1; i_units := 1 |}. do 2 eexists.
  split; [cbn; lra|]. split; [cbn; lra|]. split; [reflexivity|]. cbn. intros x. lra.
Qed.
(** C47: pyopt is given the constraints as written, for every positive scale *)
Theorem C47_pyopt_constraints : forall c value, known_sense c -> 0 < c_scale c ->
  (accepts (scale_const_value c (value (c_name c))) (pyopt_constraint c) <-> satisfied c value).
Proof. exact pyopt_correct. Qed.
Example C47_pyopt_case : known_sense (ex_con "<" 10 5) /\ 0 < c_scale (ex_con "<" 10 5) /\
  satisfied (ex_con "<" 10 5) (fun _ => 9) /\ ~ satisfied (ex_con "<" 10 5) (fun _ => 11).
Proof.
  split; [right; left; reflexivity|]. split; [cbn; lra|]. split.
  - split; [discriminate|]. split; [cbn; intros _; lra|discriminate].
  - intros (_ & H & _). cbn in H. specialize (H eq_refl). lra.
Qed.
(** C47: differential evolution is given the value of the last constraint for every constraint *)
Theorem C47_de_last_constraint : forall cons c value r, de_constraints (cons ++ [c]) value = Ok r ->
  List.length r = S (List.length cons) /\ Forall (fun vl => fst vl = value (c_name c)) r.
Proof. exact de_all_last. Qed.
(** so that a violated first constraint is accepted *)
Theorem C47_de_refuted : exists c1 c2 value r, ~ satisfied c1 value /\ satisfied c2 value /\
  de_constraints [c1; c2] value = Ok r /\ Forall (fun vl => accepts (fst vl) (snd vl)) r.
Proof.
  exists (ex_con "<" 10 1), {| c_name := "fuel"; c_sense := "<"; c_bound := 5; c_scale := 1; c_units := 1 |},
    (fun n => if String.eqb n "range" then 11 else 1).
  eexists. split; [|split; [|split; [reflexivity|]]].
  - intros (_ & H & _). cbn in H. specialize (H eq_refl). lra.
  - split; [discriminate|]. split; [cbn; intros _; lra|discriminate].
  - repeat apply Forall_cons; try apply Forall_nil; cbn; unfold scale_const_bnd; cbn; lra.
Qed.
(** and an equality in first place raises *)
Theorem C47_de_equality_refuted : exists c value, c_sense c = "="%string /\ de_constraints [c] value = Err UnboundLocalError.
Proof. exists (ex_con "=" 10 1), (fun _ => 1). split; reflexivity. Qed.

Print Assumptions C14_scale_inputs.
Print Assumptions C14_limit_inputs.
Print Assumptions C14_limit_idempotent.
Print Assumptions C14_convert.
Print Assumptions C14_crossed_bounds_refuted.
Print Assumptions C15_transparent.
Print Assumptions C15_runs_exactly_when.
Print Assumptions C15_after_exception_refuted.
Print Assumptions C16_sign.
Print Assumptions C16_enforced_bound.
Print Assumptions C16_equality.
Print Assumptions C16_scale_refuted.
Print Assumptions C16_unknown_sense_refuted.
Print Assumptions C16_no_constraints.
Print Assumptions C17_gradient_exact.
Print Assumptions C17_jacobian_exact.
Print Assumptions C17_points.
Print Assumptions C17_cost.
Print Assumptions C17_cost_table.
Print Assumptions C17_error_bound.
Print Assumptions C47_start.
Print Assumptions C47_bounds.
Print Assumptions C47_negative_scale_refuted.
Print Assumptions C47_pyopt_constraints.
Print Assumptions C47_de_last_constraint.
Print Assumptions C47_de_refuted.
Print Assumptions C47_de_equality_refuted.
