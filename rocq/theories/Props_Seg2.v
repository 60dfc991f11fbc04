(** * C156-C157: optimised climb *)
From Coq Require Import Reals Lra Psatz List Arith Lia Bool Permutation.
From Verif Require Import PyBase M_Opt M_Rot M_Mission M_Segments P_Opt P_Mission P_Cheb M_Seg2 S_Seg2.
Import ListNotations.
Local Open Scope R_scope.
Local Open Scope list_scope.

(** ** C156: the climb whose speeds and angles are searched for *)
(** the climb rate at each point *)
Definition climbing (c : conds) : col := fun j => - vz (vel c j).
(** its mean, over dimensionless time *)
Definition mean_climb (n : nat) (nu : numerics) (c : conds) : R := mulv n (nd_I nu) (climbing c) (final n).
(** it starts and ends at the altitudes asked for; in between altitude is the integral of the climb rate over the clock it sets *)
Theorem C156_altitude n nu alt0 altf c : clock n nu -> mean_climb n nu c <> 0 -> let o := climb_clock n nu alt0 altf c in
  alt (snd o) 0%nat = alt0 /\ alt (snd o) (final n) = altf /\
  (forall i, alt (snd o) i = alt0 + integral n (fst o) (climbing c) i /\ vz (pos (snd o) i) = - alt (snd o) i) /\
  vel (snd o) = vel c.
Proof.
  intros (N & X0 & X1 & I0) M o. unfold o, climb_clock, integral. cbn [fst snd t_I].
  fold (climbing c). set (dt := (altf - alt0) / mulv n (nd_I nu) (climbing c) (n - 1)%nat).
  assert (E : forall i, alt (snd (climb_clock n nu alt0 altf c)) i = mulv n (fun i j => nd_I nu i j * dt) (climbing c) i + alt0) by reflexivity.
  unfold climb_clock in E. cbn [snd] in E. fold (climbing c) in E. fold dt in E.
  assert (S : forall i, mulv n (fun i j => nd_I nu i j * dt) (climbing c) i = dt * mulv n (nd_I nu) (climbing c) i).
  { intro i. unfold mulv. rewrite <- Sum_scal. apply Sum_ext. intros. ring. }
  split; [rewrite E, S; unfold mulv; rewrite Sum_zero; [ring|intros; rewrite I0; ring]|].
  split; [rewrite E, S; unfold dt; unfold mean_climb, final in *; field; exact M|].
  split; [|reflexivity]. intro i. split; [rewrite E; ring|reflexivity].
Qed.
(** the clock: it goes on from the time the segment starts at, and differentiating undoes integrating as before *)
Theorem C156_time n nu alt0 altf c : clock n nu -> mean_climb n nu c <> 0 -> altf <> alt0 -> let o := climb_clock n nu alt0 altf c in
  time (snd o) 0%nat = time c 0%nat /\ (forall i, time (snd o) i = time c 0%nat + t_x (fst o) i /\ t_x (fst o) i = nd_x nu i * passed (snd o) 0 (final n)) /\
  (forall f i, mulv n (t_D (fst o)) (mulv n (t_I (fst o)) f) i = mulv n (nd_D nu) (mulv n (nd_I nu) f) i) /\
  passed (snd o) 0 (final n) * mean_climb n nu c = altf - alt0.
Proof.
  intros (N & X0 & X1 & I0) M D o. unfold o, climb_clock, passed. cbn [fst snd t_I t_D t_x]. fold (climbing c).
  set (dt := (altf - alt0) / mulv n (nd_I nu) (climbing c) (n - 1)%nat).
  assert (DT : dt <> 0). { unfold dt. unfold mean_climb, final in M. intro Z. apply (Rmult_eq_compat_r (mulv n (nd_I nu) (climbing c) (n - 1)%nat)) in Z. unfold Rdiv in Z. rewrite Rmult_assoc, Rinv_l in Z by assumption. lra. }
  assert (T : forall i, time (set_alt (fun i => mulv n (fun i j => nd_I nu i j * dt) (climbing c) i + alt0) (put_altitude_z (fun i => mulv n (fun i j => nd_I nu i j * dt) (climbing c) i + alt0) (set_time (fun i => if Nat.eqb i 0 then time c 0%nat else time c 0%nat + nd_x nu i * dt) c))) i = time c 0%nat + nd_x nu i * dt).
  { intro i. cbn. destruct i; cbn; [rewrite X0; ring|reflexivity]. }
  split; [rewrite T, X0; ring|]. split.
  - intro i. split; [apply T|]. rewrite !T. unfold final in X1. fold (final n) in X1. rewrite X0. unfold final. unfold final in X1. rewrite X1. ring.
  - split.
    + intros f i. assert (E : forall j, mulv n (fun i j => nd_I nu i j * dt) f j = dt * mulv n (nd_I nu) f j) by (intro j; unfold mulv; rewrite <- Sum_scal; apply Sum_ext; intros; ring).
      unfold mulv at 1. unfold mulv at 2. apply Sum_ext. intros j _. rewrite E. field. exact DT.
    + rewrite !T, X0. unfold final. unfold final in X1. rewrite X1. unfold mean_climb, final, dt. unfold mean_climb, final in M. field. exact M.
Qed.
(** upward angles and a higher end: time runs forward *)
Theorem C156_forward n nu v0 vf u c alt0 altf : clock n nu -> alt0 < altf ->
  (forall j, 0 <= nd_I nu (final n) j) -> (forall j, (j < n)%nat -> 0 <= climb_speeds n v0 vf (gu_vel u) j) -> (forall j, (j < n)%nat -> 0 <= gu_gamma u j <= PI / 2) ->
  (exists j, (j < n)%nat /\ 0 < nd_I nu (final n) j /\ 0 < climb_speeds n v0 vf (gu_vel u) j /\ (0 < gu_gamma u j \/ forall k, (k < n)%nat -> gu_gamma u k = 0)) ->
  let c' := unpack_climb n v0 vf u c in 0 < mean_climb n nu c' /\ 0 < passed (snd (climb_clock n nu alt0 altf c')) 0 (final n).
Proof.
  intros K A W V G (j & J & WJ & VJ & GJ) c'. pose proof PI_RGT_0 as PI0. assert (P2 : tiny < PI / 2).
  { unfold tiny. pose proof PI2_1. assert (/ 10 ^ 16 <= / 1) by (apply Rinv_le_contravar; [lra|]; apply pow_R1_Rle; lra). rewrite Rinv_1 in *. lra. }
  assert (T0 : 0 < tiny) by (apply Rinv_0_lt_compat, pow_lt; lra).
  assert (AZ : forall m f, all_zero m f = true <-> forall k, (k < m)%nat -> f k = 0).
  { induction m; intro f; cbn; [split; intros; [lia|reflexivity]|]. rewrite andb_true_iff, IHm. split.
    - intros (B & C) k L. destruct (Nat.eq_dec k m) as [->|N]; [destruct (Req_EM_T (f m) 0); [assumption|discriminate]|apply C; lia].
    - intro H. split; [destruct (Req_EM_T (f m) 0) as [|N]; [reflexivity|exfalso; apply N, H; lia]|intros; apply H; lia]. }
  assert (G' : forall k, (k < n)%nat -> 0 <= climb_angles n (gu_gamma u) k <= PI / 2). { intros k L. unfold climb_angles. destruct (all_zero n (gu_gamma u)); [lra|apply G, L]. }
  assert (GJ' : 0 < climb_angles n (gu_gamma u) j).
  { unfold climb_angles. destruct (all_zero n (gu_gamma u)) eqn:E; [exact T0|]. destruct GJ as [X|X]; [exact X|]. apply AZ in X. congruence. }
  assert (up : forall k, climbing c' k = climb_speeds n v0 vf (gu_vel u) k * sin (climb_angles n (gu_gamma u) k)) by (intro k; unfold climbing, c', unpack_climb; cbn; ring).
  assert (up0 : forall k, (k < n)%nat -> 0 <= climbing c' k). { intros k L. rewrite up. apply Rmult_le_pos; [apply V, L|]. destruct (G' k L). apply sin_ge_0; lra. }
  assert (M : 0 < mean_climb n nu c').
  { unfold mean_climb, mulv. rewrite (Sum_but n _ j J). apply Rplus_lt_le_0_compat.
    - rewrite up. apply Rmult_lt_0_compat; [exact WJ|]. apply Rmult_lt_0_compat; [exact VJ|]. destruct (G' j J). apply sin_gt_0; lra.
    - assert (NN : forall m f, (forall k, (k < m)%nat -> 0 <= f k) -> 0 <= Sum m f) by (induction m; intros f H; cbn; [lra|]; apply Rplus_le_le_0_compat; [apply IHm; intros; apply H; lia|apply H; lia]).
      apply NN. intros k L. destruct (Nat.eqb k j); [lra|]. apply Rmult_le_pos; [apply W|apply up0, L]. }
  split; [exact M|]. destruct (C156_time n nu alt0 altf c' K ltac:(lra) ltac:(lra)) as (_ & _ & _ & E). 
  destruct (Rlt_dec 0 (passed (snd (climb_clock n nu alt0 altf c')) 0 (final n))) as [|N]; [assumption|]. exfalso. nra.
Qed.
(** but with a lower end it runs backward *)
Theorem C156_down_refuted n nu alt0 altf c : clock n nu -> 0 < mean_climb n nu c -> altf < alt0 ->
  time (snd (climb_clock n nu alt0 altf c)) (final n) < time (snd (climb_clock n nu alt0 altf c)) 0%nat.
Proof.
  intros K M L. destruct (C156_time n nu alt0 altf c K ltac:(lra) ltac:(lra)) as (_ & _ & _ & E). unfold passed in E. nra.
Qed.
(** speed is the unknown one, between the given start and end; its direction is the flight path angle *)
Theorem C156_speed n v0 vf u c : (2 <= n)%nat -> let c' := unpack_climb n v0 vf u c in
  (forall i, vx (vel c' i) ^ 2 + vz (vel c' i) ^ 2 = climb_speeds n v0 vf (gu_vel u) i ^ 2) /\
  climb_speeds n v0 vf (gu_vel u) 0%nat = v0 /\ (forall v, vf = Some v -> climb_speeds n v0 vf (gu_vel u) (final n) = v) /\
  (forall i, (i + 1 < n)%nat -> (vf = None \/ (i + 2 < n)%nat) -> climb_speeds n v0 vf (gu_vel u) (S i) = gu_vel u i) /\
  (forall i k, (k < n)%nat -> gu_gamma u k <> 0 -> - vz (vel c' i) * cos (gu_gamma u i) = vx (vel c' i) * sin (gu_gamma u i)) /\
  throttle c' = gu_throttle u /\ forall i, vy (rot c' i) = gu_theta u i.
Proof.
  intros N c'. split.
  - intro i. unfold c', unpack_climb. cbn. set (a := climb_angles n (gu_gamma u) i). pose proof (sin2_cos2 a) as E. unfold Rsqr in E.
    transitivity (climb_speeds n v0 vf (gu_vel u) i * climb_speeds n v0 vf (gu_vel u) i * (sin a * sin a + cos a * cos a)); [ring|rewrite E; ring].
  - split; [reflexivity|]. split.
    + intros v ->. unfold climb_speeds, final. destruct (n - 1)%nat eqn:Q; [lia|]. rewrite Nat.eqb_refl. reflexivity.
    + split.
      * intros i L [->|L2]; [reflexivity|]. unfold climb_speeds. destruct vf; [|reflexivity]. destruct (Nat.eqb (S i) (n - 1)) eqn:Q; [apply Nat.eqb_eq in Q; lia|reflexivity].
      * split; [|split; reflexivity]. intros i k L Z. unfold c', unpack_climb. cbn. unfold climb_angles.
        assert (F : all_zero n (gu_gamma u) = false). { clear c'. revert L. clear N. induction n; intro L; [lia|]. cbn. destruct (Nat.eq_dec k n) as [->|Q]; [destruct (Req_EM_T (gu_gamma u n) 0); [contradiction|reflexivity]|rewrite IHn by lia; apply andb_false_r]. }
        rewrite F. ring.
Qed.
(** a two-point climb at 100 m/s and a tenth of a radian *)
Definition trapezoid : numerics := Numerics INR (fun _ _ => 0) (fun i _ => INR i / 2) INR (fun _ _ => 0) (fun _ _ => 0).
Example C156_case u c : clock 2 trapezoid /\ (gu_gamma u = (fun _ => / 10) -> gu_vel u = (fun _ => 100) -> 0 < mean_climb 2 trapezoid (unpack_climb 2 100 None u c)).
Proof.
  assert (K : clock 2 trapezoid). { unfold clock, trapezoid, final. cbn. repeat split; try lra; [lia|intro; lra]. }
  split; [exact K|]. intros G V. pose proof PI2_1.
  refine (proj1 (C156_forward 2 trapezoid 100 None u c 0 1 K ltac:(lra) _ _ _ _)).
  - intro j. unfold trapezoid, final. cbn. lra.
  - intros j _. unfold climb_speeds. rewrite V. destruct j; lra.
  - intros j _. rewrite G. lra.
  - exists 0%nat. split; [lia|]. split; [unfold trapezoid, final; cbn; lra|]. split; [cbn; lra|]. left. rewrite G. lra.
Qed.

(** ** C157: the optimiser's view *)
Section Optimise.
Variable state : Type.
Variable iterate : col -> state -> state.
Variable objective : state -> R.
Variable equalities inequalities : state -> list R.
Notation ask := (answer state iterate objective equalities inequalities).
Notation run := (answers state iterate objective equalities inequalities).
(** an iteration that depends on its unknowns only is answered for the unknowns asked, whatever was asked before *)
Definition forgetful : Prop := forall u s s', iterate u s = iterate u s'.
Theorem C157_fresh (F : forgetful) l r s s0 :
  fst (ask r (run l s)) = match r with Ask_objective u => [objective (iterate u s0)] | Ask_equalities u => equalities (iterate u s0) | Ask_inequalities u => inequalities (iterate u s0) end.
Proof. unfold answer, refresh, cached. cbn [fst snd se_state]. destruct r; cbn [asked]; rewrite (F _ _ s0); reflexivity. Qed.
(** the segment is left at the last point asked for, which need not be the one found *)
Theorem C157_final (F : forgetful) l r best s s0 : se_state _ (converge_opt state iterate objective equalities inequalities (l ++ [r]) best s) = iterate (asked r) s0.
Proof.
  unfold converge_opt. revert s. induction l as [|a l IH]; intro s; cbn [app answers].
  - unfold answer, refresh, cached. cbn [snd se_state]. apply F.
  - apply IH.
Qed.
End Optimise.
Theorem C157_final_refuted : exists l best s, let e := converge_opt R (fun u _ => u 0%nat) (fun x => x) (fun _ => []) (fun _ => []) l best s in
  In (Ask_objective best) l /\ (forall r, In r l -> best 0%nat <= asked r 0%nat) /\ se_state _ e <> best 0%nat.
Proof.
  exists [Ask_objective (fun _ => 0); Ask_objective (fun _ => 1)], (fun _ => 0), (Seg R None 0). cbn. split; [left; reflexivity|]. split; [|lra].
  intros r [<-|[<-|[]]]; cbn; lra.
Qed.
(** what the inequalities mean *)
Lemma rows_pos n f : Forall (fun x => 0 <= x) (rows n f) <-> forall i, (i < n)%nat -> 0 <= f i.
Proof.
  unfold rows. rewrite Forall_forall. split.
  - intros H i L. apply H, in_map_iff. exists i. split; [reflexivity|]. apply in_seq. lia.
  - intros H x X. apply in_map_iff in X. destruct X as (i & <- & Q). apply in_seq in Q. apply H. lia.
Qed.
Lemma quotient_pos a b : 0 < b -> (0 <= a / b <-> 0 <= a).
Proof.
  intro B. split; intro H.
  - apply Rmult_le_compat_r with (r := b) in H; [|lra]. unfold Rdiv in H. rewrite Rmult_assoc, Rinv_l, Rmult_0_l, Rmult_1_r in H by lra. exact H.
  - apply Rmult_le_pos; [exact H|]. left. apply Rinv_0_lt_compat, B.
Qed.
Theorem C157_feasible n limit altf t cl h ax : 0 < limit -> 0 < altf -> 0 < t (final n) ->
  (Forall (fun x => 0 <= x) (inequality_rows n limit altf t cl h ax) <->
   (forall i, (i + 1 < n)%nat -> t i <= t (S i)) /\ forall i, (i < n)%nat -> 0 <= cl i <= limit /\ 0 <= h i /\ 0 <= ax i).
Proof.
  intros L A T. unfold inequality_rows. rewrite !Forall_app, !rows_pos.
  assert (TR : Forall (fun x => 0 <= x) (time_rows n t) <-> forall i, (i + 1 < n)%nat -> t i <= t (S i)).
  { change (time_rows n t) with (rows (n - 1) (fun i => (t (S i) - t i) / t (n - 1)%nat)). rewrite rows_pos. unfold final in T. split; intros H i Q.
    - specialize (H i ltac:(lia)). apply quotient_pos in H; [lra|exact T].
    - apply quotient_pos; [exact T|]. specialize (H i ltac:(lia)). lra. }
  rewrite TR. split.
  - intros (H1 & H2 & H3 & H4 & H5). split; [exact H1|]. intros i Q. specialize (H2 i Q). specialize (H3 i Q). specialize (H4 i Q). specialize (H5 i Q).
    apply quotient_pos in H2; [|exact L]. apply quotient_pos in H4; [|exact A]. repeat split; lra.
  - intros (H1 & H). split; [exact H1|]. split; [|split; [|split]]; intros i Q; destruct (H i Q) as ((X1 & X2) & X3 & X4); try assumption.
    + apply quotient_pos; [exact L|lra].
    + apply quotient_pos; assumption.
Qed.
(** below sea level the altitude rows demand the opposite *)
Theorem C157_below_refuted n limit altf t cl h ax : altf < 0 -> Forall (fun x => 0 <= x) (inequality_rows n limit altf t cl h ax) -> forall i, (i < n)%nat -> h i <= 0.
Proof.
  intros A H i L. unfold inequality_rows in H. rewrite !Forall_app, !rows_pos in H. destruct H as (_ & _ & _ & H & _). specialize (H i L).
  apply Rmult_le_compat_r with (r := - altf) in H; [|lra]. rewrite Rmult_0_l in H. replace (h i / altf * - altf) with (- h i) in H by (field; lra). lra.
Qed.
(** the two optimisers are given the same constraints, as many as announced, and one bound for each unknown *)
Theorem C157_same n limit altf t cl h ax eq : (1 <= n)%nat -> length eq = (2 * n)%nat ->
  Permutation (pyopt_rows eq n limit altf t cl h ax) (eq ++ inequality_rows n limit altf t cl h ax) /\ length (pyopt_rows eq n limit altf t cl h ax) = announced n.
Proof.
  intros N E. split.
  - unfold pyopt_rows, inequality_rows. do 3 apply Permutation_app_head.
    rewrite !app_assoc. rewrite Permutation_app_comm. rewrite <- app_assoc. reflexivity.
  - unfold pyopt_rows, announced, time_rows, rows. rewrite !app_length, !map_length, !seq_length, E. lia.
Qed.
Theorem C157_bounds n e u : length (bounds n e) = length (packed n e u) /\
  forall k b x, nth_error (bounds n e) k = Some b -> nth_error (packed n e u) k = Some x ->
  ((k < n)%nat -> b = (0, 1) /\ x = gu_throttle u k) /\ ((n <= k < 3 * n)%nat -> b = (0, PI / 2)) /\ ((3 * n <= k)%nat -> b = (0, 2000) /\ x = gu_vel u (k - 3 * n)).
Proof.
  set (m := if e then (n - 2)%nat else (n - 1)%nat).
  split; [unfold bounds, packed, rows; rewrite !app_length, !repeat_length, !map_length, !seq_length; lia|].
  intros k b x B X. unfold bounds, packed in *. fold m in B, X.
  assert (RP : forall (A : Type) (z : A) q i y, nth_error (repeat z q) i = Some y -> y = z) by (intros A z q i y H; apply nth_error_In, repeat_spec in H; exact H).
  assert (RW : forall q f i y, nth_error (rows q f) i = Some y -> y = f i).
  { intros q f i y H. unfold rows in H. rewrite nth_error_map in H. destruct (nth_error (seq 0 q) i) eqn:Q; [|discriminate]. cbn in H. inversion H.
    assert (i < q)%nat by (apply nth_error_Some in Q || (assert (nth_error (seq 0 q) i <> None) by congruence; apply nth_error_Some in H0; rewrite seq_length in H0; exact H0)).
    rewrite (nth_error_nth' _ 0%nat) in Q by (rewrite seq_length; assumption). rewrite seq_nth in Q by assumption. inversion Q. subst. reflexivity. }
  split; [|split]; intro L.
  - rewrite nth_error_app1 in B by (rewrite repeat_length; lia). rewrite nth_error_app1 in X by (unfold rows; rewrite map_length, seq_length; lia). split; [apply RP in B; exact B|apply RW in X; exact X].
  - rewrite nth_error_app2 in B by (rewrite repeat_length; lia). rewrite repeat_length in B.
    destruct (le_lt_dec n (k - n)) as [Q|Q].
    + rewrite nth_error_app2 in B by (rewrite repeat_length; lia). rewrite repeat_length in B. rewrite nth_error_app1 in B by (rewrite repeat_length; lia). apply RP in B. exact B.
    + rewrite nth_error_app1 in B by (rewrite repeat_length; lia). apply RP in B. exact B.
  - rewrite !nth_error_app2 in B by (rewrite ?repeat_length; lia). rewrite !repeat_length in B. apply RP in B. split; [exact B|].
    rewrite !nth_error_app2 in X by (unfold rows; rewrite ?map_length, ?seq_length; lia). unfold rows in X at 1. apply RW in X || idtac. 
    assert (LL : forall f, length (rows n f) = n) by (intro f; unfold rows; rewrite map_length, seq_length; reflexivity).
    try rewrite !LL in X. try (apply RW in X). rewrite X. f_equal. rewrite ?LL. lia.
Qed.
(** a constraint that is not a number is not reported as a failure *)
Theorem C157_nan_refuted : exists obj const, In None const /\ pyopt_fail obj const = false.
Proof. exists (Some 0), [None]. split; [left; reflexivity|reflexivity]. Qed.
Example C157_case : Forall (fun x => 0 <= x) (inequality_rows 2 (3 / 2) 1000 (fun i => 10 + INR i) (fun _ => 1) (fun i => 1000 * INR i) (fun _ => 0)).
Proof.
  apply C157_feasible; [lra|lra|cbn; lra|]. split.
  - intros i L. destruct i as [|i]; [cbn; lra|lia].
  - intros i L. pose proof (pos_INR i). repeat split; nra.
Qed.
Print Assumptions C156_altitude.
Print Assumptions C156_time.
Print Assumptions C156_forward.
Print Assumptions C156_down_refuted.
Print Assumptions C156_speed.
Print Assumptions C157_fresh.
Print Assumptions C157_final.
Print Assumptions C157_final_refuted.
Print Assumptions C157_feasible.
Print Assumptions C157_below_refuted.
Print Assumptions C157_same.
Print Assumptions C157_bounds.
Print Assumptions C157_nan_refuted.
