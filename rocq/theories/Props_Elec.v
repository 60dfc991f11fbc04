(** * C87-C92: electric and piston power trains *)
From Coq Require Import Reals List Bool Arith Lia Lra Psatz.
From Verif Require Import PyBase M_Opt P_Opt M_Stab P_Stab M_Modes P_Modes M_Elec S_Elec P_Elec M_Atmo S_Atmo Props_Atmo.
Import ListNotations.
Local Open Scope R_scope.
Local Open Scope list_scope.

(** ** C87 *)
(** At a voltage that overcomes the no-load current, the speed found is the one at which motor and propeller are in balance: the motor
    behind its gear obeys the equations of a dc motor, its torque is what the propeller takes at that speed, and no other forward speed
    does that. *)
Theorem C87_balance : forall m rho cp v, works m -> 0 < rho -> 0 < cp -> 0 < m_radius m ->
  (m_io m + m_exp m * (1 - m_gear_eff m)) * m_res m <= v ->
  let io := m_io m + m_exp m * (1 - m_gear_eff m) in
  let (w, q) := motor_omega m rho cp v in
  0 <= w /\ q = prop_torque rho cp (m_radius m) w /\
  (exists i, dc_motor (m_res m) io (m_kv m) v i (w * m_gear m) (q / m_gear m) /\ fst (motor_current m v w) = Rmax 0 i) /\
  (forall w' i' q', 0 <= w' -> dc_motor (m_res m) io (m_kv m) v i' (w' * m_gear m) (q' / m_gear m) ->
     q' = prop_torque rho cp (m_radius m) w' -> w' = w /\ q' = q).
Proof.
  intros m rho cp v W Hr Hc HR H io. change io with (no_load m).
  destruct (equilibrium m rho cp v W Hr Hc HR H) as [P E]. cbv zeta in P, E.
  pose proof (snd_omega m rho cp v) as Q. destruct (motor_omega m rho cp v) as [w q]. cbn [fst snd] in *. subst q.
  split; [exact P|]. split; [exact E|]. split.
  - exists ((v - w / kv_out m) / m_res m). split; [apply torque_dc; exact W|]. unfold motor_current. cbn [fst].
    rewrite (kv_shift m w W). set (i := (v - w * m_gear m / m_kv m) / m_res m).
    destruct (Rltb i 0) eqn:L; [apply Rltb_true in L; rewrite Rmax_left; lra|apply Rltb_false in L; rewrite Rmax_right; lra].
  - intros w' i' q' P' D E'. destruct (dc_torque m v i' w' q' W D) as [T _]. rewrite T in E'.
    assert (w' = w) by (apply (equilibrium_unique m rho cp v); assumption). subst w'. split; [reflexivity|exact T].
Qed.
Example balance_case : let m := Motor (1/10) 1 10 1 1 0 1 in works m /\ 0 < 1 /\ 0 < m_radius m /\
  (m_io m + m_exp m * (1 - m_gear_eff m)) * m_res m <= 20.
Proof. cbn. unfold works. cbn. lra. Qed.
(** more voltage turns the propeller faster; a larger power coefficient slows it down *)
Theorem C87_voltage : forall m rho cp v v', works m -> 0 < rho -> 0 < cp -> 0 < m_radius m ->
  (m_io m + m_exp m * (1 - m_gear_eff m)) * m_res m <= v -> v < v' ->
  fst (motor_omega m rho cp v) < fst (motor_omega m rho cp v').
Proof. exact rises. Qed.
Theorem C87_load : forall m rho cp cp' v, works m -> 0 < rho -> 0 < cp -> cp < cp' -> 0 < m_radius m ->
  (m_io m + m_exp m * (1 - m_gear_eff m)) * m_res m < v ->
  0 < fst (motor_omega m rho cp' v) < fst (motor_omega m rho cp v).
Proof. exact falls_load. Qed.
(** Below that voltage (throttle closed, for one) the motor is reported to turn backwards with a positive torque, or, when the root does
    not exist, to stand still with a torque the propeller cannot take up; at zero voltage it may draw current. *)
Theorem C87_low_voltage_refuted : forall m rho cp v, works m -> 0 < rho -> 0 < cp -> 0 < m_radius m ->
  v < (m_io m + m_exp m * (1 - m_gear_eff m)) * m_res m ->
  let (w, q) := motor_omega m rho cp v in
  (w < 0 /\ 0 < q /\ (v = 0 -> 0 < fst (motor_current m v w))) \/ (w = 0 /\ q < 0 /\ q <> prop_torque rho cp (m_radius m) w).
Proof.
  intros m rho cp v W Hr Hc HR H. pose proof (below m rho cp v W Hr Hc HR H) as B. cbv zeta in B.
  pose proof (snd_omega m rho cp v) as Q. destruct (motor_omega m rho cp v) as [w q]. cbn [fst snd] in *. subst q.
  destruct B as [(A & B & C)|(A & B)].
  - left. split; [exact A|]. split; [exact C|]. intro V. subst v. unfold motor_current. cbn [fst]. destruct W as (X & Y & Z).
    assert (0 < (0 - w * m_gear m / m_kv m) / m_res m).
    { apply Rdiv_lt_0_compat; [|exact X]. assert (0 < - w * m_gear m / m_kv m); [|lra].
      apply Rdiv_lt_0_compat; [|exact Y]. apply Rmult_lt_0_compat; lra. }
    destruct (Rltb _ 0) eqn:L; [apply Rltb_true in L; lra|assumption].
  - right. split; [exact A|]. split; [exact B|]. subst w. unfold prop_torque. replace (0 / (2 * PI)) with 0 by (field; apply PI_neq0).
    intro K. rewrite K in B. replace (cp * rho * 0 ^ 2 * (2 * m_radius m) ^ 5 / (2 * PI)) with 0 in B by (field; apply PI_neq0). lra.
Qed.
Example low_voltage_case : let m := Motor 1 1 1 1 1 0 1 in works m /\ 0 < (m_io m + m_exp m * (1 - m_gear_eff m)) * m_res m.
Proof. cbn. unfold works. cbn. lra. Qed.
(** both cases occur: a lightly loaded motor runs backwards, a heavily loaded one stands *)
Theorem C87_low_voltage_cases :
  (let m := Motor 1 1 1 1 1 0 1 in fst (motor_omega m 1 1 0) < 0) /\ (let m := Motor 1 1 1 1 1 0 2 in fst (motor_omega m 1 1 0) = 0).
Proof.
  assert (P3 : 3 < PI) by (pose proof PI2_3_2; lra). pose proof PI_4 as P4.
  assert (B1 : 27 < PI * PI * PI) by nra. assert (B2 : PI * PI * PI <= 64) by nra.
  split; intro m.
  - assert (W : works m) by (unfold works, m; cbn; lra).
    assert (K1 : kv_out m = 1) by (unfold kv_out, m; cbn; lra). assert (N1 : no_load m = 1) by (unfold no_load, m; cbn; lra).
    destruct (below m 1 1 0 W ltac:(lra) ltac:(lra) ltac:(unfold m; cbn; lra) ltac:(rewrite N1; unfold m; cbn; lra)) as [(A & _)|(A & B)]; [exact A|exfalso].
    assert (I : 0 <= inside_of m 1 1 0). { unfold inside_of. rewrite K1, N1. unfold m; cbn. lra. }
    destruct (root_solves m 1 1 0 W ltac:(lra) ltac:(lra) ltac:(unfold m; cbn; lra) I) as [E _]. cbv zeta in A, E. rewrite A in E.
    rewrite K1, N1 in E. unfold m in E; cbn in E. lra.
  - assert (K1 : kv_out m = 1) by (unfold kv_out, m; cbn; lra). assert (N1 : no_load m = 1) by (unfold no_load, m; cbn; lra).
    rewrite omega_none; [reflexivity|]. unfold inside_of. rewrite K1, N1. unfold m; cbn. lra.
Qed.
(** Electric power is shaft power plus losses in the resistance and at no load, and the efficiency reported is their ratio, between 0 and 1 *)
Theorem C87_power : forall m v w, works m -> v <> 0 -> w * m_gear m / m_kv m < v ->
  let (i, e) := motor_current m v w in
  let q := motor_torque m v w in
  let io := m_io m + m_exp m * (1 - m_gear_eff m) in
  0 < i /\ v * i = q * w + m_res m * i ^ 2 + io * (w * m_gear m / m_kv m) /\
  e = efficiency v i w q /\
  (0 <= io -> io <= i -> 0 <= w -> 0 < v -> 0 <= e <= 1).
Proof.
  intros m v w W V L. unfold motor_current. pose proof (kv_shift m w W) as K. pose proof (kv_pos m W) as KP. pose proof W as (A & B & C).
  set (i := (v - w * m_gear m / m_kv m) / m_res m). cbv zeta.
  assert (I : 0 < i) by (apply Rdiv_lt_0_compat; lra).
  destruct (Rltb i 0) eqn:N; [apply Rltb_true in N; lra|]. clear N.
  assert (Q : motor_torque m v w = (i - no_load m) / kv_out m) by (unfold motor_torque; rewrite K; reflexivity).
  assert (X : w = (v - i * m_res m) * kv_out m).
  { unfold i. rewrite <- K. field. split; lra. }
  change (m_io m + m_exp m * (1 - m_gear_eff m)) with (no_load m).
  split; [exact I|]. split; [|split].
  - rewrite Q, <- K. rewrite X. field. lra.
  - unfold efficiency. rewrite Q. rewrite X at 1. field. repeat split; lra.
  - intros H1 H2 H3 H4. assert (0 <= 1 - no_load m / i <= 1).
    { split; [|assert (0 <= no_load m / i) by (apply Rmult_le_pos; [lra|left; apply Rinv_0_lt_compat; lra]); lra].
      assert (no_load m / i <= 1); [|lra]. apply Rmult_le_reg_r with i; [lra|]. unfold Rdiv. rewrite Rmult_assoc, Rinv_l; lra. }
    assert (0 <= 1 - i * m_res m / v <= 1).
    { assert (0 <= i * m_res m / v) by (apply Rmult_le_pos; [nra|left; apply Rinv_0_lt_compat; lra]).
      split; [|lra]. assert (i * m_res m / v <= 1); [|lra]. apply Rmult_le_reg_r with v; [lra|]. unfold Rdiv at 1. rewrite Rmult_assoc, Rinv_l by lra.
      assert (0 <= v - i * m_res m); [|lra]. destruct (Rle_lt_dec 0 (v - i * m_res m)) as [Y|Y]; [exact Y|]. exfalso. rewrite X in H3. nra. }
    nra.
Qed.
Example power_case : let m := Motor (1/10) 1 10 2 1 0 1 in works m /\ 20 <> 0 /\ 50 * m_gear m / m_kv m < 20.
Proof. cbn. unfold works. cbn. lra. Qed.
(** torque from voltage and speed, and voltage and current from torque and speed, are inverse *)
Theorem C87_inverse : forall m, works m ->
  (forall q w, let '(v, i, _) := voltage_current m q w in motor_torque m v w = q /\ i = q * m_kv m / m_gear m + (m_io m + m_exp m * (1 - m_gear_eff m)) /\
     (0 <= i -> fst (motor_current m v w) = i)) /\
  (forall v w, fst (fst (voltage_current m (motor_torque m v w) w)) = v).
Proof.
  intros m W. pose proof (kv_pos m W) as K. pose proof W as (A & B & C). split.
  - intros q w. unfold voltage_current. cbv zeta. set (v := (q * kv_out m + no_load m) * m_res m + w / kv_out m).
    assert (I : (v - w / kv_out m) / m_res m = q * m_kv m / m_gear m + (m_io m + m_exp m * (1 - m_gear_eff m))).
    { unfold v, no_load, kv_out. field. repeat split; lra. }
    split; [|split].
    + unfold motor_torque, v. field. split; lra.
    + exact I.
    + intro H. unfold motor_current. cbn [fst]. rewrite (kv_shift m w W) in H |- *. destruct (Rltb _ 0) eqn:L; [apply Rltb_true in L; lra|reflexivity].
  - intros v w. unfold voltage_current, motor_torque. cbv zeta. cbn [fst]. field. split; lra.
Qed.
(** the gearbox takes a fixed current: at the expected current, and without no-load current, exactly the share its efficiency says *)
Theorem C87_gearbox : forall m v w, works m -> m_io m = 0 -> (v - w * m_gear m / m_kv m) / m_res m = m_exp m ->
  motor_torque m v w = m_gear_eff m * (m_exp m * m_gear m / m_kv m).
Proof.
  intros m v w W I E. unfold motor_torque. rewrite (kv_shift m w W), E. unfold no_load. rewrite I. destruct W as (A & B & C). unfold kv_out. field. split; lra.
Qed.
Example gearbox_case : let m := Motor 1 0 1 1 (9/10) 5 1 in works m /\ (10 - 5 * m_gear m / m_kv m) / m_res m = m_exp m.
Proof. cbn. unfold works. cbn. lra. Qed.
(** without any load the motor is reported at rest, though it would run at its no-load speed *)
Theorem C87_unloaded_refuted : forall m rho v, works m -> (m_io m + m_exp m * (1 - m_gear_eff m)) * m_res m < v ->
  fst (motor_omega m rho 0 v) = 0 /\
  exists w i, 0 < w /\ dc_motor (m_res m) (m_io m + m_exp m * (1 - m_gear_eff m)) (m_kv m) v i (w * m_gear m) 0.
Proof.
  intros m rho v W H. split.
  - unfold motor_omega. cbn [fst]. destruct (half_power _); [|reflexivity]. rewrite zero_yes by ring. reflexivity.
  - change (m_io m + m_exp m * (1 - m_gear_eff m)) with (no_load m) in *. pose proof (kv_pos m W).
    exists (kv_out m * (v - no_load m * m_res m)), (no_load m). split; [apply Rmult_lt_0_compat; lra|]. destruct W as (A & B & C). split.
    + unfold kv_out. field. split; lra.
    + field. lra.
Qed.

(** ** C88 *)
(** The simple motor model finds, for a wanted efficiency, a working point of the dc motor; as long as some point of the motor reaches
    that efficiency the point found has exactly it, and draws the least current of all that do. *)
Theorem C88_motor : forall m e v, works m -> 0 < v -> 0 < e <= 1 -> 0 < m_io m + m_exp m * (1 - m_gear_eff m) ->
  (m_io m + m_exp m * (1 - m_gear_eff m)) * m_res m < v ->
  let io := m_io m + m_exp m * (1 - m_gear_eff m) in
  let (w, q) := lofi_omega m e v in let i := lofi_current m e v in
  dc_motor (m_res m) io (m_kv m) v i (w * m_gear m) (q / m_gear m) /\
  ((exists i' w' q', 0 < i' /\ dc_motor (m_res m) io (m_kv m) v i' w' q' /\ efficiency v i' w' q' = e) ->
   0 < w /\ 0 < q /\ efficiency v i w q = e /\
   forall i' w' q', 0 < i' -> dc_motor (m_res m) io (m_kv m) v i' w' q' -> efficiency v i' w' q' = e -> i <= i').
Proof.
  intros m e v W V [E0 E1] N L io. change io with (no_load m). change (m_io m + m_exp m * (1 - m_gear_eff m)) with (no_load m) in N, L.
  pose proof (lofi_dc m e v W V E1 N) as D.
  assert (B : (exists i' w' q', 0 < i' /\ dc_motor (m_res m) (no_load m) (m_kv m) v i' w' q' /\ efficiency v i' w' q' = e) -> e <= best m v).
  { intros (i' & w' & q' & I & D' & F). rewrite <- F. unfold best. apply (efficiency_limit (m_res m) (no_load m) (m_kv m) v i' w' q'); try assumption; try apply W; [lra|]. destruct W as (_ & Z & _). lra. }
  pose proof (lofi_efficiency m e v W V E1 N L E0) as X. pose proof (lofi_smallest m e v W V E1 N L E0) as Y.
  destruct (lofi_omega m e v) as [w q] eqn:LO. cbn [fst snd] in *. split; [exact D|]. intro Z. apply B in Z. destruct (X Z) as (X1 & X2 & X3).
  split; [exact X1|]. split; [exact X2|]. split; [exact X3|]. exact (Y Z).
Qed.
(** no working point is more efficient than (1 - sqrt (io res / v))^2, so a higher figure is silently not met *)
Theorem C88_limit : forall res io kv v i w q, 0 < res -> 0 < io -> 0 < kv -> 0 < v -> 0 < i -> dc_motor res io kv v i w q ->
  efficiency v i w q <= (1 - sqrt (io * res / v)) ^ 2.
Proof.
  intros. apply (efficiency_limit res io kv v i w q); try assumption; lra.
Qed.
Theorem C88_unreachable_refuted : exists m e v, works m /\ 0 < v /\ 0 < e <= 1 /\
  let (w, q) := lofi_omega m e v in efficiency v (lofi_current m e v) w q < e.
Proof.
  exists (Motor 1 1 1 1 1 0 1), (95/100), 4. set (m := Motor 1 1 1 1 1 0 1). assert (W : works m) by (unfold works, m; cbn; lra).
  split; [exact W|]. split; [lra|]. split; [lra|].
  assert (N : no_load m = 1) by (unfold no_load, m; cbn; lra).
  pose proof (lofi_dc m (95/100) 4 W ltac:(lra) ltac:(lra) ltac:(lra)) as D.
  assert (I : 0 < lofi_current m (95/100) 4). { rewrite lofi_i by (try assumption; lra). apply Rdiv_lt_0_compat; [apply x_pos; try assumption; lra|apply W]. }
  destruct (lofi_omega m (95/100) 4) as [w q]. cbn [fst snd] in D.
  replace (w * m_gear m) with w in D by (unfold m; cbn; ring). replace (q / m_gear m) with q in D by (unfold m; cbn; field).
  pose proof (C88_limit (m_res m) (no_load m) (m_kv m) 4 _ _ _ (proj1 W) ltac:(rewrite N; lra) (proj1 (proj2 W)) ltac:(lra) I D) as U. rewrite N in U.
  replace (1 * m_res m / 4) with ((1/2) * (1/2)) in U by (unfold m; cbn; field). rewrite sqrt_square in U by lra. lra.
Qed.
(** without no-load current the motor gives neither torque nor current, whatever efficiency is asked for *)
Theorem C88_ideal_refuted : forall m e v, works m -> 0 < v -> e <= 1 -> m_io m + m_exp m * (1 - m_gear_eff m) = 0 ->
  snd (lofi_omega m e v) = 0 /\ lofi_current m e v = 0.
Proof. intros m e v W V E N. destruct (lofi_ideal m e v W V E N) as [A B]. rewrite A. split; [reflexivity|exact B]. Qed.
Example motor_lo_case : let m := Motor 1 1 1 1 1 0 1 in works m /\ 0 < m_io m + m_exp m * (1 - m_gear_eff m) /\
  (m_io m + m_exp m * (1 - m_gear_eff m)) * m_res m < 4 /\ exists i' w' q', 0 < i' /\ dc_motor (m_res m) (m_io m + m_exp m * (1 - m_gear_eff m)) (m_kv m) 4 i' w' q' /\
  efficiency 4 i' w' q' = 1/4.
Proof. cbn. split; [unfold works; cbn; lra|]. split; [lra|]. split; [lra|]. exists 2, 2, 1. unfold dc_motor, efficiency. lra. Qed.
(** The simple propeller turns the wanted share of the shaft power into thrust times speed, and its power coefficient is the one that
    belongs to the torque it takes. *)
Theorem C88_propeller : forall etap radius rho V w q, 0 < radius -> 0 < rho -> V <> 0 -> w <> 0 ->
  let '(F, P, cp) := lofi_spin etap radius rho V w q in
  F * V = etap * P /\ P = q * w /\ prop_torque rho cp radius w = q.
Proof.
  intros etap radius rho V w q A B C D. unfold lofi_spin, prop_torque. cbv zeta. pose proof PI_RGT_0. repeat split.
  - field. exact C.
  - field. repeat split; lra.
Qed.
(** rated power scales with the voltage, and the current drawn carries it at the stated efficiency *)
Theorem C88_rated : forall e rated vr v, 0 < e -> 0 < rated -> 0 < vr -> 0 <= v ->
  let (p, i) := power_lo e rated vr v in v * i * e = p /\ (v = vr -> p = rated * e) /\ 0 <= i.
Proof.
  intros e rated vr v A B C D. unfold power_lo. cbv zeta.
  assert (E : 0 < rated * e) by (apply Rmult_lt_0_compat; assumption).
  destruct (Req_dec v 0) as [Z|Z].
  - subst v. rewrite zero_yes by (field; lra). split; [field; lra|]. split; [intro; lra|lra].
  - assert (0 < rated * e * v / vr) by (apply Rdiv_lt_0_compat; [apply Rmult_lt_0_compat; lra|lra]). rewrite zero_no by lra. split; [field; repeat split; lra|].
    split; [intros ->; field; lra|]. left. apply Rdiv_lt_0_compat; [lra|apply Rmult_lt_0_compat; lra].
Qed.
(** The speed controller: between closed and full throttle the power it takes is the power it delivers over its efficiency *)
Theorem C88_controller : forall eff throttle vin iout, eff <> 0 -> 0 <= throttle <= 1 ->
  let (iin, pin) := esc_current eff throttle vin iout in
  let vout := esc_voltage throttle vin in
  vout = throttle * vin /\ pin = vin * iin /\ pin * eff = vout * iout.
Proof.
  intros eff t vin iout E H. unfold esc_current. cbv zeta. rewrite esc_voltage_is by assumption. repeat split. field. exact E.
Qed.
(** outside that range the voltage is clipped and the current is not: too much power is taken above full throttle, and below zero
    power flows back to the battery at no voltage *)
Theorem C88_controller_refuted : forall eff vin iout, 0 < eff -> 0 < vin -> 0 < iout ->
  (forall throttle, 1 < throttle -> esc_voltage throttle vin * iout < snd (esc_current eff throttle vin iout) * eff) /\
  (forall throttle, throttle < 0 -> esc_voltage throttle vin = 0 /\ snd (esc_current eff throttle vin iout) < 0).
Proof.
  intros eff vin iout A B C. split; intros t T; unfold esc_current; cbv zeta; cbn [snd].
  - rewrite esc_voltage_above by lra. replace (vin * (iout * t / eff) * eff) with (vin * iout * t) by (field; lra).
    assert (0 < vin * iout) by (apply Rmult_lt_0_compat; assumption). nra.
  - rewrite esc_voltage_below by lra. split; [reflexivity|]. assert (0 < vin * (iout * - t / eff)).
    { apply Rmult_lt_0_compat; [assumption|]. apply Rdiv_lt_0_compat; [|assumption]. apply Rmult_lt_0_compat; lra. }
    replace (vin * (iout * t / eff)) with (- (vin * (iout * - t / eff))) by (field; lra). lra.
Qed.
(** The gearbox: the power it reports is the share its efficiency says; speed times torque at the output is that power only for a
    ratio of one (both are multiplied by it). *)
Theorem C88_gears : forall r1 r2 eta T1 w1, 0 < r1 -> 0 < r2 -> 0 < eta -> 0 < T1 -> 0 < w1 ->
  let '(w2, T2, P2) := gearbox r1 r2 eta T1 w1 (T1 * w1) in
  P2 = eta * (T1 * w1) /\ (w2 * T2 = P2 <-> r1 = r2).
Proof.
  intros r1 r2 eta T1 w1 A B C D E. unfold gearbox. split; [ring|].
  set (P := T1 * w1 * eta). assert (0 < P) by (unfold P; repeat apply Rmult_lt_0_compat; assumption).
  replace (w1 * r1 / r2 * (T1 * r1 / r2 * eta)) with (P * (r1 / r2) ^ 2) by (unfold P; field; lra).
  assert (0 < r1 / r2) by (apply Rdiv_lt_0_compat; assumption). split.
  - intro F. assert (G : P * (r1 / r2 + 1) * (r1 / r2 - 1) = 0).
    { replace (P * (r1 / r2 + 1) * (r1 / r2 - 1)) with (P * (r1 / r2) ^ 2 - P) by ring. lra. }
    apply Rmult_integral in G. destruct G as [G|G].
    + assert (0 < P * (r1 / r2 + 1)) by (apply Rmult_lt_0_compat; lra). lra.
    + replace r1 with (r1 / r2 * r2) by (field; lra). replace (r1 / r2) with 1 by lra. ring.
  - intros ->. field. lra.
Qed.
Theorem C88_gears_refuted : exists r1 r2 eta T1 w1, 0 < eta <= 1 /\ 0 < T1 /\ 0 < w1 /\
  let '(w2, T2, P2) := gearbox r1 r2 eta T1 w1 (T1 * w1) in T1 * w1 < w2 * T2.
Proof. exists 2, 1, 1, 1, 1. unfold gearbox. lra. Qed.
(** the solar power train in its simple form: up to full throttle, the power going into the battery is what the tracker takes from the
    panel less avionics, payload and the thrust power over all efficiencies *)
Theorem C88_energy : forall m etam etap radius eff mppt volts flux area peff pav ppay rho V throttle num,
  works m -> 0 < volts -> 0 < eff -> 0 < etap -> 0 < etam <= 1 -> 0 < V -> 0 < throttle <= 1 ->
  0 < m_io m + m_exp m * (1 - m_gear_eff m) -> (m_io m + m_exp m * (1 - m_gear_eff m)) * m_res m < throttle * volts ->
  etam <= (1 - sqrt ((m_io m + m_exp m * (1 - m_gear_eff m)) * m_res m / (throttle * volts))) ^ 2 ->
  let (F, level) := solar_low m etam etap radius eff mppt volts flux area peff pav ppay rho V throttle num in
  level = flux * area * peff * mppt - pav - ppay - F * V / (etap * etam * eff).
Proof.
  intros m e etap radius eff mppt volts flux area peff pav ppay rho V th num W A B C [D1 D2] EV [T0 T1] N L F.
  unfold solar_low, lofi_spin, esc_current, solar_logic, panel_power, over. cbv zeta.
  rewrite esc_voltage_is by lra. assert (V0 : 0 < th * volts) by (apply Rmult_lt_0_compat; assumption).
  destruct (lofi_efficiency m e (th * volts) W V0 D2 N L D1 F) as (X1 & X2 & X3).
  assert (I : 0 < lofi_current m e (th * volts)). { rewrite lofi_i by (try assumption; lra). apply Rdiv_lt_0_compat; [apply x_pos; try assumption; lra|apply W]. }
  destruct (lofi_omega m e (th * volts)) as [w q]. cbn [fst snd] in *.
  destruct (Rltb 1 th) eqn:T; [apply Rltb_true in T; lra|].
  unfold efficiency in X3. set (i := lofi_current m e (th * volts)) in *.
  assert (Y : q * w = e * (th * volts * i)) by (rewrite <- X3; field; repeat split; lra).
  replace (num * (etap * (q * w) / V) * V / (etap * e * eff)) with (num * (q * w) / (e * eff)) by (field; repeat split; lra).
  rewrite Y. field. repeat split; lra.
Qed.
Example energy_case : let m := Motor 1 1 1 1 1 0 1 in works m /\ 0 < m_io m + m_exp m * (1 - m_gear_eff m) /\
  (m_io m + m_exp m * (1 - m_gear_eff m)) * m_res m < (1/2) * 8 /\ 2/10 <= (1 - sqrt ((m_io m + m_exp m * (1 - m_gear_eff m)) * m_res m / (1/2 * 8))) ^ 2.
Proof.
  cbn. split; [unfold works; cbn; lra|]. split; [lra|]. split; [lra|]. replace ((1 + 0 * (1 - 1)) * 1 / (1/2*8)) with ((1/2)*(1/2)) by field.
  rewrite sqrt_square by lra. lra.
Qed.
(** above full throttle the current is multiplied by the throttle twice: the drain is the thrust power over all efficiencies times the throttle *)
Theorem C88_energy_refuted : forall m etam etap radius eff mppt volts flux area peff pav ppay rho V throttle num,
  works m -> 0 < volts -> 0 < eff -> 0 < etap -> 0 < etam <= 1 -> 0 < V -> 1 < throttle -> 0 < num ->
  0 < m_io m + m_exp m * (1 - m_gear_eff m) -> (m_io m + m_exp m * (1 - m_gear_eff m)) * m_res m < volts ->
  etam <= (1 - sqrt ((m_io m + m_exp m * (1 - m_gear_eff m)) * m_res m / volts)) ^ 2 ->
  let (F, level) := solar_low m etam etap radius eff mppt volts flux area peff pav ppay rho V throttle num in
  0 < F /\ level = flux * area * peff * mppt - pav - ppay - throttle * (F * V / (etap * etam * eff)).
Proof.
  intros m e etap radius eff mppt volts flux area peff pav ppay rho V th num W A B C [D1 D2] EV T0 NP N L F.
  unfold solar_low, lofi_spin, esc_current, solar_logic, panel_power, over. cbv zeta.
  rewrite esc_voltage_above by lra.
  destruct (lofi_efficiency m e volts W A D2 N L D1 F) as (X1 & X2 & X3).
  assert (I : 0 < lofi_current m e volts). { rewrite lofi_i by (try assumption; lra). apply Rdiv_lt_0_compat; [apply x_pos; try assumption; lra|apply W]. }
  destruct (lofi_omega m e volts) as [w q]. cbn [fst snd] in *.
  destruct (Rltb 1 th) eqn:T; [|apply Rltb_false in T; lra].
  unfold efficiency in X3. set (i := lofi_current m e volts) in *.
  assert (Y : q * w = e * (volts * i)) by (rewrite <- X3; field; repeat split; lra).
  assert (0 < q * w) by (apply Rmult_lt_0_compat; assumption). split.
  - apply Rmult_lt_0_compat; [assumption|]. apply Rmult_lt_0_compat; [|lra]. apply Rdiv_lt_0_compat; [apply Rmult_lt_0_compat; assumption|assumption].
  - replace (num * (etap * (q * w) / V * th) * V / (etap * e * eff)) with (num * (q * w) * th / (e * eff)) by (field; repeat split; lra).
    rewrite Y. field. repeat split; lra.
Qed.

(** ** C89 *)
(** Rated power up to the flat-rating altitude; above it, the share of the rated power given by Gagg and Ferrar's law for the density at
    the height above that altitude. *)
Theorem C89_available : forall dens p h delta,
  (h < p_flat p -> available dens p h delta = p_sls p) /\
  (forall z, 0 <= z -> available dens p (p_flat p + z) delta = p_sls p * (dens z delta / dens 0 0 - 117/1000) / (883/1000)).
Proof.
  intros dens p h d. split.
  - intro H. unfold available. cbv zeta. destruct (Rltb h (p_flat p)) eqn:A; [reflexivity|apply Rltb_false in A; lra].
  - intros z H. unfold available. cbv zeta. replace (p_flat p + z - p_flat p) with z by ring.
    destruct (Rltb z 0) eqn:A; [apply Rltb_true in A; lra|]. destruct (Rltb (p_flat p + z) (p_flat p)) eqn:B; [apply Rltb_true in B; lra|]. reflexivity.
Qed.
(** never more than rated, and less the thinner the air *)
Theorem C89_altitude : forall dens p h h' delta, 0 < p_sls p -> 0 < dens 0 0 ->
  (forall z, 0 <= z -> dens z delta <= dens 0 0) ->
  available dens p h delta <= p_sls p /\
  (p_flat p <= h -> h < h' -> dens (h' - p_flat p) delta < dens (h - p_flat p) delta -> available dens p h' delta < available dens p h delta).
Proof.
  intros dens p h h' d P D T.
  assert (X : forall z, 0 <= z -> dens z d / dens 0 0 <= 1).
  { intros z Z. apply Rmult_le_reg_r with (dens 0 0); [exact D|]. unfold Rdiv. rewrite Rmult_assoc, Rinv_l by lra. specialize (T z Z). lra. }
  split.
  - destruct (Rlt_le_dec h (p_flat p)) as [L|L]; [rewrite (proj1 (C89_available dens p h d) L); lra|].
    replace h with (p_flat p + (h - p_flat p)) by ring. rewrite (proj2 (C89_available dens p h d)) by lra.
    specialize (X (h - p_flat p) ltac:(lra)). nra.
  - intros H1 H2 H3. replace h with (p_flat p + (h - p_flat p)) at 1 by ring. replace h' with (p_flat p + (h' - p_flat p)) at 1 by ring.
    replace h with (p_flat p + (h - p_flat p)) at 2 by ring.
    rewrite !(proj2 (C89_available dens p h d)) by lra.
    assert (dens (h' - p_flat p) d / dens 0 0 < dens (h - p_flat p) d / dens 0 0).
    { apply Rmult_lt_compat_r; [apply Rinv_0_lt_compat; exact D|exact H3]. }
    nra.
Qed.
Example altitude_case : let dens := fun z d => 1225/1000 * exp (- z / 9000) in 0 < dens 0 0 /\ (forall z, 0 <= z -> dens z 0 <= dens 0 0) /\
  dens (3000 - 1000) 0 < dens (2000 - 1000) 0.
Proof.
  cbv zeta. split; [|split].
  - apply Rmult_lt_0_compat; [lra|apply exp_pos].
  - intros z Z. apply Rmult_le_compat_l; [lra|]. destruct Z as [Z| <-]; [left; apply exp_increasing; lra|right; reflexivity].
  - apply Rmult_lt_compat_l; [lra|]. apply exp_increasing. lra.
Qed.
(** power is throttle times the power available, torque times speed is power, fuel flow is power times specific consumption *)
Theorem C89_power : forall dens p h delta throttle speed, speed <> 0 -> 0 <= throttle -> 0 <= available dens p h delta -> 0 <= p_psfc p ->
  let '(power, fuel, torque) := piston_power dens p h delta throttle speed in
  power = throttle * available dens p h delta /\ torque * speed = power /\ fuel = power * (p_psfc p * lb_hp_hr).
Proof.
  intros dens p h d t sp S T A B. unfold piston_power. cbv zeta.
  assert (X : 0 <= available dens p h d * t) by (apply Rmult_le_pos; assumption).
  destruct (Rltb (available dens p h d * t) 0) eqn:L; [apply Rltb_true in L; lra|].
  split; [ring|]. split; [field; exact S|]. apply Rmax_left. assert (0 < lb_hp_hr) by (unfold lb_hp_hr; lra).
  repeat apply Rmult_le_pos; try assumption; lra.
Qed.
(** throttle from power is the inverse, with the same fuel flow *)
Theorem C89_inverse : forall dens p h delta, 0 < available dens p h delta ->
  (forall throttle speed, 0 <= throttle ->
     let '(power, fuel, _) := piston_power dens p h delta throttle speed in piston_throttle dens p h delta power = (throttle, fuel)) /\
  (forall power speed, 0 <= power ->
     let (throttle, fuel) := piston_throttle dens p h delta power in
     fst (piston_power dens p h delta throttle speed) = (power, fuel)).
Proof.
  intros dens p h d A. split.
  - intros t sp T. unfold piston_power, piston_throttle. cbv zeta. set (a := available dens p h d) in *.
    assert (X : 0 <= a * t) by (apply Rmult_le_pos; lra). destruct (Rltb (a * t) 0) eqn:L; [apply Rltb_true in L; lra|]. rewrite L.
    f_equal. field. lra.
  - intros w sp T. unfold piston_power, piston_throttle. cbv zeta. cbn [fst]. set (a := available dens p h d) in *.
    replace (a * (w / a)) with w by (field; lra). destruct (Rltb w 0) eqn:L; [apply Rltb_true in L; lra|reflexivity].
Qed.
(** Where the air has less than 0.117 of sea-level density the available power is negative: no throttle gives any power, and the
    throttle reported for a demand is negative. *)
Theorem C89_ceiling_refuted : forall dens p z delta, 0 <= z -> 0 < p_sls p -> 0 < dens 0 0 -> dens z delta < 117/1000 * dens 0 0 ->
  let h := p_flat p + z in
  available dens p h delta < 0 /\
  (forall throttle speed, 0 <= throttle -> fst (fst (piston_power dens p h delta throttle speed)) = 0) /\
  (forall power, 0 < power -> fst (piston_throttle dens p h delta power) < 0).
Proof.
  intros dens p z d Z P D T h.
  assert (N : available dens p h d < 0).
  { unfold h. rewrite (proj2 (C89_available dens p 0 d) z Z).
    assert (dens z d / dens 0 0 < 117/1000).
    { apply Rmult_lt_reg_r with (dens 0 0); [exact D|]. unfold Rdiv. rewrite Rmult_assoc, Rinv_l by lra. lra. }
    nra. }
  split; [exact N|]. split.
  - intros t sp T0. unfold piston_power. cbv beta zeta. cbn [fst]. destruct (Rltb _ 0) eqn:L; [reflexivity|]. apply Rltb_false in L. nra.
  - intros w W. unfold piston_throttle. cbn [fst]. apply Rmult_pos_neg; [exact W|]. apply Rinv_lt_0_compat. exact N.
Qed.
Example ceiling_case : let dens := fun z d => 1225/1000 * exp (- z / 9000) in 0 < dens 0 0 /\ dens 27000 0 < 117/1000 * dens 0 0.
Proof.
  cbv beta zeta. split; [apply Rmult_lt_0_compat; [lra|apply exp_pos]|]. replace (- 0 / 9000) with 0 by lra. rewrite exp_0.
  replace (- (27000) / 9000) with (- (3)) by lra. rewrite exp_Ropp.
  assert (1 + 3 + 5 < exp 3).
  { replace 3 with (1 + (1 + 1)) at 2 by ring. rewrite !exp_plus. pose proof (exp_ineq1 1 ltac:(lra)).
    assert (2 * 2 < exp 1 * exp 1) by nra.
    pose proof (exp_ineq1 (1/2) ltac:(lra)). assert (exp 1 = exp (1/2) * exp (1/2)) by (rewrite <- exp_plus; f_equal; lra).
    assert (9/4 < exp 1) by nra. nra. }
  assert (/ exp 3 < / 9) by (apply Rinv_lt_contravar; [apply Rmult_lt_0_compat; [lra|apply exp_pos]|lra]).
  lra.
Qed.
(** With the standard atmosphere the power is continuous at the flat-rating altitude on a standard day, and jumps on any other: there
    it is the rated power times (288.15 / (288.15 + d) - 0.117) / 0.883, more than rated on a cold day. *)
Definition us_density (z d : R) : R := rho (value_at US_1976 d false z).
Theorem C89_standard : forall p d, -186 < d ->
  available us_density p (p_flat p) d = p_sls p * (28815/100 / (28815/100 + d) - 117/1000) / (883/1000).
Proof.
  intros p d D. replace (p_flat p) with (p_flat p + 0) at 1 by ring. rewrite (proj2 (C89_available us_density p 0 d) 0 (Rle_refl 0)).
  assert (F : forall x, -186 < x -> Forall (fun b => 0 < bT b + x) (a_breaks US_1976)).
  { intros x X. unfold US_1976, breaks_1976. cbn [a_breaks]. repeat constructor; cbn [bT]; lra. }
  assert (Z : geopotential (a_rad US_1976) 0 = 0) by (unfold geopotential, Rdiv; ring).
  assert (B : In (Brk 0 (28815 / 100) 101325) (a_breaks US_1976)) by (cbn; tauto).
  assert (T : forall x, temperature (value_at US_1976 x false 0) = 28815/100 + x).
  { intro x. exact (proj1 (C36_breaks US_1976 x false _ 0 C36_table B Z)). }
  destruct (C36_gas US_1976 d false 0 C36_table (F d D)) as (G1 & _). destruct (C36_gas US_1976 0 false 0 C36_table (F 0 ltac:(lra))) as (G0 & _).
  destruct (C36_positive US_1976 d false 0 C36_table (F d D)) as (P1 & _ & R1 & _). destruct (C36_positive US_1976 0 false 0 C36_table (F 0 ltac:(lra))) as (P0 & _ & R0 & _).
  rewrite (proj1 (C36_deviation US_1976 d 0 false 0 C36_table)) in G1. rewrite T in G0, G1. fold (us_density 0 d) in G1, R1. fold (us_density 0 0) in G0, R0.
  rewrite G0 in G1. pose proof (sn_R _ C36_table) as RR. cbv zeta in *.
  assert (E : us_density 0 d / us_density 0 0 = 28815/100 / (28815/100 + d)).
  { apply Rmult_eq_reg_r with (us_density 0 0 * (28815/100 + d) * a_R US_1976).
    - replace (us_density 0 d / us_density 0 0 * (us_density 0 0 * (28815/100 + d) * a_R US_1976)) with (us_density 0 d * a_R US_1976 * (28815/100 + d)) by (field; lra).
      rewrite <- G1. field. lra.
    - assert (0 < us_density 0 0 * (28815/100 + d) * a_R US_1976) by (apply Rmult_lt_0_compat; [apply Rmult_lt_0_compat; lra|exact RR]). lra. }
  rewrite E. reflexivity.
Qed.
Theorem C89_jump_refuted : forall p d, -186 < d -> 0 < p_sls p ->
  (d = 0 <-> available us_density p (p_flat p) d = p_sls p) /\ (d < 0 -> p_sls p < available us_density p (p_flat p) d).
Proof.
  intros p d D P. rewrite C89_standard by assumption. set (x := 28815/100 / (28815/100 + d)).
  assert (X : x * (28815/100 + d) = 28815/100) by (unfold x; field; lra). split; [split|].
  - intros ->. assert (x = 1) by (unfold x; field). rewrite H. field.
  - intro E. assert (x = 1) by nra. rewrite H in X. lra.
  - intro N. assert (1 < x) by nra. nra.
Qed.


(** ** C90 *)
(** A network with one motor and propeller: the controller sets the motor voltage, the motor the speed, the propeller the thrust (times
    the throttle above full throttle); the battery delivers the motor's current through the controller, and the rest. *)
Theorem C90_single : forall u eff nominal extra rho volts throttle,
  let v := esc_voltage throttle volts in
  let w := fst (motor_omega (u_motor u) rho (u_cp u) v) in
  let F := fst (fst (u_spin u w)) in
  let i := fst (motor_current (u_motor u) v w) * throttle / eff in
  exists s, battery_propeller false 1 [u] eff nominal extra rho volts throttle = Ok s /\
  (throttle <= 1 -> s_thrust s = F) /\ (1 < throttle -> s_thrust s = (fx F * throttle, fy F * throttle, fz F * throttle)) /\
  s_current s = i + extra / nominal /\ s_power s = - (volts * i + extra).
Proof.
  intros u eff nominal extra rho volts th v w F i. unfold battery_propeller, run_units. cbn [take_units bind fold_left]. rewrite one_unit_is.
  unfold unit_force, unit_speed, unit_current. fold v. fold w. fold F. cbn [t_F t_i start]. unfold esc_current.
  eexists. split; [reflexivity|]. cbn [s_thrust s_current s_power]. unfold overv. split; [|split; [|split]].
  - intro H. destruct (Rltb 1 th) eqn:L; [apply Rltb_true in L; lra|]. destruct F as [[a b] c]. cbn. apply triple_eq; ring.
  - intro H. destruct (Rltb 1 th) eqn:L; [|apply Rltb_false in L; lra]. destruct F as [[a b] c]. cbn. apply triple_eq; ring.
  - unfold unit_speed in *. fold w. unfold i. f_equal. f_equal. ring.
  - unfold unit_speed in *. fold w. unfold i. f_equal. f_equal. f_equal. f_equal. ring.
Qed.
(** a network of several is the sum of networks of one, and the first [n] units must be there *)
Theorem C90_sum : forall n us eff nominal extra rho volts throttle, eff <> 0 ->
  let net := battery_propeller false n us eff nominal extra rho volts throttle in
  let one := fun u => battery_propeller false 1 [u] eff nominal 0 rho volts throttle in
  ((List.length us < n)%nat -> net = Err IndexError) /\
  ((n <= List.length us)%nat ->
   (exists s, net = Ok s) /\
   fx (thrust_of net) = sum_over (fun u => fx (thrust_of (one u))) (firstn n us) /\
   fy (thrust_of net) = sum_over (fun u => fy (thrust_of (one u))) (firstn n us) /\
   fz (thrust_of net) = sum_over (fun u => fz (thrust_of (one u))) (firstn n us) /\
   current_of net = sum_over (fun u => current_of (one u)) (firstn n us) + extra / nominal /\
   power_of net = sum_over (fun u => power_of (one u)) (firstn n us) - extra).
Proof.
  intros n us eff nominal extra rho volts th EF net one. split.
  - intro H. unfold net, battery_propeller, run_units. destruct (take_units n us) as [l|e] eqn:T.
    + apply take_ok in T. lia.
    + apply take_err in T. destruct T as [-> _]. reflexivity.
  - intro H. unfold net, battery_propeller, run_units. rewrite (proj2 (take_ok n us (firstn n us)) (conj H eq_refl)). cbn [bind].
    destruct (fold_units rho (esc_voltage th volts) th 1 (firstn n us) start) as (A & _ & C & _).
    set (t := fold_left _ _ _) in *. cbv zeta in A, C. split; [unfold esc_current; eexists; reflexivity|].
    set (v := esc_voltage th volts) in *.
    assert (O1 : forall u, thrust_of (one u) = unit_force rho v th u).
    { intro u. unfold one, battery_propeller, run_units. cbn [take_units bind fold_left]. rewrite one_unit_is. fold v. cbn [t_F t_i start]. unfold esc_current. cbn [thrust_of s_thrust].
      destruct (unit_force rho v th u) as [[a b] c]. cbn. apply triple_eq; ring. }
    assert (O2 : forall u, current_of (one u) = unit_current rho v u * th / eff).
    { intro u. unfold one, battery_propeller, run_units. cbn [take_units bind fold_left]. rewrite one_unit_is. fold v. cbn [t_F t_i start]. unfold esc_current. cbn [current_of s_current]. unfold Rdiv. ring. }
    assert (O3 : forall u, power_of (one u) = - (volts * (unit_current rho v u * th / eff))).
    { intro u. unfold one, battery_propeller, run_units. cbn [take_units bind fold_left]. rewrite one_unit_is. fold v. cbn [t_F t_i start]. unfold esc_current. cbn [power_of s_power]. unfold Rdiv. ring. }
    assert (SE : forall f g : unit_ -> R, (forall u, f u = g u) -> forall l, sum_over f l = sum_over g l).
    { intros f g E. induction l as [|x l IH]; [reflexivity|]. cbn. rewrite E, IH. reflexivity. }
    unfold esc_current. cbn [thrust_of current_of power_of s_thrust s_current s_power]. rewrite A, C. cbn [t_F t_i start].
    unfold sum_force. cbn [vscale vadd fx fy fz fst snd].
    rewrite (SE _ (fun u => fx (unit_force rho v th u)) (fun u => f_equal fx (O1 u))).
    rewrite (SE _ (fun u => fy (unit_force rho v th u)) (fun u => f_equal fy (O1 u))).
    rewrite (SE _ (fun u => fz (unit_force rho v th u)) (fun u => f_equal fz (O1 u))).
    rewrite (SE (fun u => current_of (one u)) (fun u => (th / eff) * unit_current rho v u)) by (intro u; rewrite O2; field; exact EF).
    rewrite (SE (fun u => power_of (one u)) (fun u => (- volts * th / eff) * unit_current rho v u)) by (intro u; rewrite O3; field; exact EF).
    rewrite !sum_scale. unfold Rdiv. repeat split; ring.
Qed.
(** declaring the propellers identical gives what listing the first one [n] times gives *)
Theorem C90_identical : forall n u rest eff nominal extra rho volts throttle,
  let a := battery_propeller true n (u :: rest) eff nominal extra rho volts throttle in
  let b := battery_propeller false n (repeat u n) eff nominal extra rho volts throttle in
  thrust_of a = thrust_of b /\ current_of a = current_of b /\ power_of a = power_of b.
Proof.
  intros n u rest eff nominal extra rho volts th a b. unfold a, b, battery_propeller, run_units.
  rewrite (proj2 (take_ok n (repeat u n) (repeat u n))) by (rewrite repeat_length, firstn_repeat; split; [lia|reflexivity]).
  cbn [take_units bind]. set (v := esc_voltage th volts).
  destruct (fold_units rho v th (INR n) [u] start) as (A & _ & C & _). destruct (fold_units rho v th 1 (repeat u n) start) as (A' & _ & C' & _).
  cbv zeta in A, C, A', C'. unfold esc_current. cbn [bind thrust_of current_of power_of s_thrust s_current s_power].
  rewrite A, C, A', C'. unfold sum_force. rewrite !sum_repeat. cbn [sum_over vscale vadd t_F t_i start]. rewrite !Rplus_0_r, !Rplus_0_l, !Rmult_1_l.
  repeat split.
Qed.
Example networks_case : exists u1 u2 : unit_, works (u_motor u1) /\ works (u_motor u2) /\ (2 <= List.length [u1; u2])%nat.
Proof. exists (Unit (Motor 1 1 1 1 1 0 1) 1 (fun w => ((w, 0, 0), 0, 0))), (Unit (Motor 1 1 2 1 1 0 1) 1 (fun w => ((w, 0, 0), 0, 0))). cbn. unfold works. cbn. lra || (split; [lra|split; [lra|lia]]). Qed.
(** battery power is battery voltage times battery current exactly when avionics and payload are fed at the nominal voltage, or draw nothing *)
Theorem C90_battery : forall identical n us eff nominal extra rho volts throttle s, nominal <> 0 ->
  battery_propeller identical n us eff nominal extra rho volts throttle = Ok s ->
  (- s_power s = volts * s_current s <-> extra = 0 \/ volts = nominal).
Proof.
  intros idt n us eff nominal extra rho volts th s N H. unfold battery_propeller in H. destruct (run_units _ _ _ _ _ _) as [t|e]; [|discriminate H].
  unfold esc_current in H. cbn [bind] in H. injection H as <-. cbn [s_power s_current]. split.
  - intro E. assert (F : extra * (volts - nominal) / nominal = 0).
    { replace (extra * (volts - nominal) / nominal) with (volts * (extra / nominal) - extra) by (field; exact N). lra. }
    apply Rmult_integral in F. destruct F as [F|F]; [|exfalso; exact (Rinv_neq_0_compat _ N F)]. apply Rmult_integral in F. destruct F; [left|right]; lra.
  - set (i := t_i t * th / eff). intros [-> | ->]; field; exact N.
Qed.
(** the efficiency of the electronics compares the power of the last propeller evaluated, not of all, with the battery power *)
Theorem C90_efficiency_refuted : forall u n eff nominal extra rho volts throttle s,
  battery_propeller true n [u] eff nominal extra rho volts throttle = Ok s -> s_power s <> 0 ->
  let v := esc_voltage throttle volts in
  let P := snd (u_spin u (fst (motor_omega (u_motor u) rho (u_cp u) v))) in
  throttle <= 1 -> s_efficiency s * - s_power s = P /\ t_P (s_totals s) = INR n * P.
Proof.
  intros u n eff nominal extra rho volts th s H Z v P T. unfold battery_propeller, run_units in H. cbn [take_units bind fold_left] in H. rewrite one_unit_is in H.
  unfold esc_current in H. cbn [t_P t_i t_F t_last start] in H. fold v in H. injection H as <-. cbn [s_power s_efficiency s_totals t_P] in *.
  assert (E : unit_power rho v th u = P). { unfold unit_power, over. destruct (Rltb 1 th) eqn:L; [apply Rltb_true in L; lra|reflexivity]. }
  rewrite E. match type of Z with ?p <> 0 => generalize dependent p end. intros pw Z. split; [field; exact Z|ring].
Qed.
(** the thrust stored for each propeller is the thrust of all propellers up to it *)
Theorem C90_columns_refuted : exists u1 u2 s,
  battery_propeller false 2 [u1; u2] 1 1 0 1 1 1 = Ok s /\
  thrust_of (battery_propeller false 1 [u2] 1 1 0 1 1 1) = (1, 0, 0) /\ map k_thrust (t_columns (s_totals s)) = [1; 2].
Proof.
  set (u := Unit (Motor 1 1 1 1 1 0 1) 1 (fun _ => ((1, 0, 0), 0, 0))). exists u, u. eexists.
  assert (L : Rltb 1 1 = false) by (destruct (Rltb 1 1) eqn:A; [apply Rltb_true in A; lra|reflexivity]).
  unfold battery_propeller, run_units. cbn [take_units bind fold_left]. rewrite !one_unit_is. unfold esc_current. split; [reflexivity|].
  assert (F : forall v, unit_force 1 v 1 u = (1, 0, 0)) by (intro v; unfold unit_force, overv, u; cbn [u_spin fst]; rewrite L; reflexivity).
  cbn [t_F t_columns start s_totals s_thrust thrust_of map k_thrust app]. rewrite !F. split; [cbn; apply triple_eq; ring|].
  f_equal; [|f_equal]; cbn [vadd vscale norm3].
  - replace ((0 + 1 * 1) ^ 2 + (0 + 1 * 0) ^ 2 + (0 + 1 * 0) ^ 2) with (1 * 1) by ring. apply sqrt_square. lra.
  - replace ((0 + 1 * 1 + 1 * 1) ^ 2 + (0 + 1 * 0 + 1 * 0) ^ 2 + (0 + 1 * 0 + 1 * 0) ^ 2) with (2 * 2) by ring. apply sqrt_square. lra.
Qed.
(** lift and cruise: the two groups add up, and battery power is battery voltage times battery current *)
Theorem C90_lift_cruise : forall idp idl np nl props lifts effp effl extra rho volts tp tl s, volts <> 0 ->
  lift_cruise idp idl np nl props lifts effp effl extra rho volts tp tl = Ok s ->
  let p := battery_propeller idp np props effp volts 0 rho volts tp in
  let l := battery_propeller idl nl lifts effl volts 0 rho volts tl in
  fx (s_thrust s) = fx (thrust_of p) + fx (thrust_of l) /\ fy (s_thrust s) = fy (thrust_of p) + fy (thrust_of l) /\ fz (s_thrust s) = fz (thrust_of p) + fz (thrust_of l) /\
  s_current s = current_of p + current_of l + extra / volts /\ - s_power s = volts * s_current s.
Proof.
  intros idp idl np nl props lifts effp effl extra rho volts tp tl s V H p l. unfold p, l, battery_propeller. unfold lift_cruise in H.
  destruct (run_units idp np props rho (esc_voltage tp volts) tp) as [a|e]; [|discriminate H]. cbn [bind] in H.
  destruct (run_units idl nl lifts rho (esc_voltage tl volts) tl) as [b|e]; [|discriminate H]. cbn [bind] in H. unfold esc_current in *.
  cbn [fst] in H. injection H as <-. cbn [bind thrust_of current_of s_thrust s_current s_power].
  destruct (t_F a) as [[x y] z]. destruct (t_F b) as [[x' y'] z']. cbn. repeat split; unfold Rdiv; ring.
Qed.
(** on charge no thrust is made, and the power into the battery is its voltage times the charging current *)
Theorem C90_charging : forall current voltage series parallel, 0 < current -> 0 < voltage -> (0 < series)%nat -> (0 < parallel)%nat ->
  let s := charging current voltage series parallel in
  s_thrust s = (0, 0, 0) /\ s_current s = - (INR parallel * current) /\ s_power s = (INR series * voltage) * (INR parallel * current) /\ 0 < s_power s /\ s_current s < 0.
Proof.
  intros c v s p A B C D. cbv zeta. unfold charging. cbn [s_thrust s_current s_power].
  apply lt_INR in C. apply lt_INR in D. cbn in C, D. repeat split; try ring.
  - replace (- (- c * INR p) * (v * INR s)) with ((c * INR p) * (v * INR s)) by ring. repeat apply Rmult_lt_0_compat; assumption.
  - assert (0 < c * INR p) by (apply Rmult_lt_0_compat; assumption). lra.
Qed.
(** piston engines: thrust and fuel flow are the sums over the first [n] engines with their propellers *)
Theorem C90_piston : forall dens n us h delta throttle speed, (n <= List.length us)%nat ->
  let F := fun u => fst (fst (x_spin u speed)) in
  exists T fuel, ic_propeller dens false n us h delta throttle speed = Ok (T, fuel) /\
  fuel = sum_over (fun u => snd (fst (piston_power dens (x_engine u) h delta throttle speed))) (firstn n us) /\
  (throttle <= 1 -> fx T = sum_over (fun u => fx (F u)) (firstn n us) /\ fy T = sum_over (fun u => fy (F u)) (firstn n us) /\ fz T = sum_over (fun u => fz (F u)) (firstn n us)).
Proof.
  intros dens n us h d th sp H F. unfold ic_propeller. rewrite take_ic_ok by exact H. cbn [bind]. rewrite fold_ic.
  do 2 eexists. split; [reflexivity|]. cbn [fst snd]. split; [unfold ic_fuel; ring|]. intro T. unfold ic_force, overv.
  destruct (Rltb 1 th) eqn:L; [apply Rltb_true in L; lra|]. unfold F. cbn [vadd vscale fx fy fz fst snd]. repeat split; ring.
Qed.
Theorem C90_piston_identical : forall dens n u rest h delta throttle speed,
  ic_propeller dens true n (u :: rest) h delta throttle speed = ic_propeller dens false n (repeat u n) h delta throttle speed.
Proof.
  intros. unfold ic_propeller. rewrite (take_ic_ok n) by (rewrite repeat_length; lia). rewrite firstn_repeat. cbn [take_ic bind]. rewrite !fold_ic, !sum_repeat.
  cbn [sum_over vadd vscale fst snd]. f_equal. f_equal; [apply triple_eq; ring|].
  ring.
Qed.
(** at constant speed the fuel flow is that of all engines, the thrust that of the last propeller alone *)
Theorem C90_constant_speed_refuted : forall dens n u us h delta speed, (n <= List.length us)%nat ->
  exists fuel, ic_constant_speed dens false (S n) (u :: us) h delta speed =
    Ok (fst (fst (x_spin (last (u :: firstn n us) u) speed)), fuel) /\
  fuel = sum_over (fun u => snd (piston_throttle dens (x_engine u) h delta (snd (x_spin u speed)))) (u :: firstn n us).
Proof.
  intros dens n u us h d sp H. unfold ic_constant_speed. rewrite (take_ic_ok (S n)) by (cbn; lia). cbn [bind firstn].
  destruct (fold_cs dens h d sp 1 (u :: firstn n us) (None, (0,0,0), 0)) as [A B]. cbv zeta in A, B.
  destruct (fold_left _ _ _) as [[o f] m]. cbn [fst snd] in A, B. subst o m. eexists.
  assert (LD : forall (x : ic_unit) (l : list ic_unit) d1 d2, last (x :: l) d1 = last (x :: l) d2).
  { intros x l d1 d2. revert x. induction l as [|y l IH]; intro x; [reflexivity|]. cbn [last]. exact (IH y). }
  split; [rewrite (LD u (firstn n us) _ u); reflexivity|]. unfold cs_fuel. ring.
Qed.
Example constant_speed_case : let u := ICUnit (Piston 1 0 1) (fun _ => ((1, 0, 0), 0, 1)) in
  exists fuel, ic_constant_speed (fun _ _ => 1) false 2 [u; u] 0 0 100 = Ok ((1, 0, 0), fuel) /\ fuel = 2 * lb_hp_hr.
Proof.
  intro u. destruct (C90_constant_speed_refuted (fun _ _ => 1) 1 u [u] 0 0 100 ltac:(cbn; lia)) as (f & A & B). exists f. split; [exact A|].
  rewrite B. unfold piston_throttle. cbn. destruct (Rltb 1 0) eqn:L; [apply Rltb_true in L; lra|]. rewrite Rmax_left by (unfold lb_hp_hr; lra). ring.
Qed.
(** the solar network: what goes into the battery is what the tracker takes from the panel less avionics, payload and the power the
    controller draws at the battery's voltage *)
Theorem C90_solar : forall identical n us eff mppt volts flux area peff pav ppay rho throttle F level,
  solar identical n us eff mppt volts flux area peff pav ppay rho throttle = Ok (F, level) ->
  let b := battery_propeller identical n us eff volts 0 rho volts throttle in
  F = thrust_of b /\ level = flux * area * peff * mppt - pav - ppay + power_of b.
Proof.
  intros idt n us eff mppt volts flux area peff pav ppay rho th F level H b. unfold b, battery_propeller. unfold solar in H.
  destruct (run_units _ _ _ _ _ _) as [t|e]; [|discriminate H]. cbn [bind] in *. unfold esc_current, solar_logic, panel_power in *. cbn [fst] in H.
  injection H as <- <-. cbn [thrust_of power_of s_thrust s_power]. split; [reflexivity|ring].
Qed.

(** ** C91 *)
(** the zenith angle is the angle between the vertical and the direction to the sun, a unit vector *)
Theorem C91_zenith : forall s, let dec := declination (day s) in let lat := k_lat s * PI / 180 in
  cos (zenith s) = sun_up dec lat (hra s) /\ 0 <= zenith s <= PI /\
  (sun_south dec lat (hra s)) ^ 2 + (sun_west dec (hra s)) ^ 2 + (sun_up dec lat (hra s)) ^ 2 = 1 /\
  (sin (zenith s)) ^ 2 = (sun_south dec lat (hra s)) ^ 2 + (sun_west dec (hra s)) ^ 2.
Proof.
  intros s dec lat. pose proof (cos_of_zenith s) as Z. rewrite cos_zenith_is in Z. fold dec lat in Z. split; [exact Z|].
  split; [split; apply acos_bound|]. pose proof (sun_unit dec lat (hra s)) as U. split; [exact U|].
  pose proof (sin2_cos2 (zenith s)) as T. unfold Rsqr in T. rewrite Z in T. nra.
Qed.
(** the sun crosses the sky at fifteen degrees an hour; fifteen degrees of longitude are one hour; a day of 86400 seconds starts the next date *)
Theorem C91_clock : forall d0 s0 t lat lon alt phi theta psi,
  (forall dt, Rfloor (t / 86400) = Rfloor ((t + dt) / 86400) ->
     hra (Sky d0 s0 (t + dt) lat lon alt phi theta psi) = hra (Sky d0 s0 t lat lon alt phi theta psi) + (15 * PI / 180) * (dt / 3600)) /\
  hra (Sky d0 s0 t lat (lon + 15) alt phi theta psi) = hra (Sky d0 (s0 + 3600) t lat lon alt phi theta psi) /\
  solar_flux (Sky d0 s0 (t + 86400) lat lon alt phi theta psi) = solar_flux (Sky (d0 + 1) s0 t lat lon alt phi theta psi) /\
  cos (hra (Sky d0 s0 t lat (lon + 360) alt phi theta psi)) = cos (hra (Sky d0 s0 t lat lon alt phi theta psi)).
Proof.
  intros. split; [|split; [|split]].
  - intros dt E. unfold hra, tutc, day. cbn [k_day0 k_sec0 k_time k_lon]. rewrite <- E. field.
  - unfold hra, tutc, day. cbn [k_day0 k_sec0 k_time k_lon]. field.
  - assert (F : Rfloor ((t + 86400) / 86400) = Rfloor (t / 86400) + 1) by (replace ((t + 86400) / 86400) with (t / 86400 + 1) by field; apply floor_succ).
    assert (D : day (Sky d0 s0 (t + 86400) lat lon alt phi theta psi) = day (Sky (d0 + 1) s0 t lat lon alt phi theta psi)).
    { unfold day. cbn [k_day0 k_time]. rewrite F. ring. }
    assert (T : tutc (Sky d0 s0 (t + 86400) lat lon alt phi theta psi) = tutc (Sky (d0 + 1) s0 t lat lon alt phi theta psi)).
    { unfold tutc. cbn [k_sec0 k_time]. rewrite F. ring. }
    apply flux_depends; assumption || reflexivity.
  - unfold hra, tutc, day. cbn [k_day0 k_sec0 k_time k_lon].
    set (x := s0 + (t - 86400 * Rfloor (t / 86400))). set (e := eot _).
    replace (15 * (x / 3600 + (4 * (lon + 360) + e) / 60 - 12) * PI / 180) with (15 * (x / 3600 + (4 * lon + e) / 60 - 12) * PI / 180 + 2 * INR 1 * PI) by (cbn; field).
    apply cos_period.
Qed.
(** on a given day and at a given place the sun is highest at hour angle zero *)
Theorem C91_noon : forall dec lat h, - PI / 2 <= dec <= PI / 2 -> - PI / 2 <= lat <= PI / 2 -> sun_up dec lat h <= sun_up dec lat 0.
Proof.
  intros dec lat h D L. unfold sun_up. rewrite cos_0. assert (0 <= cos lat * cos dec) by (apply Rmult_le_pos; apply cos_ge_0; lra).
  pose proof (COS_bound h). nra.
Qed.
Theorem C91_declination : forall d, Rabs (declination d) <= 2344 / 100 * (PI / 180).
Proof.
  intro d. unfold declination. pose proof (COS_bound (360 / 365 * (d + 10) * PI / 180)). pose proof PI_RGT_0. apply Rabs_le. nra.
Qed.
(** below 9000 m the air mass is the length of the ray's path to the top of the air, in thicknesses of 9 km, for an earth of the given
    radius; it falls with altitude, and there is none at 9000 m and above *)
Theorem C91_path : forall psi alt, 0 <= alt -> let r := 6371000 / 9 in
  (alt < 9000 -> 0 < air_mass psi alt /\ path (r + alt / 9000) (r + 1) psi (air_mass psi alt)) /\
  (9000 <= alt -> air_mass psi alt = 0).
Proof.
  intros psi alt A r. split.
  - intro L. exact (path_is psi alt A L).
  - intro L. unfold air_mass. cbv zeta. destruct (Rltb alt 9000) eqn:B; [apply Rltb_true in B; lra|reflexivity].
Qed.
Theorem C91_higher : forall psi psi' alt alt', 0 <= alt -> alt < alt' -> 0 <= cos psi -> cos psi <= cos psi' ->
  air_mass psi' alt' <= air_mass psi alt /\ direct (air_mass psi alt) <= direct (air_mass psi' alt') <= 1367.
Proof.
  intros psi psi' alt alt' A B C D. assert (M : 0 <= air_mass psi' alt' <= air_mass psi alt) by (apply mass_falls; assumption).
  split; [apply M|]. split; [apply direct_falls; lra|apply direct_bound].
Qed.
(** the radius is taken in metres and the thickness in kilometres: at the horizon the path is more than thirty times too long *)
Theorem C91_path_refuted : forall y, path (6371/9) (6371/9 + 1) (PI / 2) y -> 30 * y < air_mass (PI / 2) 0.
Proof.
  intros y [P E]. rewrite cos_PI2 in E.
  assert (Y : y * y = 2 * (6371/9) + 1) by nra.
  unfold air_mass. cbv zeta. destruct (Rltb 0 9000) eqn:L; [|apply Rltb_false in L; lra]. rewrite cos_PI2.
  match goal with |- _ < sqrt ?x - _ => set (q := x) end. assert (Q : q = 2 * (6371000/9) + 1) by (unfold q; field). rewrite Q.
  rewrite Rmult_0_r, Rminus_0_r. rewrite <- (sqrt_square (30 * y)) by lra. apply sqrt_lt_1_alt. split; nra.
Qed.
(** The flux is never negative and never above the solar constant; with the sun not more than 96.7 degrees from the zenith, and not
    exactly on the horizon, it is the direct radiation times the cosine of the angle between sun and panel, or nothing when the sun is
    behind the panel; beyond, nothing. *)
Theorem C91_flux : forall s, 0 <= k_alt s -> cos (zenith s) <> 0 ->
  0 <= solar_flux s <= 1367 /\
  (zenith s <= 9670995 / 100000 * PI / 180 -> solar_flux s = Rmax 0 (direct (air_mass (zenith s) (k_alt s)) * cos (incidence s))) /\
  (9670995 / 100000 * PI / 180 < zenith s -> solar_flux s = 0).
Proof.
  intros s A N. pose proof (flux_is s A N) as F. set (id := direct (air_mass (zenith s) (k_alt s))) in *.
  assert (I : 0 < id <= 1367) by (unfold id; split; [apply direct_pos|apply direct_bound]).
  assert (Z : 0 <= zenith s) by (unfold zenith; apply acos_bound).
  assert (NP : Rltb (zenith s) (- PI / 2) = false). { destruct (Rltb (zenith s) (- PI / 2)) eqn:L; [|reflexivity]. apply Rltb_true in L. pose proof PI_RGT_0. lra. }
  rewrite NP in F. cbn [orb] in F. pose proof (COS_bound (incidence s)) as CB. split; [|split].
  - rewrite F. destruct (Rltb _ (zenith s)).
    + rewrite Rmax_left by lra. lra.
    + split; [apply Rmax_l|]. apply Rmax_lub; nra.
  - intro H. rewrite F. destruct (Rltb _ (zenith s)) eqn:L; [apply Rltb_true in L; lra|reflexivity].
  - intro H. rewrite F. destruct (Rltb _ (zenith s)) eqn:L; [|apply Rltb_false in L; lra]. apply Rmax_left. lra.
Qed.
(** a level panel: the direct radiation times the height of the sun, nothing at night *)
Theorem C91_level : forall s, 0 <= k_alt s -> cos (zenith s) <> 0 -> k_phi s = 0 -> k_theta s = 0 ->
  solar_flux s = direct (air_mass (zenith s) (k_alt s)) * Rmax 0 (sun_up (declination (day s)) (k_lat s * PI / 180) (hra s)).
Proof.
  intros s A N P T. destruct (C91_flux s A N) as (_ & F1 & F2). pose proof (C91_zenith s) as (Z & B & _). cbv zeta in Z. rewrite <- Z.
  assert (I : incidence s = zenith s).
  { unfold incidence, tilt. rewrite P, T, cos_0. replace (1 * 1) with 1 by ring. rewrite acos_1, sin_0, cos_0.
    replace (cos (zenith s) * 1 + sin (zenith s) * 0 * cos (azimuth s - (k_psi s - PI))) with (cos (zenith s)) by ring. apply acos_cos. exact B. }
  set (id := direct _) in *. assert (0 < id) by apply direct_pos.
  destruct (Rle_lt_dec (zenith s) (9670995 / 100000 * PI / 180)) as [L|L].
  - rewrite (F1 L), I. destruct (Rle_lt_dec 0 (cos (zenith s))).
    + rewrite !Rmax_right; nra.
    + rewrite !Rmax_left; nra.
  - rewrite (F2 L). pose proof PI_RGT_0. assert (cos (zenith s) <= 0). { apply Rlt_le, cos_lt_0; lra. } rewrite Rmax_left by lra. ring.
Qed.
(** The azimuth should have the southward component of the sun's direction, over the sine of the zenith angle, as its cosine; that
    number itself is used as the angle, in radians.  So with the sun on the northern side it is always wrong. *)
Theorem C91_azimuth_refuted : forall s, let dec := declination (day s) in let lat := k_lat s * PI / 180 in
  hra s <> 0 -> sin (zenith s) <> 0 -> cos lat <> 0 ->
  cos (azimuth s) = cos (sun_south dec lat (hra s) / sin (zenith s)) /\
  (sun_south dec lat (hra s) <= 0 -> sin (zenith s) * cos (azimuth s) <> sun_south dec lat (hra s)).
Proof.
  intros s dec lat H1 H2 H3. pose proof (C91_zenith s) as (Z & B & U & S2). cbv zeta in Z, U, S2. fold dec lat in Z, U, S2.
  set (x := sun_south dec lat (hra s) / sin (zenith s)).
  assert (A : cos (azimuth s) = cos x).
  { unfold azimuth. fold dec. replace (k_lat s * deg) with lat by (unfold lat, deg; field). rewrite Z.
    replace ((sun_up dec lat (hra s) * sin lat - sin dec) / (sin (zenith s) * cos lat)) with x.
    - assert (CA : cos (Rabs x) = cos x) by (unfold Rabs; destruct (Rcase_abs x); [apply cos_neg|reflexivity]).
      unfold sign. destruct (Rltb (hra s) 0) eqn:Q; [|destruct (Rltb 0 (hra s)) eqn:P].
      + rewrite <- CA, <- (cos_neg (Rabs x)). f_equal. ring.
      + rewrite Rmult_1_l. exact CA.
      + apply Rltb_false in P. apply Rltb_false in Q. lra.
    - unfold x, sun_up, sun_south. pose proof (sin2_cos2 lat) as T. unfold Rsqr in T.
      assert (E : (sin lat * sin dec + cos lat * cos dec * cos (hra s)) * sin lat - sin dec = cos lat * (sin lat * cos dec * cos (hra s) - cos lat * sin dec)).
      { replace (sin dec) with ((sin lat * sin lat + cos lat * cos lat) * sin dec) at 2 by (rewrite T; ring). ring. }
      rewrite E. field. split; assumption. }
  split; [exact A|]. intros N E. rewrite A in E.
  assert (SP : 0 < sin (zenith s)). { assert (0 <= sin (zenith s)) by (apply sin_ge_0; tauto). lra. }
  assert (X : -1 <= x <= 1).
  { assert (x * x <= 1). { unfold x. apply Rmult_le_reg_r with (sin (zenith s) * sin (zenith s)); [nra|].
      replace (sun_south dec lat (hra s) / sin (zenith s) * (sun_south dec lat (hra s) / sin (zenith s)) * (sin (zenith s) * sin (zenith s))) with (sun_south dec lat (hra s) * sun_south dec lat (hra s)) by (field; exact H2).
      nra. }
    split; nra. }
  assert (C : 0 < cos x). { pose proof PI2_3_2. apply cos_gt_0; lra. }
  assert (0 < sin (zenith s) * cos x) by (apply Rmult_lt_0_compat; assumption). lra.
Qed.
(** at the equator, in June, in the afternoon: the sun is up and on the northern side *)
Example afternoon : let s := Sky 172 0 54000 0 0 0 0 0 0 in
  0 <= k_alt s /\ 0 < cos (zenith s) /\ hra s <> 0 /\ sin (zenith s) <> 0 /\ cos (k_lat s * PI / 180) <> 0 /\ sun_south (declination (day s)) (k_lat s * PI / 180) (hra s) < 0.
Proof.
  intro s. pose proof PI_RGT_0 as PP. assert (F : Rfloor (54000 / 86400) = 0).
  { unfold Rfloor. assert (up (54000 / 86400) = 1%Z) by (symmetry; apply tech_up; cbn; lra). rewrite H. reflexivity. }
  assert (D : day s = 172) by (unfold day, s; cbn [k_day0 k_time]; rewrite F; ring).
  assert (T : tutc s = 54000) by (unfold tutc, s; cbn [k_sec0 k_time]; rewrite F; ring).
  assert (L : k_lat s * PI / 180 = 0) by (unfold s; cbn; field).
  assert (E : -20 < eot (day s) < 20).
  { unfold eot. cbv zeta. set (b := 360 / 365 * (day s - 81) * PI / 180). pose proof (COS_bound b). pose proof (SIN_bound b). pose proof (SIN_bound (2 * b)). lra. }
  assert (H : 0 < hra s < PI / 2).
  { unfold hra. rewrite T. replace (k_lon s) with 0 by reflexivity. set (e := eot (day s)) in *.
    replace (15 * (54000 / 3600 + (4 * 0 + e) / 60 - 12) * PI / 180) with (PI * (15 * (3 + e / 60) / 180)) by field.
    replace (PI / 2) with (PI * (1 / 2)) by field. split; [apply Rmult_lt_0_compat; lra|apply Rmult_lt_compat_l; lra]. }
  assert (N : 0 < declination (day s) < PI / 2).
  { rewrite D. unfold declination. set (c := cos (360 / 365 * (172 + 10) * PI / 180)).
    assert (c < 0). { apply cos_lt_0; lra. } assert (-1 <= c) by apply COS_bound.
    replace (- (2344 / 100) * c * PI / 180) with (PI * (2344 / 100 * - c / 180)) by field. replace (PI / 2) with (PI * (1 / 2)) by field.
    split; [apply Rmult_lt_0_compat; lra|apply Rmult_lt_compat_l; lra]. }
  assert (SD : 0 < sin (declination (day s))) by (apply sin_gt_0; lra).
  assert (CD : 0 < cos (declination (day s))) by (apply cos_gt_0; lra).
  assert (CH : 0 < cos (hra s)) by (apply cos_gt_0; lra).
  destruct (C91_zenith s) as (Z & _ & _ & S2). cbv zeta in Z, S2. rewrite L in *.
  assert (SS : sun_south (declination (day s)) 0 (hra s) = - sin (declination (day s))) by (unfold sun_south; rewrite sin_0, cos_0; ring).
  split; [unfold s; cbn; lra|]. split; [rewrite Z; unfold sun_up; rewrite sin_0, cos_0; assert (0 < cos (declination (day s)) * cos (hra s)) by (apply Rmult_lt_0_compat; assumption); lra|].
  split; [lra|]. split; [|split].
  - intro X. rewrite X, SS in S2. pose proof (pow2_ge_0 (sun_west (declination (day s)) (hra s))). nra.
  - rewrite cos_0. lra.
  - rewrite SS. lra.
Qed.

(** ** C92 *)
(** resistance, no-load current and mass from the speed constant, and speed constant from the mass, describe the same motor *)
Theorem C92_scaling : forall kv, 0 < kv ->
  let '(res, io, mass) := size_from_kv kv in
  size_from_mass mass = (res, io, kv) /\ 0 < res /\ 0 < io /\ 0 < mass.
Proof.
  intros kv K. unfold size_from_kv, size_from_mass. cbv zeta. assert (U : 0 < rpm) by (unfold rpm; pose proof PI_RGT_0; lra).
  assert (E : 50 * rpm / (50 * rpm / kv) = kv) by (field; lra). rewrite E. split; [reflexivity|].
  split; [apply Rdiv_lt_0_compat; [|nra]; assert (0 < rpm * rpm) by nra; cbn; lra|]. split; [apply Rdiv_lt_0_compat; [lra|apply exp_pos]|apply Rdiv_lt_0_compat; lra].
Qed.
Theorem C92_scaling_mass : forall mass, 0 < mass ->
  let '(res, io, kv) := size_from_mass mass in size_from_kv kv = (res, io, mass) /\ 0 < kv.
Proof.
  intros mass M. unfold size_from_kv, size_from_mass. cbv zeta. assert (U : 0 < rpm) by (unfold rpm; pose proof PI_RGT_0; lra).
  assert (E : 50 * rpm / (50 * rpm / mass) = mass) by (field; lra). rewrite E. split; [reflexivity|apply Rdiv_lt_0_compat; lra].
Qed.
(** a heavier motor turns slower per volt and has more resistance *)
Theorem C92_heavier : forall a b, 0 < a < b ->
  snd (size_from_mass b) < snd (size_from_mass a) /\ fst (fst (size_from_mass a)) < fst (fst (size_from_mass b)) /\ snd (fst (size_from_mass b)) < snd (fst (size_from_mass a)).
Proof.
  intros a b [A B]. unfold size_from_mass. cbv zeta. cbn [fst snd]. assert (U : 0 < rpm) by (unfold rpm; pose proof PI_RGT_0; lra).
  assert (Rs : forall m, 0 < m -> 60000 * rpm ^ 2 / (50 * rpm / m) ^ 2 = 24 * (m * m)) by (intros m M; field; lra).
  rewrite !Rs by lra. assert (24 * (a * a) < 24 * (b * b)) by nra. assert (0 < 24 * (a * a)) by nra. split; [|split].
  - apply Rmult_lt_compat_l; [lra|]. apply Rinv_lt_contravar; nra.
  - assumption.
  - apply Rmult_lt_compat_l; [lra|]. apply Rinv_lt_contravar; [apply Rmult_lt_0_compat; apply exp_pos|]. apply Rlt_Rpower_l; lra.
Qed.
(** A motor that satisfies the two sizing equations gives, when it is run at the design voltage and speed, the design torque at the design
    efficiency; this is so for a direct drive whose gearbox takes no current. *)
Theorem C92_sized : forall m kv res v w e q, 0 < kv -> 0 < res -> 0 < v -> m_gear m = 1 -> m_exp m * (1 - m_gear_eff m) = 0 -> w / kv < v ->
  sized kv res m v w e q ->
  motor_torque (with_size kv res m) v w = q /\ snd (motor_current (with_size kv res m) v w) = e.
Proof.
  intros m kv res v w e q K Rs V G X L [A B]. rewrite G in A, B. replace (w / 1) with w in A, B by field. unfold constraint_1 in A. unfold constraint_2 in B.
  unfold motor_torque, motor_current, with_size, kv_out, no_load. cbn [m_res m_io m_kv m_gear m_gear_eff m_exp m_radius snd]. rewrite G, X.
  assert (I : 0 < (v - w / kv) / res) by (apply Rdiv_lt_0_compat; lra).
  split.
  - replace (kv / 1) with kv by field. rewrite Rplus_0_r. lra.
  - replace (w * 1 / kv) with (w / kv) by (field; lra). destruct (Rltb _ 0) eqn:N; [apply Rltb_true in N; lra|].
    rewrite Rplus_0_r. set (d := v - w / kv) in *. assert (D : 0 < d) by (unfold d; lra).
    replace (1 - d / res * res / v) with (w / (v * kv)) by (unfold d; field; lra).
    replace (m_io m / (d / res)) with (m_io m * res / d) by (field; lra). lra.
Qed.
Example sized_case : let m := Motor 0 1 0 1 1 0 1 in sized 1 1 m 10 5 (4/10) 4.
Proof. unfold sized, constraint_1, constraint_2. cbn. split; field. Qed.
(** with a gear the two disagree on which way the ratio acts: a motor sized for a reduction of two misses torque and efficiency *)
Theorem C92_geared_refuted : exists m kv res v w e q, works (with_size kv res m) /\ m_exp m = 0 /\ m_gear m = 2 /\ w * m_gear m / kv < v /\
  sized kv res m v w e q /\ motor_torque (with_size kv res m) v w < q /\ snd (motor_current (with_size kv res m) v w) <> e.
Proof.
  exists (Motor 0 0 0 2 1 0 1), 1, 1, 10, 4, (2/10), 8. unfold works, with_size, sized, constraint_1, constraint_2, motor_torque, motor_current, kv_out, no_load. cbn.
  split; [lra|]. split; [reflexivity|]. split; [reflexivity|]. split; [lra|]. split; [split; field|]. split; [lra|].
  destruct (Rltb _ 0) eqn:N; [apply Rltb_true in N; lra|]. lra.
Qed.
(** fuel used carries the power demanded at the cell's efficiency *)
Theorem C92_fuel : forall power energy eff, 0 < energy -> 0 < eff -> fuel_rate power energy eff * energy * eff = power /\
  (forall power', power < power' -> fuel_rate power energy eff < fuel_rate power' energy eff).
Proof.
  intros p en ef A B. unfold fuel_rate. assert (0 < en * ef) by (apply Rmult_lt_0_compat; assumption). split; [field; split; lra|].
  intros p' L. apply Rmult_lt_compat_r; [apply Rinv_0_lt_compat; assumption|exact L].
Qed.
(** a cell's voltage falls with the current density *)
Theorem C92_voltage : forall c i j, 0 <= c_r c -> 0 < c_A c -> 0 <= c_m c -> 0 <= c_n c -> 0 < i < j -> cell_voltage c j < cell_voltage c i.
Proof.
  intros c i j A B C D [E F]. unfold cell_voltage. assert (ln i < ln j) by (apply ln_increasing; assumption).
  assert (c_A c * ln i < c_A c * ln j) by (apply Rmult_lt_compat_l; assumption). assert (c_r c * i <= c_r c * j) by (apply Rmult_le_compat_l; lra).
  assert (exp (c_n c * i) <= exp (c_n c * j)).
  { assert (c_n c * i <= c_n c * j) by (apply Rmult_le_compat_l; lra). destruct H2 as [H2|H2]; [left; apply exp_increasing; exact H2|rewrite H2; lra]. }
  assert (c_m c * exp (c_n c * i) <= c_m c * exp (c_n c * j)) by (apply Rmult_le_compat_l; assumption). lra.
Qed.
(** A stack sized for a power has a whole number of cells, the fewest that reach it; volume and mass grow in proportion to that number. *)
Theorem C92_stack : forall c power i, 0 < cell_power c i ->
  let '(n, most, volume, mass) := size_stack c power i in
  (exists k, n = IZR k) /\ most = n * cell_power c i /\ power <= most /\ (forall k, power <= IZR k * cell_power c i -> n <= IZR k) /\
  volume = n * (c_area c * c_wall c) /\ mass = n * (c_area c * c_wall c * c_density c * c_porosity c).
Proof.
  intros c power i P. unfold size_stack. cbv zeta. set (per := cell_power c i) in *. set (x := power / per).
  assert (X : power = x * per) by (unfold x; field; lra). destruct (archimed (- x)) as [A B].
  assert (N : Rceil x = IZR (1 - up (- x))) by (unfold Rceil; rewrite <- opp_IZR; f_equal; lia).
  split; [eexists; exact N|]. split; [reflexivity|]. split; [|split; [|split; ring]].
  - rewrite X. apply Rmult_le_compat_r; [lra|]. rewrite N, minus_IZR. lra.
  - intros k K. rewrite X in K. apply Rmult_le_reg_r in K; [|exact P]. rewrite N. apply IZR_le.
    assert (IZR (- up (- x)) < IZR k) by (rewrite opp_IZR; lra). apply lt_IZR in H. lia.
Qed.
(** the discharge takes the demand for one cell whatever the number of cells: the reported use is that of the cell's working point,
    not of the stack's share *)
Theorem C92_demand : forall c power energy i, 0 < energy -> 0 < c_ideal c -> 0 < cell_voltage c i -> power = cell_power c i ->
  larminie_rate c power energy i * energy = c_ideal c * (10 * i) * c_area c.
Proof. intros c p en i A B C ->. unfold larminie_rate, cell_power. field. repeat split; lra. Qed.
Print Assumptions C87_balance.
Print Assumptions C87_voltage.
Print Assumptions C87_load.
Print Assumptions C87_low_voltage_refuted.
Print Assumptions C87_low_voltage_cases.
Print Assumptions C87_power.
Print Assumptions C87_inverse.
Print Assumptions C87_gearbox.
Print Assumptions C87_unloaded_refuted.
Print Assumptions C88_motor.
Print Assumptions C88_limit.
Print Assumptions C88_unreachable_refuted.
Print Assumptions C88_ideal_refuted.
Print Assumptions C88_propeller.
Print Assumptions C88_rated.
Print Assumptions C88_controller.
Print Assumptions C88_controller_refuted.
Print Assumptions C88_gears.
Print Assumptions C88_gears_refuted.
Print Assumptions C88_energy.
Print Assumptions C88_energy_refuted.
Print Assumptions C89_available.
Print Assumptions C89_altitude.
Print Assumptions C89_power.
Print Assumptions C89_inverse.
Print Assumptions C89_ceiling_refuted.
Print Assumptions C89_standard.
Print Assumptions C89_jump_refuted.
Print Assumptions C90_single.
Print Assumptions C90_sum.
Print Assumptions C90_identical.
Print Assumptions C90_battery.
Print Assumptions C90_efficiency_refuted.
Print Assumptions C90_columns_refuted.
Print Assumptions C90_lift_cruise.
Print Assumptions C90_charging.
Print Assumptions C90_piston.
Print Assumptions C90_piston_identical.
Print Assumptions C90_constant_speed_refuted.
Print Assumptions C90_solar.
Print Assumptions C91_zenith.
Print Assumptions C91_clock.
Print Assumptions C91_noon.
Print Assumptions C91_declination.
Print Assumptions C91_path.
Print Assumptions C91_higher.
Print Assumptions C91_path_refuted.
Print Assumptions C91_flux.
Print Assumptions C91_level.
Print Assumptions C91_azimuth_refuted.
Print Assumptions C92_scaling.
Print Assumptions C92_scaling_mass.
Print Assumptions C92_heavier.
Print Assumptions C92_sized.
Print Assumptions C92_geared_refuted.
Print Assumptions C92_fuel.
Print Assumptions C92_voltage.
Print Assumptions C92_stack.
Print Assumptions C92_demand.
