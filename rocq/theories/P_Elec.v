(** * Electric and piston power trains: proofs *)
From Coq Require Import Reals List Bool Arith Lia Lra Psatz.
From Verif Require Import PyBase M_Opt P_Opt M_Stab P_Stab M_Modes P_Modes M_Elec S_Elec.
Import ListNotations.
Local Open Scope R_scope.
Local Open Scope list_scope.


Lemma p32_sq : Rpower PI (3 / 2) * Rpower PI (3 / 2) = PI * PI * PI.
Proof.
  rewrite <- Rpower_plus. replace (3 / 2 + 3 / 2) with (INR 3) by (simpl; lra).
  rewrite Rpower_pow by apply PI_RGT_0. simpl. ring.
Qed.
Lemma p32_pos : 0 < Rpower PI (3 / 2).
Proof. apply exp_pos. Qed.
Lemma kv_pos : forall m, works m -> 0 < kv_out m.
Proof. intros m (A & B & C). unfold kv_out. apply Rdiv_lt_0_compat; assumption. Qed.
Lemma kv_shift : forall m x, works m -> x / kv_out m = x * m_gear m / m_kv m.
Proof. intros m x (A & B & C). unfold kv_out. field. split; lra. Qed.

(** the motor is a dc motor behind its gear *)
Lemma torque_dc : forall m v w, works m ->
  dc_motor (m_res m) (no_load m) (m_kv m) v ((v - w / kv_out m) / m_res m) (w * m_gear m) (motor_torque m v w / m_gear m).
Proof.
  intros m v w W. pose proof (kv_shift m w W) as K. destruct W as (A & B & C). unfold dc_motor, motor_torque. rewrite K. unfold kv_out. split.
  - field. split; lra.
  - field. repeat split; lra.
Qed.
Lemma dc_torque : forall m v i w q, works m ->
  dc_motor (m_res m) (no_load m) (m_kv m) v i (w * m_gear m) (q / m_gear m) ->
  q = motor_torque m v w /\ i = (v - w / kv_out m) / m_res m.
Proof.
  intros m v i w q W (E & F). pose proof (kv_shift m w W) as K. destruct W as (A & B & C).
  assert (I : i = (v - w / kv_out m) / m_res m) by (rewrite K, E; field; split; lra).
  split; [|exact I]. unfold motor_torque. rewrite <- I. unfold kv_out.
  replace q with (q / m_gear m * m_gear m) by (field; lra). rewrite F. field. split; lra.
Qed.

Lemma Rmult_pos_neg : forall a b, 0 < a -> b < 0 -> a * b < 0.
Proof. intros. nra. Qed.
Lemma Rmult_neg_pos : forall a b, a < 0 -> 0 < b -> a * b < 0.
Proof. intros. nra. Qed.
Lemma Rmult_neg_neg : forall a b, a < 0 -> b < 0 -> 0 < a * b.
Proof. intros. nra. Qed.
Lemma prod_pos : forall K a r, 0 < K -> 0 < a -> 0 < r -> 0 < 8 * K * (a * a) * r.
Proof. intros. repeat apply Rmult_lt_0_compat; lra. Qed.
(** the quadratic *)
Section Quad.
  Variables (m : motor) (rho cp v : R).
  Hypothesis (W : works m) (Hr : 0 < rho) (Hc : 0 < cp) (HR : 0 < m_radius m).
  Let r5 := m_radius m * m_radius m * m_radius m * m_radius m * m_radius m.
  Let K := cp * rho * r5.
  Let k := 4 * K / PI ^ 3.
  Let a := kv_out m.
  Let r := m_res m.
  Let b := no_load m.
  Lemma r5_pos : 0 < r5.
  Proof. unfold r5. repeat apply Rmult_lt_0_compat; assumption. Qed.
  Lemma K_pos : 0 < K.
  Proof. unfold K. pose proof r5_pos. repeat apply Rmult_lt_0_compat; assumption. Qed.
  Lemma k_pos : 0 < k.
  Proof. unfold k. pose proof K_pos. pose proof PI_RGT_0. apply Rdiv_lt_0_compat; [lra|apply pow_lt; lra]. Qed.
  Lemma prop_is : forall w, prop_torque rho cp (m_radius m) w = k * w ^ 2.
  Proof. intro w. unfold prop_torque, k, K, r5. field. apply PI_neq0. Qed.
  Definition inside_of := PI * PI * PI + 16 * K * (a * a * a) * r * (v - b * r).
  Lemma inside_is : - 16 * cp * no_load m * rho * (kv_out m * kv_out m * kv_out m) * r5 * (m_res m * m_res m)
     + 16 * cp * rho * v * (kv_out m * kv_out m * kv_out m) * r5 * m_res m + PI * PI * PI = inside_of.
  Proof. unfold inside_of, K, a, r, b. ring. Qed.
  Lemma den_is : 8 * cp * (kv_out m * kv_out m) * r5 * m_res m * rho = 8 * K * (a * a) * r.
  Proof. unfold K, a, r. ring. Qed.
  Lemma den_pos : 0 < 8 * K * (a * a) * r.
  Proof. exact (prod_pos _ _ _ K_pos (kv_pos m W) (proj1 W)). Qed.
  Lemma omega_some : 0 <= inside_of ->
    motor_omega m rho cp v = (let w := Rpower PI (3/2) * (sqrt inside_of - Rpower PI (3/2)) / (8 * K * (a * a) * r) in (w, motor_torque m v w)).
  Proof.
    intro H. unfold motor_omega. cbv zeta. fold r5. rewrite inside_is, den_is, half_power_pos by assumption.
    rewrite zero_no by (pose proof den_pos; lra). reflexivity.
  Qed.
  Lemma omega_none : inside_of < 0 -> motor_omega m rho cp v = (0, motor_torque m v 0).
  Proof. intro H. unfold motor_omega. cbv zeta. fold r5. rewrite inside_is, half_power_neg by assumption. reflexivity. Qed.
  (** the root *)
  Lemma root_solves : 0 <= inside_of -> let w := fst (motor_omega m rho cp v) in
    k * w ^ 2 + w / (a * a * r) = (v - b * r) / (a * r) /\ w = Rpower PI (3/2) * (sqrt inside_of - Rpower PI (3/2)) / (8 * K * (a * a) * r).
  Proof.
    intros H w. unfold w. rewrite omega_some by assumption. cbn [fst].
    set (p := Rpower PI (3/2)). set (s := sqrt inside_of). split; [|reflexivity].
    assert (S2 : s * s = inside_of) by (apply sqrt_sqrt; assumption).
    assert (P2 : p * p = PI * PI * PI) by apply p32_sq.
    pose proof K_pos. pose proof (kv_pos m W) as Ha. fold a in Ha. destruct W as (Hres & _). fold r in Hres. pose proof PI_RGT_0.
    unfold k. replace (PI ^ 3) with (p * p) by (rewrite P2; ring).
    assert (0 < p) by apply p32_pos.
    transitivity ((s * s - p * p) / (16 * K * (a * a * (a * a)) * (r * r))).
    - field. repeat split; lra.
    - rewrite S2, P2. unfold inside_of. field. repeat split; lra.
  Qed.
  Lemma torque_balance : forall w, motor_torque m v w = prop_torque rho cp (m_radius m) w <->
    k * w ^ 2 + w / (a * a * r) = (v - b * r) / (a * r).
  Proof.
    intro w. rewrite prop_is. unfold motor_torque. fold a r b.
    pose proof (kv_pos m W) as Ha. fold a in Ha. destruct W as (Hres & _). fold r in Hres.
    assert (E : ((v - w / a) / r - b) / a = (v - b * r) / (a * r) - w / (a * a * r)) by (field; split; lra).
    rewrite E. split; lra.
  Qed.
  Lemma snd_omega : snd (motor_omega m rho cp v) = motor_torque m v (fst (motor_omega m rho cp v)).
  Proof. reflexivity. Qed.
  Lemma lift_inside : b * r <= v -> PI * PI * PI <= inside_of.
  Proof.
    intro H. unfold inside_of. assert (0 <= 16 * K * (a * a * a) * r * (v - b * r)); [|lra].
    pose proof K_pos as X. pose proof (kv_pos m W) as Y. fold a in Y. pose proof (proj1 W) as Z. fold r in Z.
    apply Rmult_le_pos; [|lra]. apply Rmult_le_pos; [|lra]. apply Rmult_le_pos; [lra|]. assert (0 < a * a) by nra. nra.
  Qed.
  Lemma equilibrium : b * r <= v -> let w := fst (motor_omega m rho cp v) in
    0 <= w /\ motor_torque m v w = prop_torque rho cp (m_radius m) w.
  Proof.
    intros H w. pose proof (lift_inside H) as L. assert (P : 0 < PI * PI * PI) by (exact (Rmult_lt_0_compat _ _ (Rmult_lt_0_compat _ _ PI_RGT_0 PI_RGT_0) PI_RGT_0)).
    destruct (root_solves ltac:(lra)) as [E1 E2]. fold w in E1, E2. split.
    - rewrite E2. apply Rmult_le_pos; [|left; apply Rinv_0_lt_compat, den_pos].
      apply Rmult_le_pos; [left; apply p32_pos|]. assert (Rpower PI (3/2) <= sqrt inside_of); [|lra].
      rewrite <- (sqrt_square (Rpower PI (3/2))) by (left; apply p32_pos). apply sqrt_le_1_alt. rewrite p32_sq. exact L.
    - apply torque_balance. exact E1.
  Qed.
  Lemma below : v < b * r -> let w := fst (motor_omega m rho cp v) in
    (w < 0 /\ motor_torque m v w = prop_torque rho cp (m_radius m) w /\ 0 < motor_torque m v w) \/ (w = 0 /\ motor_torque m v w < 0).
  Proof.
    intros H w. pose proof K_pos as X. pose proof (kv_pos m W) as Y. fold a in Y. pose proof (proj1 W) as Z. fold r in Z.
    destruct (Rlt_le_dec inside_of 0) as [N|N].
    - right. unfold w. rewrite omega_none by assumption. cbn [fst]. split; [reflexivity|]. unfold motor_torque. fold a r b.
      assert (E : ((v - 0 / a) / r - b) / a = (v - b * r) / (a * r)) by (field; split; lra). rewrite E.
      apply Rmult_neg_pos; [lra|apply Rinv_0_lt_compat; nra].
    - left. destruct (root_solves N) as [E1 E2]. fold w in E1, E2.
      assert (L : inside_of < PI * PI * PI).
      { unfold inside_of. assert (16 * K * (a * a * a) * r * (v - b * r) < 0); [|lra].
        apply Rmult_pos_neg; [|lra]. assert (0 < a * a * a) by (apply Rmult_lt_0_compat; nra). apply Rmult_lt_0_compat; [nra|lra]. }
      assert (Lw : w < 0).
      { rewrite E2. apply Rmult_neg_pos; [|apply Rinv_0_lt_compat, den_pos]. apply Rmult_pos_neg; [apply p32_pos|].
        assert (sqrt inside_of < Rpower PI (3/2)); [|lra].
        rewrite <- (sqrt_square (Rpower PI (3/2))) by (left; apply p32_pos). apply sqrt_lt_1_alt. rewrite p32_sq. lra. }
      split; [exact Lw|]. assert (T : motor_torque m v w = prop_torque rho cp (m_radius m) w) by (apply torque_balance; exact E1).
      split; [exact T|]. rewrite T, prop_is. apply Rmult_lt_0_compat; [exact k_pos|]. assert (Q : w ^ 2 = w * w) by ring. rewrite Q. apply Rmult_neg_neg; exact Lw.
  Qed.
  Lemma prop_grows : forall x y, 0 <= x -> x <= y -> prop_torque rho cp (m_radius m) x <= prop_torque rho cp (m_radius m) y.
  Proof. intros x y Hx Hy. rewrite !prop_is. pose proof k_pos. apply Rmult_le_compat_l; [lra|]. nra. Qed.
End Quad.
Lemma torque_speed : forall m v x y, works m -> x < y -> motor_torque m v y < motor_torque m v x.
Proof.
  intros m v x y W H. pose proof (kv_pos m W). destruct W as (A & _). unfold motor_torque.
  apply Rmult_lt_compat_r; [apply Rinv_0_lt_compat; assumption|]. apply Rplus_lt_compat_r.
  apply Rmult_lt_compat_r; [apply Rinv_0_lt_compat; assumption|].
  assert (x / kv_out m < y / kv_out m) by (apply Rmult_lt_compat_r; [apply Rinv_0_lt_compat|]; assumption). lra.
Qed.
Lemma torque_voltage : forall m v v' x, works m -> v < v' -> motor_torque m v x < motor_torque m v' x.
Proof.
  intros m v v' x W H. pose proof (kv_pos m W). destruct W as (A & _). unfold motor_torque.
  apply Rmult_lt_compat_r; [apply Rinv_0_lt_compat; assumption|]. apply Rplus_lt_compat_r.
  apply Rmult_lt_compat_r; [apply Rinv_0_lt_compat; assumption|]. lra.
Qed.
Lemma equilibrium_unique : forall m rho cp v x y, works m -> 0 < rho -> 0 < cp -> 0 < m_radius m -> 0 <= x -> 0 <= y ->
  motor_torque m v x = prop_torque rho cp (m_radius m) x -> motor_torque m v y = prop_torque rho cp (m_radius m) y -> x = y.
Proof.
  intros m rho cp v x y W Hr Hc HR Hx Hy Ex Ey. destruct (Rtotal_order x y) as [L|[E|L]]; [|exact E|]; exfalso.
  - pose proof (torque_speed m v x y W L). pose proof (prop_grows m rho cp Hr Hc HR x y Hx ltac:(lra)). lra.
  - pose proof (torque_speed m v y x W L). pose proof (prop_grows m rho cp Hr Hc HR y x Hy ltac:(lra)). lra.
Qed.
Lemma rises : forall m rho cp v v', works m -> 0 < rho -> 0 < cp -> 0 < m_radius m -> no_load m * m_res m <= v -> v < v' ->
  fst (motor_omega m rho cp v) < fst (motor_omega m rho cp v').
Proof.
  intros m rho cp v v' W Hr Hc HR H L. destruct (equilibrium m rho cp v W Hr Hc HR H) as [P E].
  destruct (equilibrium m rho cp v' W Hr Hc HR ltac:(lra)) as [P' E']. cbv zeta in *.
  set (w := fst (motor_omega m rho cp v)) in *. set (w' := fst (motor_omega m rho cp v')) in *.
  destruct (Rlt_le_dec w w') as [Q|Q]; [exact Q|exfalso].
  pose proof (torque_voltage m v v' w' W L). pose proof (prop_grows m rho cp Hr Hc HR w' w P' Q).
  destruct (Rle_lt_or_eq_dec w' w Q) as [Q'|Q']; [pose proof (torque_speed m v w' w W Q'); lra|]. rewrite Q' in *. lra.
Qed.
Lemma falls_load : forall m rho cp cp' v, works m -> 0 < rho -> 0 < cp -> cp < cp' -> 0 < m_radius m -> no_load m * m_res m < v ->
  0 < fst (motor_omega m rho cp' v) < fst (motor_omega m rho cp v).
Proof.
  intros m rho cp cp' v W Hr Hc L HR H. destruct (equilibrium m rho cp v W Hr Hc HR ltac:(lra)) as [P E].
  destruct (equilibrium m rho cp' v W Hr ltac:(lra) HR ltac:(lra)) as [P' E']. cbv zeta in *.
  set (w := fst (motor_omega m rho cp v)) in *. set (w' := fst (motor_omega m rho cp' v)) in *.
  assert (T0 : 0 < motor_torque m v 0).
  { pose proof (kv_pos m W). destruct W as (A & _). unfold motor_torque.
    replace (((v - 0 / kv_out m) / m_res m - no_load m) / kv_out m) with ((v - no_load m * m_res m) / (m_res m * kv_out m)) by (field; split; lra).
    apply Rdiv_lt_0_compat; [lra|apply Rmult_lt_0_compat; lra]. }
  assert (Z : forall c, prop_torque rho c (m_radius m) 0 = 0) by (intro; unfold prop_torque; field; apply PI_neq0).
  assert (W' : 0 < w').
  { destruct (Rle_lt_or_eq_dec 0 w' P') as [Q|Q]; [exact Q|]. rewrite <- Q in E'. rewrite Z in E'. lra. }
  split; [exact W'|]. destruct (Rlt_le_dec w' w) as [Q|Q]; [exact Q|exfalso].
  assert (G : prop_torque rho cp (m_radius m) w' < prop_torque rho cp' (m_radius m) w').
  { unfold prop_torque. apply Rmult_lt_compat_r; [apply Rinv_0_lt_compat; pose proof PI_RGT_0; lra|].
    apply Rmult_lt_compat_r; [apply pow_lt; lra|]. apply Rmult_lt_compat_r; [apply pow_lt, Rdiv_lt_0_compat; [lra|pose proof PI_RGT_0; lra]|].
    apply Rmult_lt_compat_r; assumption. }
  pose proof (prop_grows m rho cp Hr Hc HR w w' P Q).
  destruct (Rle_lt_or_eq_dec w w' Q) as [Q'|Q']; [pose proof (torque_speed m v w w' W Q'); lra|]. rewrite Q' in *. lra.
Qed.

(** ** operating points of a dc motor *)
Lemma dc_power : forall res io kv v i w q, kv <> 0 -> dc_motor res io kv v i w q -> q * w = (i - io) * (v - i * res).
Proof.
  intros res io kv v i w q K (E & F). assert (G : w = (v - i * res) * kv) by (rewrite E; field; exact K). rewrite F, G. field. exact K.
Qed.
Lemma two_sums : forall a b u, 0 <= a -> 0 <= b -> 0 <= u -> u * u = a * b -> 2 * u <= a + b.
Proof.
  intros a b u A B U E. destruct (Rle_lt_dec (2 * u) (a + b)) as [H|H]; [exact H|exfalso].
  pose proof (Rle_0_sqr (a - b)) as S. unfold Rsqr in S. nra.
Qed.
Lemma efficiency_limit : forall res io kv v i w q, 0 < res -> 0 <= io -> kv <> 0 -> 0 < v -> 0 < i ->
  dc_motor res io kv v i w q -> efficiency v i w q <= (1 - sqrt (io * res / v)) ^ 2.
Proof.
  intros res io kv v i w q R0 I0 K V I D. unfold efficiency. rewrite (dc_power _ _ _ _ _ _ _ K D).
  set (u := sqrt (io * res / v)).
  assert (X : 0 <= io * res / v) by (apply Rmult_le_pos; [nra|left; apply Rinv_0_lt_compat; lra]).
  assert (U : u * u = io * res / v) by (apply sqrt_sqrt; exact X). assert (U0 : 0 <= u) by apply sqrt_pos.
  assert (A : 0 <= io / i) by (apply Rmult_le_pos; [lra|left; apply Rinv_0_lt_compat; lra]).
  assert (B : 0 <= i * res / v) by (apply Rmult_le_pos; [nra|left; apply Rinv_0_lt_compat; lra]).
  pose proof (two_sums _ _ _ A B U0 ltac:(rewrite U; field; split; lra)) as T.
  replace ((i - io) * (v - i * res) / (v * i)) with (1 + io * res / v - (io / i + i * res / v)) by (field; split; lra).
  rewrite <- U. lra.
Qed.
Section Lofi.
  Variables (m : motor) (e v : R).
  Hypothesis (W : works m) (V : 0 < v) (E1 : e <= 1) (N : 0 < no_load m).
  Let b := no_load m * m_res m.
  Let S := v * (1 - e) + b.
  Let D := S * S - 4 * b * v.
  Let s := sqrt (if Rltb D 0 then 0 else D).
  Let x := (S - s) / 2.
  Lemma b_pos : 0 < b.
  Proof. unfold b. destruct W as (A & _). apply Rmult_lt_0_compat; assumption. Qed.
  Lemma S_pos : 0 < S.
  Proof. unfold S. pose proof b_pos. assert (0 <= v * (1 - e)) by (apply Rmult_le_pos; lra). lra. Qed.
  Lemma s_less : 0 <= s < S.
  Proof.
    split; [apply sqrt_pos|]. pose proof S_pos. pose proof b_pos. unfold s. destruct (Rltb D 0) eqn:L.
    - rewrite sqrt_0. assumption.
    - apply Rltb_false in L. rewrite <- (sqrt_square S) by lra. apply sqrt_lt_1_alt. split; [lra|]. unfold D. assert (0 < b * v) by (apply Rmult_lt_0_compat; assumption). lra.
  Qed.
  Lemma x_pos : 0 < x.
  Proof. unfold x. pose proof s_less. lra. Qed.
  Lemma lofi_w : fst (lofi_omega m e v) = kv_out m * (v - x).
  Proof.
    unfold lofi_omega. cbv zeta. rewrite zero_no by lra. cbn [fst].
    assert (Q : m_res m * m_res m * no_load m * no_load m - 2 * m_res m * e * no_load m * v - 2 * m_res m * no_load m * v + e * e * v * v - 2 * e * v * v + v * v = D)
      by (unfold D, S, b; ring). rewrite Q. fold s. unfold x, S, b. field.
  Qed.
  Lemma lofi_q : snd (lofi_omega m e v) = motor_torque m v (kv_out m * (v - x)).
  Proof.
    rewrite <- lofi_w. unfold lofi_omega. cbv zeta. rewrite zero_no by lra. reflexivity.
  Qed.
  Lemma lofi_i : lofi_current m e v = x / m_res m.
  Proof.
    unfold lofi_current. rewrite lofi_w. pose proof x_pos. destruct W as (A & B & C).
    replace ((v - kv_out m * (v - x) * m_gear m / m_kv m) / m_res m) with (x / m_res m) by (unfold kv_out; field; repeat split; lra).
    destruct (Rltb (x / m_res m) 0) eqn:L; [|reflexivity]. apply Rltb_true in L.
    assert (0 < x / m_res m) by (apply Rdiv_lt_0_compat; assumption). lra.
  Qed.
  Lemma lofi_dc : dc_motor (m_res m) (no_load m) (m_kv m) v (lofi_current m e v) (fst (lofi_omega m e v) * m_gear m) (snd (lofi_omega m e v) / m_gear m).
  Proof.
    rewrite lofi_i, lofi_w, lofi_q. pose proof (torque_dc m v (kv_out m * (v - x)) W) as T. pose proof (kv_pos m W) as K.
    replace ((v - kv_out m * (v - x) / kv_out m) / m_res m) with (x / m_res m) in T; [exact T|]. destruct W as (A & _). field. split; lra.
  Qed.
  Definition best := (1 - sqrt (b / v)) ^ 2.
  Lemma disc : b < v -> D = v * v * (best - e) * ((1 + sqrt (b / v)) ^ 2 - e).
  Proof.
    intro L. unfold best. assert (U : sqrt (b / v) * sqrt (b / v) = b / v) by (apply sqrt_sqrt; left; apply Rdiv_lt_0_compat; [apply b_pos|assumption]).
    set (u := sqrt (b / v)) in *. assert (B : b = u * u * v) by (rewrite U; field; lra). unfold D, S. rewrite B. ring.
  Qed.
  Lemma feasible : b < v -> e <= best -> 0 <= D.
  Proof.
    intros L F. rewrite disc by assumption. assert (U0 : 0 <= sqrt (b / v)) by apply sqrt_pos.
    assert (U : best <= (1 + sqrt (b / v)) ^ 2) by (unfold best; nra).
    apply Rmult_le_pos; [apply Rmult_le_pos; [nra|lra]|lra].
  Qed.
  Lemma x_solves : 0 <= D -> x * x - S * x + b * v = 0.
  Proof.
    intro H. assert (s * s = D). { unfold s. destruct (Rltb D 0) eqn:L; [apply Rltb_true in L; lra|]. apply sqrt_sqrt, H. }
    unfold x. replace ((S - s) / 2 * ((S - s) / 2) - S * ((S - s) / 2) + b * v) with ((s * s - S * S) / 4 + b * v) by field.
    rewrite H0. unfold D. field.
  Qed.
  Lemma x_between : b < v -> 0 < e -> 0 <= D -> b < x < v.
  Proof.
    intros L E H. pose proof (x_solves H) as Q. pose proof x_pos as P.
    assert (G : (x - b) * (v - x) = e * x * v) by (unfold S in Q; lra).
    assert (0 < e * x * v) by exact (Rmult_lt_0_compat _ _ (Rmult_lt_0_compat _ _ E P) V).
    split; apply Rnot_le_lt; intro C; nra.
  Qed.
  Lemma lofi_efficiency : b < v -> 0 < e -> e <= best ->
    0 < fst (lofi_omega m e v) /\ 0 < snd (lofi_omega m e v) /\
    efficiency v (lofi_current m e v) (fst (lofi_omega m e v)) (snd (lofi_omega m e v)) = e.
  Proof.
    intros L E F. pose proof (feasible L F) as H. pose proof (x_between L E H) as (X1 & X2). pose proof (x_solves H) as Q.
    pose proof (kv_pos m W) as K. pose proof x_pos as P. rewrite lofi_i, lofi_w, lofi_q.
    assert (T : motor_torque m v (kv_out m * (v - x)) = (x - b) / (m_res m * kv_out m)).
    { unfold motor_torque, b. destruct W as (A & _). field. split; lra. }
    destruct W as (A & _). split; [apply Rmult_lt_0_compat; lra|]. split.
    - rewrite T. apply Rdiv_lt_0_compat; [lra|apply Rmult_lt_0_compat; assumption].
    - unfold efficiency. rewrite T.
      replace ((x - b) / (m_res m * kv_out m) * (kv_out m * (v - x)) / (v * (x / m_res m))) with ((x - b) * (v - x) / (v * x)) by (field; repeat split; lra).
      assert (G : (x - b) * (v - x) = e * x * v) by (unfold S in Q; lra). rewrite G. field. split; lra.
  Qed.
  Lemma lofi_smallest : b < v -> 0 < e -> e <= best -> forall i' w' q', 0 < i' ->
    dc_motor (m_res m) (no_load m) (m_kv m) v i' w' q' -> efficiency v i' w' q' = e -> lofi_current m e v <= i'.
  Proof.
    intros L E F i' w' q' I D0 Ef. pose proof (feasible L F) as H. pose proof (x_solves H) as Q. rewrite lofi_i.
    destruct W as (A & B & C). unfold efficiency in Ef. rewrite (dc_power _ _ _ _ _ _ _ (Rgt_not_eq _ _ B) D0) in Ef.
    set (y := i' * m_res m) in *. assert (Y : 0 < y) by (apply Rmult_lt_0_compat; assumption).
    assert (G : (y - b) * (v - y) = e * y * v).
    { replace (e * y * v) with (e * (v * i') * m_res m) by (unfold y; ring). rewrite <- Ef. unfold y, b. field. split; lra. }
    assert (G2 : (y - x) * (y + x - S) = 0) by (unfold S in *; nra).
    assert (X2 : 2 * x <= S) by (unfold x; pose proof s_less; lra).
    assert (x <= y). { apply Rmult_integral in G2. destruct G2; lra. }
    apply Rmult_le_reg_r with (m_res m); [exact A|]. unfold Rdiv. rewrite Rmult_assoc, Rinv_l, Rmult_1_r by lra. exact H0.
  Qed.
End Lofi.
Lemma lofi_ideal : forall m e v, works m -> 0 < v -> e <= 1 -> no_load m = 0 ->
  lofi_omega m e v = (kv_out m * v, 0) /\ lofi_current m e v = 0.
Proof.
  intros m e v W V E N. pose proof (kv_pos m W) as K. assert (A : 0 < m_res m) by apply W.
  assert (L : lofi_omega m e v = (kv_out m * v, 0)).
  { unfold lofi_omega. cbv zeta. rewrite zero_no by lra. rewrite N.
    assert (0 <= (1 - e) * v) by (apply Rmult_le_pos; lra).
    replace (m_res m * m_res m * 0 * 0 - 2 * m_res m * e * 0 * v - 2 * m_res m * 0 * v + e * e * v * v - 2 * e * v * v + v * v) with (((1 - e) * v) * ((1 - e) * v)) by ring.
    destruct (Rltb ((1 - e) * v * ((1 - e) * v)) 0) eqn:B; [apply Rltb_true in B; nra|]. rewrite sqrt_square by assumption.
    assert (Q : kv_out m * v / 2 + kv_out m * ((1 - e) * v) / 2 - kv_out m * m_res m * 0 / 2 + kv_out m * e * v / 2 = kv_out m * v) by field.
    rewrite Q. f_equal. unfold motor_torque. rewrite N. field. split; lra. }
  split; [exact L|]. unfold lofi_current. rewrite L. cbn [fst]. destruct W as (_ & B & C).
  assert (Q : (v - kv_out m * v * m_gear m / m_kv m) / m_res m = 0) by (unfold kv_out; field; repeat split; lra).
  rewrite Q. destruct (Rltb 0 0); reflexivity.
Qed.
Lemma esc_voltage_is : forall t v, 0 <= t <= 1 -> esc_voltage t v = t * v.
Proof.
  intros t v H. unfold esc_voltage. destruct (Rltb 0 t) eqn:A.
  - destruct (Rltb t 1) eqn:B; [reflexivity|]. apply Rltb_false in B. replace t with 1 by lra. reflexivity.
  - apply Rltb_false in A. destruct (Rltb 0 1) eqn:B; [|apply Rltb_false in B; lra]. replace t with 0 by lra. reflexivity.
Qed.
Lemma esc_voltage_above : forall t v, 1 <= t -> esc_voltage t v = v.
Proof.
  intros t v H. unfold esc_voltage. destruct (Rltb 0 t) eqn:A; [|apply Rltb_false in A; lra].
  destruct (Rltb t 1) eqn:B; [apply Rltb_true in B; lra|]. ring.
Qed.
Lemma esc_voltage_below : forall t v, t <= 0 -> esc_voltage t v = 0.
Proof.
  intros t v H. unfold esc_voltage. destruct (Rltb 0 t) eqn:A; [apply Rltb_true in A; lra|].
  destruct (Rltb 0 1) eqn:B; [ring|apply Rltb_false in B; lra].
Qed.

(** ** networks *)
(** what one motor and propeller delivers at motor voltage [v]: force, shaft power, current *)
Definition unit_speed (rho v : R) (u : unit_) : R := fst (motor_omega (u_motor u) rho (u_cp u) v).
Definition unit_force (rho v throttle : R) (u : unit_) : force := overv throttle (fst (fst (u_spin u (unit_speed rho v u)))).
Definition unit_power (rho v throttle : R) (u : unit_) : R := over throttle (snd (u_spin u (unit_speed rho v u))).
Definition unit_current (rho v : R) (u : unit_) : R := fst (motor_current (u_motor u) v (unit_speed rho v u)).
Definition sum_force (f : unit_ -> force) (l : list unit_) : force :=
  (sum_over (fun u => fx (f u)) l, sum_over (fun u => fy (f u)) l, sum_over (fun u => fz (f u)) l).
Lemma one_unit_is : forall rho v th k t u,
  one_unit rho v th k t u =
  Totals (vadd (t_F t) (vscale k (unit_force rho v th u))) (t_P t + unit_power rho v th u * k) (t_i t + k * unit_current rho v u)
    (t_columns t ++ [Column (snd (motor_omega (u_motor u) rho (u_cp u) v)) (snd (fst (u_spin u (unit_speed rho v u))))
       (norm3 (vadd (t_F t) (vscale k (unit_force rho v th u)))) (unit_speed rho v u) (unit_current rho v u)]) (unit_power rho v th u).
Proof.
  intros. unfold one_unit, unit_force, unit_power, unit_current, unit_speed.
  destruct (motor_omega (u_motor u) rho (u_cp u) v) as [w qm]. cbn [fst snd]. destruct (u_spin u w) as [[F Q] P]. cbn [fst snd].
  destruct (motor_current (u_motor u) v w) as [i e]. reflexivity.
Qed.
Lemma triple_eq : forall (a b c a' b' c' : R), a = a' -> b = b' -> c = c' -> (a, b, c) = (a', b', c').
Proof. intros. subst. reflexivity. Qed.
Lemma fold_units : forall rho v th k us t,
  let r := fold_left (one_unit rho v th k) us t in
  t_F r = vadd (t_F t) (vscale k (sum_force (unit_force rho v th) us)) /\
  t_P r = t_P t + k * sum_over (unit_power rho v th) us /\
  t_i r = t_i t + k * sum_over (unit_current rho v) us /\
  map k_i (t_columns r) = map k_i (t_columns t) ++ map (unit_current rho v) us /\
  map k_w (t_columns r) = map k_w (t_columns t) ++ map (unit_speed rho v) us /\
  map k_qm (t_columns r) = map k_qm (t_columns t) ++ map (fun u => snd (motor_omega (u_motor u) rho (u_cp u) v)) us /\
  map k_q (t_columns r) = map k_q (t_columns t) ++ map (fun u => snd (fst (u_spin u (unit_speed rho v u)))) us.
Proof.
  intros rho v th k. induction us as [|u us IH]; intros t r; unfold r.
  - cbn. rewrite !app_nil_r, !Rmult_0_r, !Rplus_0_r. repeat split.
    destruct (t_F t) as [[a b] c]. cbn. apply triple_eq; ring.
  - cbn [fold_left]. destruct (IH (one_unit rho v th k t u)) as (A & B & C & D & E & F & G). clear IH.
    rewrite A, B, C, D, E, F, G. rewrite one_unit_is. cbn [t_F t_P t_i t_columns]. rewrite !map_app, <- !app_assoc. cbn [map app sum_over k_i k_w k_qm k_q].
    repeat split; try ring. unfold sum_force. cbn [sum_over].
    destruct (t_F t) as [[a b] c]. destruct (unit_force rho v th u) as [[a' b'] c']. cbn. apply triple_eq; ring.
Qed.
Lemma take_ok : forall n us r, take_units n us = Ok r <-> (n <= List.length us)%nat /\ r = firstn n us.
Proof.
  induction n as [|n IH]; intros us r.
  - cbn. split; [intro H; injection H as <-; split; [lia|reflexivity]|intros [_ ->]; reflexivity].
  - destruct us as [|u us]; cbn.
    + split; [intro H; discriminate H|intros [H _]; lia].
    + destruct (take_units n us) as [l|x] eqn:T; cbn.
      * apply IH in T. destruct T as [T ->]. split; [intro H; injection H as <-; split; [lia|reflexivity]|intros [_ ->]; reflexivity].
      * split; [intro H; discriminate H|intros [H _]]. exfalso.
        assert (Z : take_units n us = Ok (firstn n us)) by (apply IH; split; [lia|reflexivity]). congruence.
Qed.
Lemma take_err : forall n us e, take_units n us = Err e -> e = IndexError /\ (List.length us < n)%nat.
Proof.
  induction n as [|n IH]; intros us e H; [discriminate H|]. destruct us as [|u us]; cbn in H.
  - injection H as <-. split; [reflexivity|cbn; lia].
  - destruct (take_units n us) as [l|x] eqn:T; cbn in H; [discriminate H|]. injection H as <-. apply IH in T. cbn. split; [tauto|lia].
Qed.
Lemma sum_repeat : forall {A} (f : A -> R) x n, sum_over f (repeat x n) = INR n * f x.
Proof. intros A f x. induction n as [|n IH]; [cbn; ring|]. cbn [repeat sum_over]. rewrite IH, S_INR. ring. Qed.
Lemma firstn_repeat : forall {A} (x : A) n, firstn n (repeat x n) = repeat x n.
Proof. intros A x n. rewrite <- (repeat_length x n) at 1. apply firstn_all. Qed.
Lemma sum_scale : forall {A} (f : A -> R) k l, sum_over (fun u => k * f u) l = k * sum_over f l.
Proof. intros A f k. induction l as [|x l IH]; cbn; [ring|rewrite IH; ring]. Qed.

(** ** piston networks *)
Definition ic_force (throttle speed : R) (u : ic_unit) : force := overv throttle (fst (fst (x_spin u speed))).
Definition ic_fuel (dens : R -> R -> R) (h delta throttle speed : R) (u : ic_unit) : R := snd (fst (piston_power dens (x_engine u) h delta throttle speed)).
Definition cs_fuel (dens : R -> R -> R) (h delta speed : R) (u : ic_unit) : R := snd (piston_throttle dens (x_engine u) h delta (snd (x_spin u speed))).
Lemma fold_ic : forall dens h d th sp k us t, fold_left (ic_step dens h d th sp k) us t =
  (vadd (fst t) (vscale k (sum_over (fun u => fx (ic_force th sp u)) us, sum_over (fun u => fy (ic_force th sp u)) us, sum_over (fun u => fz (ic_force th sp u)) us)),
   snd t + k * sum_over (ic_fuel dens h d th sp) us).
Proof.
  intros dens h d th sp k. induction us as [|u us IH]; intros [t m].
  - cbn. destruct t as [[a b] c]. cbn. f_equal; [apply triple_eq; ring|ring].
  - cbn [fold_left]. rewrite IH. unfold ic_step. cbn [fst snd sum_over].
    assert (EF : ic_fuel dens h d th sp u = snd (fst (piston_power dens (x_engine u) h d th sp))) by reflexivity.
    destruct (piston_power dens (x_engine u) h d th sp) as [[pw fu] tq]. cbn [fst snd] in EF. rewrite EF.
    assert (EG : ic_force th sp u = overv th (fst (fst (x_spin u sp)))) by reflexivity.
    destruct (x_spin u sp) as [[F Q] P]. cbn [fst snd] in EG. rewrite EG. cbn [fst snd].
    destruct (overv th F) as [[a' b'] c']. destruct t as [[a b] c]. cbn. f_equal; [apply triple_eq; ring|ring].
Qed.
Lemma take_ic_ok : forall n us, (n <= List.length us)%nat -> take_ic n us = Ok (firstn n us).
Proof.
  induction n as [|n IH]; intros us H; [reflexivity|]. destruct us as [|u us]; cbn in H; [lia|]. cbn. rewrite IH by lia. reflexivity.
Qed.
Lemma fold_cs : forall dens h d sp k us t, let r := fold_left (cs_step dens h d sp k) us t in
  snd r = snd t + k * sum_over (cs_fuel dens h d sp) us /\
  fst (fst r) = match us with [] => fst (fst t) | _ => Some (fst (fst (x_spin (last us (ICUnit (Piston 0 0 0) (fun _ => ((0,0,0),0,0)))) sp))) end.
Proof.
  intros dens h d sp k. induction us as [|u us IH]; intros t r; unfold r.
  - cbn. split; [ring|reflexivity].
  - cbn [fold_left]. destruct (IH (cs_step dens h d sp k t u)) as [A B]. rewrite A, B. clear.
    assert (S : cs_step dens h d sp k t u = (Some (fst (fst (x_spin u sp))), vadd (snd (fst t)) (vscale k (fst (fst (x_spin u sp)))), snd t + cs_fuel dens h d sp u * k)).
    { unfold cs_step, cs_fuel. destruct (x_spin u sp) as [[F Q] P]. destruct t as [[o f] m]. reflexivity. }
    rewrite S. cbn [fst snd sum_over]. split; [ring|]. destruct us; reflexivity.
Qed.

(** ** sunlight *)
Lemma cos_zenith_is : forall s, cos_zenith s = sun_up (declination (day s)) (k_lat s * PI / 180) (hra s).
Proof. intro s. unfold cos_zenith, sun_up. replace (k_lat s * deg) with (k_lat s * PI / 180) by (unfold deg; field). ring. Qed.
Lemma sun_unit : forall dec lat h, (sun_south dec lat h) ^ 2 + (sun_west dec h) ^ 2 + (sun_up dec lat h) ^ 2 = 1.
Proof.
  intros. unfold sun_south, sun_west, sun_up. pose proof (sin2_cos2 dec) as A. pose proof (sin2_cos2 lat) as B. pose proof (sin2_cos2 h) as C. unfold Rsqr in *.
  transitivity ((sin lat * sin lat + cos lat * cos lat) * (cos dec * cos dec * (cos h * cos h)) + (sin lat * sin lat + cos lat * cos lat) * (sin dec * sin dec) + cos dec * cos dec * (sin h * sin h)); [ring|].
  rewrite B. transitivity (cos dec * cos dec * (sin h * sin h + cos h * cos h) + sin dec * sin dec); [ring|]. rewrite C. lra.
Qed.
Lemma up_bound : forall dec lat h, -1 <= sun_up dec lat h <= 1.
Proof. intros. pose proof (sun_unit dec lat h). pose proof (pow2_ge_0 (sun_south dec lat h)). pose proof (pow2_ge_0 (sun_west dec h)). split; nra. Qed.
Lemma cos_of_zenith : forall s, cos (zenith s) = cos_zenith s.
Proof. intro s. unfold zenith. apply cos_acos. rewrite cos_zenith_is. apply up_bound. Qed.
Lemma floor_succ : forall x, Rfloor (x + 1) = Rfloor x + 1.
Proof.
  intro x. unfold Rfloor. replace 1 with (IZR 1) at 2 by reflexivity. rewrite <- plus_IZR. f_equal.
  destruct (archimed x) as [A B]. assert (up (x + 1) = (up x + 1)%Z); [|lia]. symmetry. apply tech_up; rewrite plus_IZR; lra.
Qed.
Lemma flux_depends : forall s s', day s = day s' -> tutc s = tutc s' -> k_lat s = k_lat s' -> k_lon s = k_lon s' -> k_alt s = k_alt s' ->
  k_phi s = k_phi s' -> k_theta s = k_theta s' -> k_psi s = k_psi s' -> solar_flux s = solar_flux s'.
Proof.
  intros s s' D T A B C E F G. assert (H : hra s = hra s') by (unfold hra; rewrite D, T, B; reflexivity).
  assert (Z : zenith s = zenith s') by (unfold zenith, cos_zenith; rewrite H, D, A; reflexivity).
  assert (I : incidence s = incidence s') by (unfold incidence, tilt, azimuth; rewrite Z, H, D, A, E, F, G; reflexivity).
  unfold solar_flux, horizontal. rewrite Z, I, H, D, A, C. reflexivity.
Qed.
Lemma root_is : forall a b, 0 <= b -> let y := sqrt (a * a + b) - a in 0 <= y /\ y * y + 2 * a * y = b.
Proof.
  intros a b B y. assert (S : sqrt (a * a + b) * sqrt (a * a + b) = a * a + b) by (apply sqrt_sqrt; nra).
  pose proof (sqrt_pos (a * a + b)). unfold y. set (q := sqrt (a * a + b)) in *. split; nra.
Qed.
Lemma root_unique : forall a b y z, 0 <= y -> 0 <= z -> 0 < b -> y * y + 2 * a * y = b -> z * z + 2 * a * z = b -> y = z.
Proof.
  intros a b y z Y Z B E F. assert (G : (y - z) * (y + z + 2 * a) = 0) by lra. apply Rmult_integral in G. destruct G as [G|G]; [lra|exfalso].
  assert (y * z = - b) by nra. nra.
Qed.
Lemma mass_eq : forall psi alt, 0 <= alt -> alt < 9000 -> let r := 6371000 / 9 in let c := alt / 9000 in
  0 <= air_mass psi alt /\ air_mass psi alt * air_mass psi alt + 2 * ((r + c) * cos psi) * air_mass psi alt = (r + 1) ^ 2 - (r + c) ^ 2 /\ 0 < (r + 1) ^ 2 - (r + c) ^ 2.
Proof.
  intros psi alt A L r c. assert (C : 0 <= c < 1) by (unfold c; lra). assert (Rr : 0 < r) by (unfold r; lra).
  assert (B : 0 < (r + 1) ^ 2 - (r + c) ^ 2) by nra.
  unfold air_mass. cbv zeta. fold r c. destruct (Rltb alt 9000) eqn:H; [|apply Rltb_false in H; lra].
  replace ((r + c) * (r + c) * (cos psi * cos psi) + 2 * r * (1 - c) - c * c + 1) with ((r + c) * cos psi * ((r + c) * cos psi) + ((r + 1) ^ 2 - (r + c) ^ 2)) by ring.
  destruct (root_is ((r + c) * cos psi) ((r + 1) ^ 2 - (r + c) ^ 2) ltac:(lra)) as [P Q]. cbv zeta in P, Q. tauto.
Qed.
Lemma path_is : forall psi alt, 0 <= alt -> alt < 9000 -> 0 < air_mass psi alt /\ path (6371000 / 9 + alt / 9000) (6371000 / 9 + 1) psi (air_mass psi alt).
Proof.
  intros psi alt A L. destruct (mass_eq psi alt A L) as (P & Q & B). cbv zeta in *. set (y := air_mass psi alt) in *. split.
  - destruct P as [P|P]; [exact P|]. rewrite <- P in Q. lra.
  - split; [exact P|]. lra.
Qed.
Lemma mass_falls : forall psi psi' alt alt', 0 <= alt -> alt < alt' -> 0 <= cos psi -> cos psi <= cos psi' -> 0 <= air_mass psi' alt' <= air_mass psi alt.
Proof.
  intros psi psi' alt alt' A L C C'. destruct (Rlt_le_dec alt 9000) as [H|H].
  - destruct (mass_eq psi alt A H) as (P & Q & B). cbv zeta in *. destruct (Rlt_le_dec alt' 9000) as [H'|H'].
    + destruct (mass_eq psi' alt' ltac:(lra) H') as (P' & Q' & B'). cbv zeta in *. split; [exact P'|].
      set (y := air_mass psi alt) in *. set (y' := air_mass psi' alt') in *. set (a := 6371000 / 9 + alt / 9000) in *. set (a' := 6371000 / 9 + alt' / 9000) in *.
      assert (AA : 0 < a < a') by (unfold a, a'; lra). apply Rnot_lt_le. intro N.
      assert (a * cos psi <= a' * cos psi') by (apply Rmult_le_compat; lra). assert (0 <= a * cos psi) by (apply Rmult_le_pos; lra).
      assert (a ^ 2 < a' ^ 2) by nra. assert (y * y < y' * y') by nra. assert (a * cos psi * y <= a' * cos psi' * y') by (apply Rmult_le_compat; lra). lra.
    + assert (E : air_mass psi' alt' = 0). { unfold air_mass. cbv zeta. destruct (Rltb alt' 9000) eqn:X; [apply Rltb_true in X; lra|reflexivity]. } rewrite E. lra.
  - assert (E : forall p x, 9000 <= x -> air_mass p x = 0). { intros p x X. unfold air_mass. cbv zeta. destruct (Rltb x 9000) eqn:Y; [apply Rltb_true in Y; lra|reflexivity]. }
    rewrite !E by lra. lra.
Qed.
Lemma direct_pos : forall x, 0 < direct x.
Proof. intro x. unfold direct. apply Rmult_lt_0_compat; [lra|apply exp_pos]. Qed.
Lemma exponent_up : forall x y, x <= y -> (if Rltb 0 x then Rpower x (678/1000) else 0) <= (if Rltb 0 y then Rpower y (678/1000) else 0).
Proof.
  intros x y L. destruct (Rltb 0 x) eqn:A.
  - apply Rltb_true in A. destruct (Rltb 0 y) eqn:B; [|apply Rltb_false in B; lra]. apply Rle_Rpower_l; lra.
  - destruct (Rltb 0 y); [left; apply exp_pos|lra].
Qed.
Lemma direct_falls : forall x y, x <= y -> direct y <= direct x.
Proof.
  intros x y L. unfold direct. apply Rmult_le_compat_l; [lra|]. pose proof (exponent_up x y L) as E.
  set (p := if Rltb 0 x then _ else _) in *. set (q := if Rltb 0 y then _ else _) in *.
  assert (N : ln (7/10) < 0) by (rewrite <- ln_1; apply ln_increasing; lra).
  unfold Rpower. destruct (Req_dec p q) as [-> |D]; [lra|]. left. apply exp_increasing. nra.
Qed.
Lemma direct_bound : forall x, direct x <= 1367.
Proof.
  intro x. apply Rle_trans with (direct (Rmin x 0)).
  - apply direct_falls, Rmin_l.
  - unfold direct. destruct (Rltb 0 (Rmin x 0)) eqn:A; [apply Rltb_true in A; pose proof (Rmin_r x 0); lra|]. rewrite Rpower_O by lra. lra.
Qed.
Lemma flux_is : forall s, 0 <= k_alt s -> cos (zenith s) <> 0 ->
  solar_flux s = Rmax 0 (if (Rltb (zenith s) (- PI / 2) || Rltb (9670995 / 100000 * PI / 180) (zenith s))%bool then 0
                         else direct (air_mass (zenith s) (k_alt s)) * cos (incidence s)).
Proof.
  intros s A N. unfold solar_flux. cbv zeta. assert (H : forall id, horizontal id s * cos (incidence s) / cos (zenith s) = id * cos (incidence s)).
  { intro id. assert (E : horizontal id s = id * cos (zenith s)) by (rewrite cos_of_zenith; unfold horizontal, cos_zenith; ring). rewrite E. field. exact N. }
  rewrite !H. destruct (Rltb 9000 (k_alt s)) eqn:L; [|reflexivity]. apply Rltb_true in L.
  assert (M : direct (air_mass (zenith s) (k_alt s)) = 1367).
  { unfold air_mass. cbv zeta. destruct (Rltb (k_alt s) 9000) eqn:X; [apply Rltb_true in X; lra|]. unfold direct.
    destruct (Rltb 0 0) eqn:Y; [apply Rltb_true in Y; lra|]. rewrite Rpower_O by lra. ring. }
  rewrite M. reflexivity.
Qed.
