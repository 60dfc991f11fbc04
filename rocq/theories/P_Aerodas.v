(** * Proofs: AERODAS *)
From Coq Require Import Reals List Bool Lra Lia Psatz.
From Verif Require Import PyBase M_Opt M_Drag M_Aerodas S_Aerodas P_Opt P_Super.
Import ListNotations.
Local Open Scope R_scope.
Local Open Scope list_scope.

Lemma deg_pos : 0 < deg.
Proof. unfold deg. pose proof PI_RGT_0. lra. Qed.
(** ** what the steps store *)
Definition sec q re w := section_properties q re w.
Definition fin q re w := finite_aspect_ratio q w (sec q re w).
Lemma sec_stall q re w : x_stall (sec q re w) = stall q.
Proof. reflexivity. Qed.
Lemma sec_cd0 q re w : x_cd0 (sec q re w) = least_drag re w.
Proof. unfold sec, section_properties, least_drag. cbn [x_cd0]. replace (1 + 5) with 6 by ring. field. Qed.
Lemma fin_slope q re w : y_slope (fin q re w) = wing_slope q w.
Proof.
  unfold fin, finite_aspect_ratio, wing_slope. cbn [y_slope]. pose proof deg_pos. assert (0 <= sqrt (4 + g_ar w ^ 2)) by apply sqrt_pos. field. split; lra.
Qed.
Lemma fin_max q re w : y_clmax (fin q re w) = stated_max w.
Proof. reflexivity. Qed.
Lemma fin_acd q re w : y_acd (fin q re w) = drag_angle q w.
Proof. unfold fin, finite_aspect_ratio, drag_angle. cbn [y_acd]. change (x_clmax (sec q re w)) with (15 / 10). rewrite sec_stall. field. Qed.
Lemma fin_cdmax q re w : y_cdmax (fin q re w) = stall_drag re w.
Proof. unfold fin, finite_aspect_ratio, stall_drag. cbn [y_cdmax]. change (x_clmax (sec q re w)) with (15 / 10). change (x_cdmax (sec q re w)) with (10 * x_cd0 (sec q re w)). rewrite sec_cd0. field. Qed.
(** ** the clipped excess *)
Lemma slope_part x : 0 < x -> x / (2 + sqrt (4 + x ^ 2)) < 67 / 100 + 33 / 100 * exp (- (4 / x) ^ 2).
Proof.
  intro X. set (s := sqrt (4 + x ^ 2)). assert (SS : s * s = 4 + x ^ 2) by (apply sqrt_sqrt; nra). assert (S0 : 2 < s) by (rewrite <- (sqrt_Rsqr 2) by lra; apply sqrt_lt_1_alt; unfold Rsqr; split; [lra|nra]).
  assert (SX : x < s) by nra. set (f := x / (2 + s)). assert (F : f * (2 + s) = x) by (unfold f; field; lra). assert (F0 : 0 < f) by (unfold f; apply Rdiv_lt_0_compat; lra).
  destruct (Rle_lt_dec x 4) as [L|L].
  - assert (f < 67 / 100) by (apply (Rmult_lt_reg_r (2 + s)); [lra|]; rewrite F; destruct (Rle_lt_dec s (x * 112 / 100)); nra). pose proof (exp_pos (- (4 / x) ^ 2)). lra.
  - pose proof (exp_ineq1_le (- (4 / x) ^ 2)) as E. set (t := 4 / x) in *. assert (T : t * x = 4) by (unfold t; field; lra). assert (T0 : 0 < t < 1) by (split; [unfold t; apply Rdiv_lt_0_compat; lra|apply (Rmult_lt_reg_r x); lra]).
    (* f = (s-2)/x ; s <= x + 2/x *)
    assert (FS : f * x = s - 2) by (apply (Rmult_eq_reg_r (2 + s)); [|lra]; nra). assert (SU : s <= x + t / 2) by (apply Rsqr_incr_0_var; unfold Rsqr; [rewrite SS|]; nra).
    assert (f <= 1 + t ^ 2 / 8 - t / 2) by (apply (Rmult_le_reg_r x); [lra|]; rewrite FS; replace ((1 + t ^ 2 / 8 - t / 2) * x) with (x + t * (t * x) / 8 - t * x / 2) by field; rewrite T; lra).
    nra.
Qed.
Lemma clipped q w : 0 < q_slope q -> 0 < g_ar w -> wing_slope q w * (stall q - q_zero q) < stated_max w.
Proof.
  intros S A. replace (wing_slope q w * (stall q - q_zero q)) with (15 / 10 * (g_ar w / (2 + sqrt (4 + g_ar w ^ 2)))).
  - unfold stated_max. pose proof (slope_part _ A). lra.
  - unfold wing_slope, stall. assert (0 <= sqrt (4 + g_ar w ^ 2)) by apply sqrt_pos. field. split; lra.
Qed.
Lemma slope_pos q w : 0 < q_slope q -> 0 < g_ar w -> 0 < wing_slope q w.
Proof. intros S A. unfold wing_slope. apply Rdiv_lt_0_compat; [apply Rmult_lt_0_compat; lra|]. assert (0 <= sqrt (4 + g_ar w ^ 2)) by apply sqrt_pos. lra. Qed.
Lemma gap_pos q : 0 < q_slope q -> 0 < stall q - q_zero q.
Proof. intro S. unfold stall. assert (0 < 15 / 10 / q_slope q) by (apply Rdiv_lt_0_compat; lra). lra. Qed.
Definition sharp w : R := 1 + stated_max w / tiny.
Definition climb q w (u : R) : R := wing_slope q w * (stall q - q_zero q) * u - tiny * pw u (sharp w).
Lemma pre_lift q re w a : 0 < q_slope q -> 0 < g_ar w -> g_vert w = false ->
  fst (pre_stall q w (sec q re w) (fin q re w) a) = if Rltb (q_zero q) a then climb q w ((a - q_zero q) / (stall q - q_zero q)) else - climb q w ((q_zero q - a) / (stall q - q_zero q)).
Proof.
  intros S A V. unfold pre_stall, attack. rewrite V. cbn [fst]. rewrite fin_slope, fin_max, sec_stall. pose proof (clipped q w S A). pose proof (gap_pos q S). rewrite (proj2 (Rltb_false 0 _)) by lra. fold (sharp w). unfold climb.
  destruct (Rltb (q_zero q) a) eqn:E; [f_equal; field; lra|]. apply Rltb_false in E. destruct (Rltb a (q_zero q)) eqn:F.
  - replace (wing_slope q w * (stall q - q_zero q) * ((q_zero q - a) / (stall q - q_zero q))) with (wing_slope q w * (q_zero q - a)) by (field; lra). ring.
  - apply Rltb_false in F. replace (q_zero q - a) with 0 by lra. unfold Rdiv. rewrite Rmult_0_l, (pw_0 0) by lra. ring.
Qed.
Lemma tiny_pos : 0 < tiny.
Proof. unfold tiny. apply Rdiv_lt_0_compat; [lra|apply pow_lt; lra]. Qed.
Lemma stated_range w : 1005 / 1000 < stated_max w <= 15 / 10.
Proof.
  unfold stated_max. pose proof (exp_pos (- (4 / g_ar w) ^ 2)). assert (exp (- (4 / g_ar w) ^ 2) <= 1) by (rewrite <- exp_0; pose proof (pow2_ge_0 (4 / g_ar w)) as [P|P]; [left; apply exp_increasing; lra|right; f_equal; lra]). lra.
Qed.
Lemma sharp_big w : 10 ^ 16 <= sharp w.
Proof.
  unfold sharp, tiny. replace (stated_max w / (1 / 10 ^ 16)) with (stated_max w * 10 ^ 16) by (field; apply pow_nonzero; lra). pose proof (stated_range w). assert (0 < 10 ^ 16) by (apply pow_lt; lra). nra.
Qed.
Lemma sharp_tiny w : tiny * sharp w = tiny + stated_max w.
Proof. pose proof tiny_pos. unfold sharp. field. lra. Qed.
Lemma one_pow c : Rpower 1 c = 1.
Proof. unfold Rpower. rewrite ln_1, Rmult_0_r. apply exp_0. Qed.
Lemma pw_below1 u c : u <= 1 -> 0 < c -> pw u c <= 1.
Proof. intros U C. destruct (Rle_lt_dec u 0) as [N|N]; [rewrite pw_0 by exact N; lra|]. rewrite pw_pos by exact N. rewrite <- (one_pow c). apply Rle_Rpower_l; lra. Qed.

(** ** a mean, and Bernoulli's inequality *)
Lemma mean_pow y t : 0 < y -> 0 <= t <= 1 -> Rpower y t <= 1 + t * (y - 1).
Proof.
  intros Y T. set (m := 1 + t * (y - 1)). assert (M : 0 < m) by (unfold m; nra). unfold Rpower. rewrite <- (exp_ln m M). assert (L : t * ln y <= ln m); [|destruct L as [L|L]; [left; apply exp_increasing, L|right; rewrite L; reflexivity]].
  assert (A : forall z, 0 < z -> 1 + ln z - ln m <= z / m). { intros z Z. pose proof (exp_ineq1_le (ln z - ln m)) as E. unfold Rminus in E. rewrite exp_plus, exp_Ropp, !exp_ln in E by assumption. unfold Rdiv. lra. }
  pose proof (A y Y) as A1. pose proof (A 1 Rlt_0_1) as A2. rewrite ln_1 in A2. assert (Q : t * (y / m) + (1 - t) * (1 / m) = 1) by (unfold m; field; fold m; lra). nra.
Qed.
Lemma bernoulli u N : 0 < u -> 1 <= N -> 1 + N * (u - 1) <= Rpower u N.
Proof.
  intros U HN. pose proof (mean_pow (Rpower u N) (/ N) ltac:(apply exp_pos) ltac:(split; [left; apply Rinv_0_lt_compat; lra|rewrite <- Rinv_1; apply Rinv_le_contravar; lra])) as M.
  rewrite Rpower_mult, Rinv_r, Rpower_1 in M by lra. set (p := Rpower u N) in *. assert (u * N <= N + (p - 1)); [|lra]. replace (N + (p - 1)) with ((1 + / N * (p - 1)) * N) by (field; lra). apply Rmult_le_compat_r; lra.
Qed.
Lemma climb_below q w u : 0 < q_slope q -> 0 < g_ar w -> climb q w u < stated_max w.
Proof.
  intros S A. unfold climb. pose proof (clipped q w S A) as K. pose proof (slope_pos q w S A). pose proof (gap_pos q S). pose proof (stated_range w). pose proof tiny_pos. set (k := wing_slope q w * (stall q - q_zero q)) in *. assert (0 < k) by (unfold k; apply Rmult_lt_0_compat; lra).
  destruct (Rle_lt_dec u 0) as [N|N]; [rewrite pw_0 by exact N; nra|]. rewrite pw_pos by exact N. pose proof (bernoulli u (sharp w) N ltac:(pose proof (sharp_big w); lra)) as B. pose proof (sharp_tiny w) as ST.
  assert (T : tiny * (1 + sharp w * (u - 1)) <= tiny * Rpower u (sharp w)) by (apply Rmult_le_compat_l; lra). replace (tiny * (1 + sharp w * (u - 1))) with (tiny + (tiny * sharp w) * (u - 1)) in T by ring. rewrite ST in T. nra.
Qed.
Lemma climb_linear q w u : 0 <= u <= 1 -> wing_slope q w * (stall q - q_zero q) * u - tiny <= climb q w u <= wing_slope q w * (stall q - q_zero q) * u.
Proof.
  intro U. unfold climb. pose proof (pw_below1 u (sharp w) ltac:(lra) ltac:(pose proof (sharp_big w); lra)). pose proof (pw_nonneg u (sharp w)). pose proof tiny_pos. nra.
Qed.
Lemma steep : 2 ^ 99 <= Rpower (1 + 1 / 10 ^ 14) (99 * 10 ^ 14).
Proof.
  replace (99 * 10 ^ 14) with (10 ^ 14 * INR 99) by (cbn [INR]; ring). rewrite <- Rpower_mult. rewrite Rpower_pow by apply exp_pos. apply pow_incr. split; [lra|].
  pose proof (bernoulli (1 + 1 / 10 ^ 14) (10 ^ 14) ltac:(lra) ltac:(lra)). lra.
Qed.
Lemma climb_far q w u : 0 < q_slope q -> 0 < g_ar w -> 1 + 1 / 10 ^ 14 <= u -> climb q w u < -100.
Proof.
  intros S A U. unfold climb. pose proof (clipped q w S A) as K. pose proof (stated_range w). set (k := wing_slope q w * (stall q - q_zero q)) in *. rewrite pw_pos by lra. pose proof (sharp_big w).
  replace (sharp w) with (1 + (sharp w - 1)) by ring. rewrite Rpower_plus, Rpower_1 by lra.
  assert (G : 2 ^ 99 <= Rpower u (sharp w - 1)).
  { eapply Rle_trans; [apply steep|]. eapply Rle_trans; [apply Rle_Rpower_l; [lra|split; [lra|exact U]]|]. apply Rle_Rpower; lra. }
  set (g := Rpower u (sharp w - 1)) in *. assert (tiny * (u * g) >= 1000 * u). { unfold tiny. assert (1 / 10 ^ 16 * g >= 1000) by lra. nra. }
  nra.
Qed.
(** ** after stall *)
Lemma cl2_range w : 0 <= g_tc w < 1 -> 0 < cl2_max w <= 119 / 100.
Proof.
  intro T. unfold cl2_max. set (e := exp _). assert (E : 0 < e <= 1) by (split; [apply exp_pos|]; unfold e; rewrite <- exp_0; left; apply exp_increasing; pose proof (exp_pos (23 / 10 * ln (9 / g_ar w))); unfold Rpower; lra).
  assert (0 < 1 - g_tc w * g_tc w <= 1) by nra. split; [apply Rmult_lt_0_compat; nra|]. replace (119 / 100) with (119 / 100 * 1 * 1) at 2 by ring. apply Rmult_le_compat; nra.
Qed.
Lemma fading_peak w u : 0 <= g_tc w < 1 -> fading w u <= cl2_max w /\ fading w 1 = cl2_max w /\ fading w 0 = 0.
Proof.
  intro T. pose proof (cl2_range w T). unfold fading. set (r := 1632 / 1000 - cl2_max w). assert (442 / 1000 <= r < 1632 / 1000) by (unfold r; lra). assert (N : 1 <= 1632 / 1000 / r) by (apply (Rmult_le_reg_r r); [lra|]; unfold Rdiv at 1; rewrite Rmult_assoc, Rinv_l by lra; lra). split; [|split].
  - destruct (Rle_lt_dec u 0) as [U|U]; [rewrite pw_0 by exact U; lra|]. rewrite pw_pos by exact U. pose proof (bernoulli u _ U N) as B. assert (r * (1 + 1632 / 1000 / r * (u - 1)) <= r * Rpower u (1632 / 1000 / r)) by (apply Rmult_le_compat_l; lra). replace (r * (1 + 1632 / 1000 / r * (u - 1))) with (r + 1632 / 1000 * (u - 1)) in * by (field; lra). unfold r in *. lra.
  - rewrite pw_pos, one_pow by lra. unfold r. lra.
  - rewrite pw_0 by lra. lra.
Qed.
Lemma fading_low w u : 0 <= g_tc w < 1 -> u <= 2 -> 0 <= u -> -30 <= fading w u.
Proof.
  intros T U U0. pose proof (cl2_range w T). unfold fading. set (r := 1632 / 1000 - cl2_max w). assert (442 / 1000 <= r < 1632 / 1000) by (unfold r; lra). set (N := 1632 / 1000 / r). assert (NB : 0 < N <= 4) by (unfold N; split; [apply Rdiv_lt_0_compat; lra|apply (Rmult_le_reg_r r); [lra|]; unfold Rdiv at 1; rewrite Rmult_assoc, Rinv_l by lra; lra]).
  assert (pw u N <= 16). { eapply Rle_trans; [apply (pw_mono u 2 N); lra|]. rewrite pw_pos by lra. eapply Rle_trans; [apply (Rle_Rpower 2 N 4); lra|]. replace 4 with (INR 4) by (cbn; lra). rewrite Rpower_pow by lra. lra. }
  pose proof (pw_nonneg u N). nra.
Qed.
Lemma side_none w A1 a : 0 <= A1 <= 92 * deg -> a <= 0 -> a < A1 -> lift_side w A1 a = None.
Proof.
  intros A N L. unfold lift_side. rewrite (proj2 (Rltb_false 0 a)) by exact N. rewrite (proj2 (Rltb_true a A1)) by exact L. rewrite (proj2 (Rltb_true a (92 * deg))) by lra. reflexivity.
Qed.
Lemma side_zero w A1 a : 0 <= A1 <= 92 * deg -> 0 < a -> a < A1 -> lift_side w A1 a = Some 0.
Proof.
  intros A N L. unfold lift_side. rewrite (proj2 (Rltb_true 0 a)) by exact N. rewrite (proj2 (Rltb_true a A1)) by exact L. rewrite (proj2 (Rltb_true a (92 * deg))) by lra. reflexivity.
Qed.
Lemma ratio_eq w : 0 <= g_tc w < 1 -> 1 + cl2_max w / (1632 / 1000 - cl2_max w) = 1632 / 1000 / (1632 / 1000 - cl2_max w).
Proof. intro T. pose proof (cl2_range w T). field. lra. Qed.
Lemma side_fading w A1 a : 0 <= g_tc w < 1 -> A1 <= a <= 92 * deg -> lift_side w A1 a = Some (fading w (below92 a)).
Proof.
  intros T A. pose proof deg_pos. unfold lift_side. rewrite (ratio_eq w T). rewrite (proj2 (Rltb_false a A1)) by lra. rewrite (proj2 (Rltb_false (92 * deg) a)) by lra. cbn [negb andb]. destruct (Rltb a (92 * deg)) eqn:E; cbn [negb]; unfold fading, below92; f_equal.
  - set (p := pw _ _). field. lra.
  - apply Rltb_false in E. assert (a = 92 * deg) by lra. subst a. replace (92 * deg - 92 * deg) with 0 by ring. unfold Rdiv. rewrite !Rmult_0_l, (pw_0 0) by lra. field. lra.
Qed.
Lemma side_beyond w A1 a : 0 <= g_tc w < 1 -> 92 * deg <= a -> lift_side w A1 a = Some (- fading w (- below92 a)).
Proof.
  intros T A. pose proof deg_pos. unfold lift_side. rewrite (ratio_eq w T). rewrite (proj2 (Rltb_false a (92 * deg))) by lra. cbn [negb]. unfold fading, below92. f_equal. replace (- ((92 * deg - a) / (51 * deg))) with ((a - 92 * deg) / (51 * deg)) by (field; lra). set (p := pw _ _). field. lra.
Qed.
Definition after w (a : R) : R := if Rltb a (92 * deg) then fading w (below92 a) else - fading w (- below92 a).
Lemma side_after w A1 a : 0 <= g_tc w < 1 -> A1 <= a -> lift_side w A1 a = Some (after w a).
Proof.
  intros T A. unfold after. destruct (Rltb a (92 * deg)) eqn:E; [apply Rltb_true in E; apply side_fading; [exact T|lra]|apply Rltb_false in E; apply side_beyond; assumption].
Qed.
Lemma post_lift q re w a : sensible q w -> g_vert w = false ->
  fst (post_stall q w (sec q re w) (fin q re w) a) =
  if Rltb a (stall q) then (if Rltb (2 * q_zero q - stall q) a then 0 else - after w (2 * q_zero q - a)) else after w a.
Proof.
  intros [S A T Z ST] V. unfold post_stall, attack. rewrite V. cbn [fst]. rewrite sec_stall. pose proof (gap_pos q S). replace (- a + 2 * q_zero q) with (2 * q_zero q - a) by ring. set (an := 2 * q_zero q - a).
  destruct (Rltb a (stall q)) eqn:E.
  - apply Rltb_true in E. destruct (Rltb (2 * q_zero q - stall q) a) eqn:F.
    + apply Rltb_true in F. assert (an < stall q) by (unfold an; lra). destruct (Rle_lt_dec an 0) as [N|N].
      * rewrite side_none by (assumption || lra). destruct (Rle_lt_dec a 0) as [M|M]; [rewrite side_none by (assumption || lra)|rewrite side_zero by (assumption || lra)]; reflexivity.
      * rewrite side_zero by (assumption || lra). ring.
    + apply Rltb_false in F. rewrite side_after by (assumption || (unfold an; lra)). reflexivity.
  - apply Rltb_false in E. rewrite (side_none w (stall q) an) by (assumption || (unfold an; lra)). rewrite side_after by (assumption || lra). reflexivity.
Qed.
Lemma lift_eq q re w a : sensible q w -> g_vert w = false -> q_zero q < a ->
  lift q re w a = Rmax (climb q w ((a - q_zero q) / (stall q - q_zero q))) (if Rltb a (stall q) then 0 else after w a).
Proof.
  intros SE V G. destruct SE as [S A T Z ST] eqn:SE'. clear SE'. unfold lift, wing_polar. cbn [fst]. fold (sec q re w). fold (fin q re w). rewrite pre_lift, post_lift by assumption. rewrite (proj2 (Rltb_true (q_zero q) a)) by exact G. pose proof (gap_pos q S).
  f_equal. destruct (Rltb a (stall q)); [|reflexivity]. rewrite (proj2 (Rltb_true _ a)) by lra. reflexivity.
Qed.
Lemma lift_odd q re w a : sensible q w -> g_vert w = false -> lift q re w (2 * q_zero q - a) = - lift q re w a.
Proof.
  assert (H : forall a, sensible q w -> g_vert w = false -> q_zero q < a -> lift q re w (2 * q_zero q - a) = - lift q re w a).
  { intros b SE V G. rewrite (lift_eq q re w b SE V G). destruct SE as [S A T Z ST] eqn:SE'. clear SE'. unfold lift, wing_polar. cbn [fst]. fold (sec q re w). fold (fin q re w). rewrite pre_lift, post_lift by assumption. rewrite (proj2 (Rltb_false (q_zero q) _)) by lra. pose proof (gap_pos q S).
    replace (q_zero q - (2 * q_zero q - b)) with (b - q_zero q) by ring. replace (2 * q_zero q - (2 * q_zero q - b)) with b by ring. rewrite (proj2 (Rltb_true (2 * q_zero q - b) (stall q))) by lra.
    set (c := climb q w _). destruct (Rltb b (stall q)) eqn:E.
    - apply Rltb_true in E. rewrite (proj2 (Rltb_true _ (2 * q_zero q - b))) by lra. transitivity (Rmin (- c) (- 0)); [f_equal; ring|symmetry; apply Ropp_Rmax].
    - apply Rltb_false in E. rewrite (proj2 (Rltb_false _ (2 * q_zero q - b))) by lra. rewrite <- Ropp_Rmax. reflexivity. }
  intros SE V. destruct (Rtotal_order a (q_zero q)) as [L|[E|L]].
  - pose proof (H (2 * q_zero q - a) SE V ltac:(lra)) as K. replace (2 * q_zero q - (2 * q_zero q - a)) with a in K by ring. lra.
  - subst a. replace (2 * q_zero q - q_zero q) with (q_zero q) by ring. assert (lift q re w (q_zero q) = 0); [|lra]. destruct SE as [S A T Z ST] eqn:SE'. clear SE'. unfold lift, wing_polar. cbn [fst]. fold (sec q re w). fold (fin q re w). rewrite pre_lift, post_lift by assumption. rewrite (proj2 (Rltb_false (q_zero q) _)) by lra. pose proof (gap_pos q S).
    rewrite (proj2 (Rltb_true (q_zero q) (stall q))) by lra. rewrite (proj2 (Rltb_true _ (q_zero q))) by lra. unfold climb. replace (q_zero q - q_zero q) with 0 by ring. unfold Rdiv. rewrite Rmult_0_l, (pw_0 0) by lra. rewrite Rmin_left; lra.
  - apply H; assumption.
Qed.
(** ** drag *)
Lemma angle_later q w : stall q < drag_angle q w.
Proof. unfold drag_angle. pose proof deg_pos. assert (0 < Rpower (g_ar w) (- (9 / 10))) by apply exp_pos. assert (0 < 273 / 10 * Rpower (g_ar w) (- (9 / 10)) * deg) by (apply Rmult_lt_0_compat; [apply Rmult_lt_0_compat|]; lra). lra. Qed.
Lemma least_pos re w : 0 <= g_tc w -> 0 < least_drag re w.
Proof.
  intro T. unfold least_drag. apply Rmult_lt_0_compat; [|apply exp_pos]. apply Rmult_lt_0_compat; [lra|]. assert (0 < Rpower 6 (g_tc w)) by apply exp_pos. assert (0 <= g_tc w * Rpower 6 (g_tc w)) by (apply Rmult_le_pos; lra). lra.
Qed.
Lemma stall_more re w : 0 <= g_tc w -> 10 * least_drag re w < stall_drag re w.
Proof. intro T. unfold stall_drag. assert (0 < Rpower (g_ar w) (- (9 / 10))) by apply exp_pos. lra. Qed.
Definition rise q re w (b : R) : R := stall_drag re w + (cd2_max w - stall_drag re w) * sin ((b - drag_angle q w) / (PI / 2 - drag_angle q w)).
Definition bowl q re w (a : R) : R := least_drag re w + (stall_drag re w - least_drag re w) * ((a - q_min q) / (drag_angle q w - q_min q)) ^ 2.
Lemma drag_eq q re w a : 0 < q_slope q -> g_vert w = false -> drag q re w a =
  Rmax (if negb (Rltb a (2 * q_zero q - drag_angle q w)) && negb (Rltb (drag_angle q w) a) then bowl q re w a else 0)
       (if Rltb (drag_angle q w) a then rise q re w a else if Rltb (2 * q_zero q - drag_angle q w) a then 0 else rise q re w (2 * q_zero q - a)).
Proof.
  intros S V. unfold drag, wing_polar. cbn [snd]. fold (sec q re w). fold (fin q re w). unfold pre_stall, post_stall, attack. rewrite V. cbn [snd]. rewrite fin_acd, fin_cdmax, sec_cd0, sec_stall. change (x_mid (sec q re w)) with (q_min q). fold (bowl q re w a). f_equal.
  replace (- a + 2 * q_zero q) with (2 * q_zero q - a) by ring. fold (rise q re w a). fold (rise q re w (2 * q_zero q - a)). pose proof (angle_later q w). pose proof (gap_pos q S).
  destruct (Rltb (drag_angle q w) a) eqn:E.
  - apply Rltb_true in E. rewrite (proj2 (Rltb_true (2 * q_zero q - a) (drag_angle q w))) by lra. cbn [negb]. rewrite (proj2 (Rltb_false (2 * q_zero q - stall q) (2 * q_zero q - a))) by lra. reflexivity.
  - apply Rltb_false in E. destruct (Rltb (2 * q_zero q - drag_angle q w) a) eqn:F.
    + apply Rltb_true in F. rewrite (proj2 (Rltb_true (2 * q_zero q - a) (drag_angle q w))) by lra. cbn [negb]. repeat match goal with |- context [if ?b then 0 else _] => destruct b end; reflexivity.
    + apply Rltb_false in F. rewrite (proj2 (Rltb_false (2 * q_zero q - a) (drag_angle q w))) by lra. reflexivity.
Qed.
