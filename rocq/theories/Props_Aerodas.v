(** * AERODAS: C137-C139 *)
From Coq Require Import Reals List Bool Permutation Lra Lia Psatz.
From Verif Require Import PyBase M_Opt M_Drag M_Aerodas S_Aerodas P_Opt P_Super P_Aerodas.
From Verif Require P_Field2.
Import ListNotations.
Local Open Scope R_scope.
Local Open Scope list_scope.

(** ** C137 lift *)
(** lift is odd about the angle of zero lift *)
Theorem C137_odd q re w a : sensible q w -> horizontal w -> lift q re w (2 * q_zero q - a) = - lift q re w a.
Proof. intros S H. apply lift_odd; assumption. Qed.
(** between zero lift and stall, lift is the slope times the angle, up to 1e-16 *)
Theorem C137_linear q re w a : sensible q w -> horizontal w -> q_zero q < a < stall q -> 0 <= wing_slope q w * (a - q_zero q) - lift q re w a <= 1 / 10 ^ 16.
Proof.
  intros SE H A. rewrite lift_eq by (assumption || lra). rewrite (proj2 (Rltb_true a _)) by lra. pose proof (gap_pos q (s_slope _ _ SE)) as G. pose proof (slope_pos q w (s_slope _ _ SE) (s_ar _ _ SE)). fold tiny.
  set (u := (a - q_zero q) / (stall q - q_zero q)). assert (U : u * (stall q - q_zero q) = a - q_zero q) by (unfold u; field; lra). assert (UB : 0 <= u <= 1) by (split; [unfold u; apply Rlt_le, Rdiv_lt_0_compat; lra|apply (Rmult_le_reg_r (stall q - q_zero q)); lra]).
  pose proof (climb_linear q w u UB) as L. replace (wing_slope q w * (stall q - q_zero q) * u) with (wing_slope q w * (a - q_zero q)) in L by (rewrite <- U; ring). assert (0 <= wing_slope q w * (a - q_zero q)) by (apply Rmult_le_pos; lra).
  unfold Rmax. destruct (Rle_dec _ _); lra.
Qed.
(** from a hundred-billionth of a thousandth past stall up to 92 degrees, and beyond, it is the post-stall curve *)
Theorem C137_fading q re w a : sensible q w -> horizontal w -> q_zero q + (1 + 1 / 10 ^ 14) * (stall q - q_zero q) <= a <= 92 * deg -> lift q re w a = fading w (below92 a).
Proof.
  intros SE H A. pose proof (gap_pos q (s_slope _ _ SE)) as G. pose proof deg_pos. assert (SA : stall q <= a) by nra. rewrite lift_eq by (assumption || lra). rewrite (proj2 (Rltb_false a _)) by lra.
  assert (C : climb q w ((a - q_zero q) / (stall q - q_zero q)) < -100) by (apply climb_far; [apply SE|apply SE|apply (Rmult_le_reg_r (stall q - q_zero q)); [lra|]; unfold Rdiv at 2; rewrite Rmult_assoc, Rinv_l by lra; lra]).
  assert (E : after w a = fading w (below92 a)).
  { pose proof (side_after w (stall q) a (s_tc _ _ SE) SA) as E1. rewrite side_fading in E1 by (try apply SE; lra). injection E1 as E1. symmetry. exact E1. }
  rewrite E. apply Rmax_right. pose proof (s_stall _ _ SE). pose proof (fading_low w (below92 a) (s_tc _ _ SE)) as F. assert (below92 a <= 2) by (unfold below92; apply (Rmult_le_reg_r (51 * deg)); [lra|]; unfold Rdiv; rewrite Rmult_assoc, Rinv_l by lra; lra).
  assert (0 <= below92 a) by (unfold below92; apply Rmult_le_pos; [lra|left; apply Rinv_0_lt_compat; lra]). specialize (F ltac:(assumption) ltac:(assumption)). lra.
Qed.
(** that curve is greatest at 41 degrees, where it is the stated post-stall maximum, which lies between 0 and 1.19, and vanishes at 92 degrees *)
Theorem C137_post_maximum q re w : sensible q w -> horizontal w -> q_zero q + (1 + 1 / 10 ^ 14) * (stall q - q_zero q) <= 41 * deg ->
  lift q re w (41 * deg) = cl2_max w /\ 0 < cl2_max w <= 119 / 100 /\ lift q re w (92 * deg) = 0 /\ (forall a, q_zero q + (1 + 1 / 10 ^ 14) * (stall q - q_zero q) <= a <= 92 * deg -> lift q re w a <= lift q re w (41 * deg)).
Proof.
  intros SE H A. pose proof deg_pos. assert (E : lift q re w (41 * deg) = cl2_max w) by (rewrite C137_fading by (assumption || lra); replace (below92 (41 * deg)) with 1 by (unfold below92; field; lra); apply (fading_peak w 0), SE). split; [exact E|]. split; [apply cl2_range, SE|]. split.
  - rewrite C137_fading by (assumption || lra). replace (below92 (92 * deg)) with 0 by (unfold below92; field; lra). apply (fading_peak w 0), SE.
  - intros a B. rewrite E, C137_fading by assumption. apply fading_peak, SE.
Qed.
Definition q1 : aset := {| q_zero := 0; q_slope := 2 * PI; q_min := 0; q_more := 0; q_ref := 10 |}.
Definition w1 : awing := {| g_ar := 10; g_tc := 12 / 100; g_mac := 1; g_vert := false; g_area := 10 |}.
Lemma q1_stall : stall q1 = 15 / 10 / (2 * PI).
Proof. unfold stall. cbn. ring. Qed.
Example C137_case : sensible q1 w1 /\ horizontal w1 /\ q_zero q1 + (1 + 1 / 10 ^ 14) * (stall q1 - q_zero q1) <= 41 * deg.
Proof.
  assert (P : 3 < PI < 315 / 100) by (split; [pose proof PI2_3_2; unfold PI2 in *; pose proof PI2_RGT_0; lra|apply P_Field2.PI_315]). assert (B : 0 < stall q1 < 1 / 4) by (rewrite q1_stall; split; [apply Rdiv_lt_0_compat; lra|apply (Rmult_lt_reg_r (2 * PI)); [lra|]; unfold Rdiv at 1; rewrite Rmult_assoc, Rinv_l by lra; lra]).
  split; [constructor|split]; cbn [q_slope q_zero g_ar g_tc q1 w1]; unfold deg; try lra. reflexivity.
Qed.
(** the stated maximum before stall is not reached at any angle by the pre-stall coefficient: whatever the aspect ratio, the slope times the section's stall angle is less *)
Theorem C137_maximum_refuted q re w a : 0 < q_slope q -> 0 < g_ar w -> horizontal w -> q_zero q < a ->
  let x := section_properties q re w in let y := finite_aspect_ratio q w x in fst (pre_stall q w x y a) < y_clmax y /\ y_slope y * (x_stall x - q_zero q) < y_clmax y.
Proof.
  intros S A H G x y. change x with (sec q re w) in *. change y with (fin q re w). rewrite pre_lift by assumption. rewrite (proj2 (Rltb_true _ _)) by exact G. rewrite fin_max, fin_slope. change (x_stall x) with (stall q). split; [apply climb_below; assumption|apply clipped; assumption].
Qed.
(** the wing's slope is less than the section's, and greater for greater aspect ratio *)
Theorem C137_slope q w w' : 0 < q_slope q -> 0 < g_ar w < g_ar w' -> 0 < wing_slope q w < wing_slope q w' /\ wing_slope q w' < q_slope q.
Proof.
  intros S A. assert (G : forall x, 0 < x -> x / (2 + sqrt (4 + x ^ 2)) = (sqrt (4 + x ^ 2) - 2) / x). { intros x X. assert (SS : sqrt (4 + x ^ 2) * sqrt (4 + x ^ 2) = 4 + x ^ 2) by (apply sqrt_sqrt; nra). pose proof (sqrt_pos (4 + x ^ 2)). set (s := sqrt _) in *. apply (Rmult_eq_reg_r (x * (2 + s))); [|apply Rmult_integral_contrapositive_currified; lra]. replace (x / (2 + s) * (x * (2 + s))) with (x ^ 2) by (field; lra). replace ((s - 2) / x * (x * (2 + s))) with (s * s - 4) by (field; lra). lra. }
  assert (E : forall w, wing_slope q w = q_slope q * (g_ar w / (2 + sqrt (4 + g_ar w ^ 2)))) by (intro; unfold wing_slope, Rdiv; ring).
  assert (B : forall x, 0 < x -> x < sqrt (4 + x ^ 2)) by (intros x X; rewrite <- (sqrt_pow2 x) at 1 by lra; apply sqrt_lt_1_alt; nra).
  split; [split|].
  - apply slope_pos; lra.
  - rewrite !E. apply Rmult_lt_compat_l; [exact S|]. set (x := g_ar w) in *. set (y := g_ar w') in *. pose proof (B x ltac:(lra)). pose proof (B y ltac:(lra)). assert (SX : sqrt (4 + x ^ 2) * sqrt (4 + x ^ 2) = 4 + x ^ 2) by (apply sqrt_sqrt; nra). assert (SY : sqrt (4 + y ^ 2) * sqrt (4 + y ^ 2) = 4 + y ^ 2) by (apply sqrt_sqrt; nra). set (s := sqrt (4 + x ^ 2)) in *. set (t := sqrt (4 + y ^ 2)) in *.
    apply (Rmult_lt_reg_r ((2 + s) * (2 + t))); [nra|]. replace (x / (2 + s) * ((2 + s) * (2 + t))) with (2 * x + x * t) by (field; lra). replace (y / (2 + t) * ((2 + s) * (2 + t))) with (2 * y + y * s) by (field; lra). assert (x * t < y * s); [|lra]. apply Rsqr_incrst_0; unfold Rsqr; [|nra|nra]. replace (x * t * (x * t)) with (x * x * (t * t)) by ring. replace (y * s * (y * s)) with (y * y * (s * s)) by ring. rewrite SX, SY. nra.
  - rewrite E. pose proof (B (g_ar w') ltac:(lra)). set (y := g_ar w') in *. set (t := sqrt (4 + y ^ 2)) in *. rewrite <- (Rmult_1_r (q_slope q)) at 2. apply Rmult_lt_compat_l; [exact S|]. apply (Rmult_lt_reg_r (2 + t)); [lra|]. unfold Rdiv. rewrite Rmult_assoc, Rinv_l by lra. lra.
Qed.

(** ** C138 drag *)
(** up to the angle of maximum pre-stall drag on both sides: a parabola from the least drag to the stall drag; the least drag is positive *)
Theorem C138_parabola q re w a : 0 < q_slope q -> 0 <= g_tc w -> horizontal w -> q_min q = q_zero q -> 2 * q_zero q - drag_angle q w <= a <= drag_angle q w ->
  drag q re w a = least_drag re w + (stall_drag re w - least_drag re w) * ((a - q_zero q) / (drag_angle q w - q_zero q)) ^ 2 /\ 0 < least_drag re w /\ least_drag re w <= drag q re w a <= stall_drag re w.
Proof.
  intros S T H M A. pose proof (angle_later q w). pose proof (gap_pos q S). pose proof (least_pos re w T). pose proof (stall_more re w T).
  set (u := (a - q_zero q) / (drag_angle q w - q_zero q)). assert (U : u * (drag_angle q w - q_zero q) = a - q_zero q) by (unfold u; field; lra). assert (UB : -1 <= u <= 1) by (split; apply (Rmult_le_reg_r (drag_angle q w - q_zero q)); lra). assert (UQ : 0 <= u ^ 2 <= 1) by nra.
  assert (B : bowl q re w a = least_drag re w + (stall_drag re w - least_drag re w) * u ^ 2) by (unfold bowl; rewrite M; reflexivity).
  assert (E : drag q re w a = least_drag re w + (stall_drag re w - least_drag re w) * u ^ 2).
  { rewrite drag_eq by assumption. rewrite (proj2 (Rltb_false a _)), !(proj2 (Rltb_false (drag_angle q w) a)) by lra. cbn [negb andb]. rewrite B. destruct (Rltb _ a) eqn:F.
    - apply Rmax_left. nra.
    - apply Rltb_false in F. assert (a = 2 * q_zero q - drag_angle q w) by lra. unfold rise. replace (2 * q_zero q - a - drag_angle q w) with 0 by lra. unfold Rdiv. rewrite Rmult_0_l, sin_0. replace u with (-1) by (apply (Rmult_eq_reg_r (drag_angle q w - q_zero q)); lra). rewrite Rmax_left; lra. }
  split; [exact E|]. rewrite E. split; [assumption|]. nra.
Qed.
(** drag is even about the angle of zero lift *)
Theorem C138_even q re w a : 0 < q_slope q -> 0 <= g_tc w -> horizontal w -> q_min q = q_zero q -> drag q re w (2 * q_zero q - a) = drag q re w a.
Proof.
  intros S T H M. pose proof (angle_later q w). pose proof (gap_pos q S). destruct (Rle_lt_dec (2 * q_zero q - drag_angle q w) a) as [L|L]; [destruct (Rle_lt_dec a (drag_angle q w)) as [K|K]|].
  - rewrite (proj1 (C138_parabola q re w a S T H M ltac:(lra))), (proj1 (C138_parabola q re w (2 * q_zero q - a) S T H M ltac:(lra))). f_equal. f_equal. replace (2 * q_zero q - a - q_zero q) with (- (a - q_zero q)) by ring. unfold Rdiv. ring.
  - rewrite !drag_eq by assumption. rewrite (proj2 (Rltb_true (drag_angle q w) a)) by lra. rewrite (proj2 (Rltb_true (2 * q_zero q - a) _)) by lra. rewrite (proj2 (Rltb_false (drag_angle q w) (2 * q_zero q - a))) by lra. rewrite (proj2 (Rltb_false (2 * q_zero q - drag_angle q w) (2 * q_zero q - a))) by lra. cbn [negb andb]. rewrite andb_false_r. replace (2 * q_zero q - (2 * q_zero q - a)) with a by ring. reflexivity.
  - rewrite !drag_eq by assumption. rewrite (proj2 (Rltb_true (drag_angle q w) (2 * q_zero q - a))) by lra. rewrite (proj2 (Rltb_true a (2 * q_zero q - drag_angle q w))) by lra. rewrite (proj2 (Rltb_false (drag_angle q w) a)) by lra. rewrite (proj2 (Rltb_false (2 * q_zero q - drag_angle q w) a)) by lra. cbn [negb andb]. rewrite andb_false_r. reflexivity.
Qed.
(** beyond that angle, as long as the sine has not come back to 0, drag lies between the stall drag and the stated post-stall maximum, whichever is greater; it joins the parabola without a step *)
Theorem C138_beyond q re w a : 0 < q_slope q -> 0 <= g_tc w -> horizontal w -> drag_angle q w < PI / 2 -> drag_angle q w < a <= drag_angle q w + PI * (PI / 2 - drag_angle q w) ->
  Rmin (stall_drag re w) (cd2_max w) <= drag q re w a <= Rmax (stall_drag re w) (cd2_max w) /\
  drag q re w a = stall_drag re w + (cd2_max w - stall_drag re w) * sin ((a - drag_angle q w) / (PI / 2 - drag_angle q w)).
Proof.
  intros S T H P A. pose proof (stall_more re w T). pose proof (least_pos re w T). assert (C : 0 < cd2_max w). { unfold cd2_max. repeat apply Rmult_lt_0_compat; try lra; try apply exp_pos. pose proof (exp_pos (- Rpower (65 / 10 / g_ar w) (11 / 10))). lra. }
  set (x := (a - drag_angle q w) / (PI / 2 - drag_angle q w)). assert (X : x * (PI / 2 - drag_angle q w) = a - drag_angle q w) by (unfold x; field; lra). assert (XB : 0 <= x <= PI) by (split; [unfold x; apply Rlt_le, Rdiv_lt_0_compat; lra|apply (Rmult_le_reg_r (PI / 2 - drag_angle q w)); lra]).
  pose proof (sin_ge_0 x (proj1 XB) (proj2 XB)) as S0. pose proof (SIN_bound x) as [_ S1]. assert (RP : 0 < rise q re w a) by (unfold rise; fold x; nra).
  assert (E : drag q re w a = rise q re w a) by (rewrite drag_eq by assumption; rewrite !(proj2 (Rltb_true (drag_angle q w) a)) by lra; cbn [negb]; rewrite andb_false_r; apply Rmax_right; lra).
  split; [|exact E]. rewrite E. unfold rise. fold x. unfold Rmin, Rmax. destruct (Rle_dec _ _); nra.
Qed.
Example C138_case : 0 < q_slope q1 /\ 0 <= g_tc w1 /\ horizontal w1 /\ q_min q1 = q_zero q1 /\ drag_angle q1 w1 < PI / 2.
Proof.
  assert (P : 3 < PI < 315 / 100) by (split; [pose proof PI2_3_2; unfold PI2 in *; pose proof PI2_RGT_0; lra|apply P_Field2.PI_315]). assert (B : stall q1 < 1 / 4) by (rewrite q1_stall; apply (Rmult_lt_reg_r (2 * PI)); [lra|]; unfold Rdiv at 1; rewrite Rmult_assoc, Rinv_l by lra; lra).
  split; [cbn; lra|]. split; [cbn; lra|]. split; [reflexivity|]. split; [reflexivity|]. unfold drag_angle, deg. cbn [g_ar w1]. assert (Rpower 10 (- (9 / 10)) < 1) by (rewrite <- (Rpower_O 10) by lra; apply Rpower_lt; lra). assert (0 < Rpower 10 (- (9 / 10))) by apply exp_pos. set (r := Rpower _ _) in *. assert (r * PI < PI) by nra. lra.
Qed.
(** broadside to the wind (90 degrees) the drag is not the stated post-stall maximum: the sine is taken of 1 radian *)
Theorem C138_broadside_refuted q re w : 0 < q_slope q -> 0 <= g_tc w -> horizontal w -> drag_angle q w < PI / 2 -> stall_drag re w < cd2_max w -> drag q re w (PI / 2) = stall_drag re w + (cd2_max w - stall_drag re w) * sin 1 /\ drag q re w (PI / 2) < cd2_max w.
Proof.
  intros S T H P C. pose proof PI2_1. assert (E : drag q re w (PI / 2) = stall_drag re w + (cd2_max w - stall_drag re w) * sin 1) by (rewrite (proj2 (C138_beyond q re w (PI / 2) S T H P ltac:(nra))); do 3 f_equal; field; lra). split; [exact E|]. rewrite E. assert (I : sin 1 < sin (PI / 2)) by (apply sin_increasing_1; lra). rewrite sin_PI2 in I. nra.
Qed.
(** the least drag falls with the Reynolds number and grows with the thickness *)
Theorem C138_least re re' w w' : 0 < re * g_mac w -> 0 <= g_tc w ->
  (re * g_mac w < re' * g_mac w' -> g_tc w' = g_tc w -> least_drag re' w' < least_drag re w) /\ (re' * g_mac w' = re * g_mac w -> g_tc w < g_tc w' -> least_drag re w < least_drag re' w').
Proof.
  intros R T. unfold least_drag. assert (P : forall t, 0 <= t -> 0 < 1 + 22 / 10 * t + 121 / 200 * t * Rpower 6 t) by (intros t Ht; assert (0 < Rpower 6 t) by apply exp_pos; assert (0 <= t * Rpower 6 t) by (apply Rmult_le_pos; lra); lra). split.
  - intros L E. rewrite E. apply Rmult_lt_compat_l; [pose proof (P _ T); lra|]. rewrite !Rpower_Ropp. apply Rinv_lt_contravar; [apply Rmult_lt_0_compat; apply exp_pos|apply Rlt_Rpower_l; lra].
  - intros E L. rewrite E. apply Rmult_lt_compat_r; [apply exp_pos|]. apply Rmult_lt_compat_l; [lra|]. assert (0 < Rpower 6 (g_tc w)) by apply exp_pos. assert (Rpower 6 (g_tc w) < Rpower 6 (g_tc w')) by (apply Rpower_lt; lra). assert (g_tc w * Rpower 6 (g_tc w) < g_tc w' * Rpower 6 (g_tc w')) by nra. lra.
Qed.

(** ** C139 totals *)
Lemma totals q re a ws : forall t, fold_left (fun t w => let c := wing_polar q re a w in (if g_vert w then fst t else fst t + fst c * g_area w / q_ref q, snd t + snd c * g_area w / q_ref q)) ws t =
  (fst t + sum_over (fun w => if g_vert w then 0 else lift q re w a * g_area w / q_ref q) ws, snd t + sum_over (fun w => drag q re w a * g_area w / q_ref q) ws).
Proof.
  induction ws as [|w ws IH]; intro t; cbn [fold_left sum_over]; [rewrite !Rplus_0_r; destruct t; reflexivity|]. rewrite IH. cbn [fst snd]. fold (lift q re w a). fold (drag q re w a). destruct (g_vert w); f_equal; ring.
Qed.
(** lift adds up over the wings that are not vertical, drag over all, each times its share of the reference area, plus the increment once *)
Theorem C139_sum q re a ws : lift_drag_total q re a ws = (sum_over (fun w => if g_vert w then 0 else lift q re w a * g_area w / q_ref q) ws, sum_over (fun w => drag q re w a * g_area w / q_ref q) ws + q_more q).
Proof. unfold lift_drag_total. rewrite totals. cbn [fst snd]. rewrite !Rplus_0_l. reflexivity. Qed.
Lemma sum_perm f l l' : Permutation l l' -> sum_over f l = sum_over f l'.
Proof. intro P. induction P; cbn [sum_over]; lra. Qed.
Theorem C139_order q re a ws ws' : Permutation ws ws' -> lift_drag_total q re a ws = lift_drag_total q re a ws'.
Proof. intro P. rewrite !C139_sum. f_equal; [apply sum_perm, P|f_equal; apply sum_perm, P]. Qed.
(** vertical wings have the drag of no angle of attack, whatever the vehicle's *)
Definition laid (w : awing) : awing := {| g_vert := false; g_area := g_area w; g_ar := g_ar w; g_tc := g_tc w; g_mac := g_mac w |}.
Theorem C139_vertical q re w a : g_vert w = true -> drag q re w a = drag q re (laid w) 0.
Proof. intro V. unfold drag, wing_polar. cbn [snd]. unfold pre_stall, post_stall, attack. rewrite V. reflexivity. Qed.
(** the greatest coefficients after stall lie between those of a very short and a very long wing and grow with the aspect ratio *)
Theorem C137_level w w' : 0 <= g_tc w < 1 -> 0 < g_ar w < g_ar w' -> g_tc w' = g_tc w ->
  119 / 100 * (1 - g_tc w ^ 2) * (65 / 100) < cl2_max w /\ cl2_max w < cl2_max w' /\ cl2_max w' < 119 / 100 * (1 - g_tc w ^ 2).
Proof.
  intros T A E. unfold cl2_max. rewrite E. set (k := 119 / 100 * (1 - g_tc w * g_tc w)). assert (K : 0 < k) by (unfold k; nra). replace (119 / 100 * (1 - g_tc w ^ 2)) with k by (unfold k; ring).
  set (x := Rpower (9 / g_ar w) (23 / 10)). set (x' := Rpower (9 / g_ar w') (23 / 10)). assert (X' : 0 < x') by apply exp_pos.
  assert (L : 9 / g_ar w' < 9 / g_ar w) by (apply Rmult_lt_compat_l; [lra|apply Rinv_lt_contravar; [apply Rmult_lt_0_compat; lra|lra]]).
  assert (X : x' < x) by (apply Rlt_Rpower_l; [lra|split; [apply Rdiv_lt_0_compat; lra|exact L]]).
  assert (E1 : 0 < exp (- x)) by apply exp_pos. assert (E2 : exp (- x) < exp (- x')) by (apply exp_increasing; lra). assert (E3 : exp (- x') < 1) by (rewrite <- exp_0; apply exp_increasing; lra). repeat split; nra.
Qed.
Theorem C138_level w w' : 0 <= g_tc w -> 0 < g_ar w < g_ar w' -> g_tc w' = g_tc w -> cd2_max w < cd2_max w' < 23 / 10 /\ (g_tc w = 0 -> 23 / 10 * (52 / 100) < cd2_max w).
Proof.
  intros T A E. unfold cd2_max. rewrite E. set (t := exp (- pw (65 / 100 * g_tc w) (9 / 10))). assert (T0 : 0 < t) by apply exp_pos. assert (T1 : t <= 1) by (unfold t; rewrite <- exp_0; pose proof (pw_nonneg (65 / 100 * g_tc w) (9 / 10)) as [P|P]; [left; apply exp_increasing; lra|rewrite <- P, Ropp_0; lra]).
  set (x := Rpower (65 / 10 / g_ar w) (11 / 10)). set (x' := Rpower (65 / 10 / g_ar w') (11 / 10)). assert (X' : 0 < x') by apply exp_pos.
  assert (L : 65 / 10 / g_ar w' < 65 / 10 / g_ar w) by (apply Rmult_lt_compat_l; [lra|apply Rinv_lt_contravar; [apply Rmult_lt_0_compat; lra|lra]]).
  assert (X : x' < x) by (apply Rlt_Rpower_l; [lra|split; [apply Rdiv_lt_0_compat; lra|exact L]]).
  assert (E1 : 0 < exp (- x)) by apply exp_pos. assert (E2 : exp (- x) < exp (- x')) by (apply exp_increasing; lra). assert (E3 : exp (- x') < 1) by (rewrite <- exp_0; apply exp_increasing; lra). split; [split; nra|].
  intro Z. assert (t = 1) by (unfold t; rewrite Z, Rmult_0_r; rewrite (pw_0 0 (9 / 10)) by lra; rewrite Ropp_0; apply exp_0). nra.
Qed.
(** so the vehicle's lift is odd and its drag even about the angle of zero lift *)
Theorem C139_mirror q re a ws : q_min q = q_zero q -> Forall (sensible q) ws -> fst (lift_drag_total q re (2 * q_zero q - a) ws) = - fst (lift_drag_total q re a ws) /\ snd (lift_drag_total q re (2 * q_zero q - a) ws) = snd (lift_drag_total q re a ws).
Proof.
  intros M F. rewrite !C139_sum. cbn [fst snd]. induction F as [|w ws SE _ [IH1 IH2]]; cbn [sum_over]; [split; ring|]. split.
  - rewrite IH1. destruct (g_vert w) eqn:V; [ring|]. rewrite (lift_odd q re w a SE V). unfold Rdiv. ring.
  - assert (E : drag q re w (2 * q_zero q - a) = drag q re w a); [|rewrite E; lra]. destruct (g_vert w) eqn:V; [rewrite !(C139_vertical q re w) by exact V; reflexivity|apply C138_even; try apply SE; assumption].
Qed.
Example C139_case : q_min q1 = q_zero q1 /\ Forall (sensible q1) [w1; w1].
Proof. split; [reflexivity|]. pose proof (proj1 C137_case). apply Forall_cons; [assumption|apply Forall_cons; [assumption|apply Forall_nil]]. Qed.
(** before stall the vehicle's lift is the area-weighted slope times the angle, up to 1e-16 per wing's share *)
Theorem C139_linear q re a ws : 0 < q_ref q -> Forall (sensible q) ws -> Forall (fun w => horizontal w /\ 0 <= g_area w) ws -> q_zero q < a < stall q ->
  0 <= sum_over (fun w => wing_slope q w * g_area w / q_ref q) ws * (a - q_zero q) - fst (lift_drag_total q re a ws) <= sum_over (fun w => g_area w / q_ref q) ws * (1 / 10 ^ 16).
Proof.
  intros R F G A. rewrite C139_sum. cbn [fst]. assert (IR : 0 < / q_ref q) by (apply Rinv_0_lt_compat, R). induction F as [|w ws SE _ IH]; cbn [sum_over]; [lra|]. inversion G as [|? ? [H N] G']; subst. specialize (IH G'). unfold horizontal in H. rewrite H.
  pose proof (C137_linear q re w a SE H A) as L. set (l := lift q re w a) in *. assert (K : 0 <= g_area w / q_ref q) by (apply Rmult_le_pos; lra). set (k := g_area w / q_ref q) in *.
  replace (l * g_area w / q_ref q) with (l * k) by (unfold k, Rdiv; ring). replace (wing_slope q w * g_area w / q_ref q) with (wing_slope q w * k) by (unfold k, Rdiv; ring). set (s := wing_slope q w) in *. set (t := 1 / 10 ^ 16) in *. clearbody t. nra.
Qed.
Print Assumptions C137_odd.
Print Assumptions C137_linear.
Print Assumptions C137_fading.
Print Assumptions C137_post_maximum.
Print Assumptions C137_maximum_refuted.
Print Assumptions C137_slope.
Print Assumptions C138_parabola.
Print Assumptions C138_even.
Print Assumptions C138_beyond.
Print Assumptions C138_broadside_refuted.
Print Assumptions C138_least.
Print Assumptions C139_sum.
Print Assumptions C139_order.
Print Assumptions C139_vertical.
Print Assumptions C139_mirror.
Print Assumptions C139_linear.
Print Assumptions C137_level.
Print Assumptions C138_level.
