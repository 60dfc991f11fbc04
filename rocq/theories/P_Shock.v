(** * Shocks: proofs *)
From Coq Require Import Reals Lra List Lia Psatz.
From Verif Require Import M_Opt P_Opt M_Engine S_Engine P_Engine.
Import ListNotations.
Local Open Scope R_scope.

(** ** The shock itself, in terms of [m], the square of the normal Mach number *)
Definition sN (g m : R) : R := 2 * g * m - (g - 1).
Definition sD (g m : R) : R := (g - 1) * m + 2.
Lemma sN_pos : forall g m, 1 < g -> 1 <= m -> 0 < sN g m. Proof. intros; unfold sN; nra. Qed.
Lemma sD_pos : forall g m, 1 < g -> 1 <= m -> 0 < sD g m. Proof. intros; unfold sD; nra. Qed.
Lemma sND : forall g m, 1 < g -> 1 < m -> sD g m < sN g m. Proof. intros; unfold sN, sD; nra. Qed.

Lemma dlin : forall k m, derivable_pt_lim (fun z => k * z) m k.
Proof.
  intros k m. pose proof (derivable_pt_lim_scal id k m 1 (derivable_pt_lim_id m)) as H.
  rewrite Rmult_1_r in H. exact H.
Qed.
Lemma lndiv : forall a b, 0 < a -> 0 < b -> ln (a / b) = ln a - ln b.
Proof. intros a b A B. unfold Rdiv. rewrite ln_mult, ln_Rinv; auto. apply Rinv_0_lt_compat; auto. Qed.
Definition lnPt (g m : R) : R :=
  g / (g - 1) * (ln ((g + 1) * m) - ln (sD g m)) + 1 / (g - 1) * (ln (g + 1) - ln (sN g m)).
Lemma lnPt_deriv : forall g m, 1 < g -> 1 <= m ->
  derivable_pt_lim (lnPt g) m
    (- (2 * g * (m - 1) ^ 2 / (m * sD g m * sN g m))).
Proof.
  intros g m G M. pose proof (sN_pos g m G M). pose proof (sD_pos g m G M).
  replace (- (2 * g * (m - 1) ^ 2 / (m * sD g m * sN g m)))
    with (g / (g - 1) * (/ ((g + 1) * m) * (g + 1) - / sD g m * (g - 1))
          + 1 / (g - 1) * (0 - / sN g m * (2 * g))).
  2:{ unfold sN, sD in *. field. repeat split; lra. }
  unfold lnPt.
  assert (L1 : derivable_pt_lim (fun m => ln ((g + 1) * m)) m (/ ((g + 1) * m) * (g + 1))).
  { apply (derivable_pt_lim_comp (fun m => (g + 1) * m) ln).
    - apply dlin.
    - apply derivable_pt_lim_ln. nra. }
  assert (L2 : derivable_pt_lim (fun m => ln (sD g m)) m (/ sD g m * (g - 1))).
  { apply (derivable_pt_lim_comp (sD g) ln).
    - rewrite <- (Rplus_0_r (g - 1)). unfold sD.
      apply (derivable_pt_lim_plus (fun m => (g - 1) * m) (fun _ => 2)).
      + apply dlin.
      + apply derivable_pt_lim_const.
    - apply derivable_pt_lim_ln; auto. }
  assert (L3 : derivable_pt_lim (fun m => ln (sN g m)) m (/ sN g m * (2 * g))).
  { apply (derivable_pt_lim_comp (sN g) ln).
    - rewrite <- (Rminus_0_r (2 * g)). unfold sN.
      apply (derivable_pt_lim_minus (fun m => 2 * g * m) (fun _ => g - 1)).
      + apply dlin.
      + apply derivable_pt_lim_const.
    - apply derivable_pt_lim_ln; auto. }
  apply (derivable_pt_lim_plus (fun m => g / (g - 1) * (ln ((g + 1) * m) - ln (sD g m)))
           (fun m => 1 / (g - 1) * (ln (g + 1) - ln (sN g m)))).
  - apply (derivable_pt_lim_scal (fun m => ln ((g + 1) * m) - ln (sD g m))).
    apply (derivable_pt_lim_minus (fun m => ln ((g + 1) * m)) (fun m => ln (sD g m))); auto.
  - apply (derivable_pt_lim_scal (fun m => ln (g + 1) - ln (sN g m))).
    apply (derivable_pt_lim_minus (fun _ => ln (g + 1)) (fun m => ln (sN g m))); auto.
    apply derivable_pt_lim_const.
Qed.
Lemma lnPt_one : forall g, 1 < g -> lnPt g 1 = 0.
Proof.
  intros g G. unfold lnPt. replace (sD g 1) with (g + 1) by (unfold sD; ring).
  replace (sN g 1) with (g + 1) by (unfold sN; ring). rewrite Rmult_1_r. ring.
Qed.
(** the stagnation pressure falls, and the more the stronger the shock *)
Lemma lnPt_down : forall g m n, 1 < g -> 1 <= m -> m < n -> lnPt g n < lnPt g m.
Proof.
  intros g m n G M N. assert (- lnPt g m < - lnPt g n); [| lra].
  apply (mvt_lt (fun z => - lnPt g z) (fun m => - - (2 * g * (m - 1) ^ 2 / (m * sD g m * sN g m)))); auto.
  - intros z Z. apply (derivable_pt_lim_opp (lnPt g)). apply lnPt_deriv; lra.
  - intros z Z. rewrite Ropp_involutive. pose proof (sN_pos g z G). pose proof (sD_pos g z G).
    assert (0 < (z - 1) ^ 2) by (apply pow_lt; lra).
    apply Rdiv_lt_0_compat; repeat apply Rmult_lt_0_compat; lra.
Qed.
Definition shock_Pt (g m : R) : R :=
  Rpower (((g + 1) * m) / sD g m) (g / (g - 1)) * Rpower ((g + 1) / sN g m) (1 / (g - 1)).
Lemma shock_Pt_exp : forall g m, 1 < g -> 1 <= m -> shock_Pt g m = exp (lnPt g m).
Proof.
  intros g m G M. pose proof (sN_pos g m G M). pose proof (sD_pos g m G M).
  unfold shock_Pt, lnPt, Rpower. rewrite exp_plus.
  rewrite (lndiv ((g + 1) * m)), (lndiv (g + 1)) by (auto; nra). reflexivity.
Qed.
Lemma shock_Pt_range : forall g m, 1 < g -> 1 < m -> 0 < shock_Pt g m < 1.
Proof.
  intros g m G M. rewrite shock_Pt_exp by lra. split; [apply exp_pos |].
  rewrite <- exp_0. apply exp_increasing. rewrite <- (lnPt_one g G). apply lnPt_down; lra.
Qed.
Definition shock_M (g m : R) : R := sqrt (sD g m / sN g m).
Definition shock_P (g m : R) : R := sN g m / (g + 1).
Definition shock_T (g m : R) : R := shock_P g m * (sD g m / ((g + 1) * m)).
Lemma shock_M_sq : forall g m, 1 < g -> 1 <= m -> shock_M g m * shock_M g m = sD g m / sN g m.
Proof.
  intros g m G M. pose proof (sN_pos g m G M). pose proof (sD_pos g m G M).
  unfold shock_M. apply sqrt_sqrt. left; pos.
Qed.
Lemma shock_M_range : forall g m, 1 < g -> 1 < m -> 0 < shock_M g m < 1.
Proof.
  intros g m G M. pose proof (sN_pos g m G). pose proof (sD_pos g m G).
  pose proof (sND g m G M). unfold shock_M. split; [apply sqrt_lt_R0; pos |].
  rewrite <- sqrt_1. apply sqrt_lt_1; try lra; [left; pos |]. apply div_lt1; lra.
Qed.
Lemma shock_P_gt : forall g m, 1 < g -> 1 < m -> 1 < shock_P g m.
Proof.
  intros g m G M. unfold shock_P, sN. apply Rmult_lt_reg_r with (g + 1); [lra |].
  replace ((2 * g * m - (g - 1)) / (g + 1) * (g + 1)) with (2 * g * m - (g - 1)) by (field; lra). nra.
Qed.
Lemma shock_T_gt : forall g m, 1 < g -> 1 < m -> 1 < shock_T g m.
Proof.
  intros g m G M. unfold shock_T, shock_P, sN, sD.
  replace ((2 * g * m - (g - 1)) / (g + 1) * (((g - 1) * m + 2) / ((g + 1) * m)))
    with ((2 * g * m - (g - 1)) * ((g - 1) * m + 2) / ((g + 1) * (g + 1) * m)) by (field; lra).
  set (W := (g + 1) * (g + 1) * m).
  assert (HW : 0 < W) by (unfold W; repeat apply Rmult_lt_0_compat; lra).
  apply Rmult_lt_reg_r with W; auto.
  replace ((2 * g * m - (g - 1)) * ((g - 1) * m + 2) / W * W)
    with ((2 * g * m - (g - 1)) * ((g - 1) * m + 2)) by (field; lra).
  assert (0 < (m - 1) * (2 * g * (g - 1) * m + 2 * (g - 1))) by
    (apply Rmult_lt_0_compat; [lra |]; apply Rplus_lt_0_compat; repeat apply Rmult_lt_0_compat; lra).
  unfold W. nra.
Qed.
Lemma shock_energy : forall g m, 1 < g -> 1 <= m ->
  shock_T g m * (1 + (g - 1) / 2 * (sD g m / sN g m)) = 1 + (g - 1) / 2 * m.
Proof.
  intros g m G M. pose proof (sN_pos g m G M). unfold shock_T, shock_P.
  unfold sD, sN in *. field. repeat split; lra.
Qed.
Lemma shock_momentum : forall g m, 1 < g -> 1 <= m ->
  shock_P g m * (1 + g * (sD g m / sN g m)) = 1 + g * m.
Proof.
  intros g m G M. pose proof (sN_pos g m G M). unfold shock_P.
  unfold sD, sN in *. field. repeat split; lra.
Qed.
Lemma shock_mass : forall g m, 1 < g -> 1 <= m ->
  shock_P g m * shock_P g m * (sD g m / sN g m) = m * shock_T g m.
Proof.
  intros g m G M. pose proof (sN_pos g m G M). unfold shock_T, shock_P.
  unfold sD, sN in *. field. repeat split; lra.
Qed.
(** the stagnation-pressure ratio is the one of the static pressures and isentropic rises *)
Lemma shock_Pt_static : forall g m, 1 < g -> 1 <= m ->
  shock_Pt g m * Rpower (1 + (g - 1) / 2 * m) (g / (g - 1))
  = shock_P g m * Rpower (1 + (g - 1) / 2 * (sD g m / sN g m)) (g / (g - 1)).
Proof.
  intros g m G M. pose proof (sN_pos g m G M) as HN. pose proof (sD_pos g m G M) as HD.
  assert (H1 : 0 < 1 + (g - 1) / 2 * m) by nra.
  assert (E : 1 + (g - 1) / 2 * (sD g m / sN g m) = (g + 1) * (g + 1) * m / (2 * sN g m)).
  { unfold sN, sD in *. field. lra. }
  assert (E' : 1 + (g - 1) / 2 * m = sD g m / 2) by (unfold sD; field).
  rewrite E, E'. unfold shock_Pt, shock_P.
  assert (0 < (g + 1) * (g + 1) * m / (2 * sN g m)) by (apply Rdiv_lt_0_compat; repeat apply Rmult_lt_0_compat; lra).
  assert (0 < (g + 1) * m / sD g m) by (apply Rdiv_lt_0_compat; try apply Rmult_lt_0_compat; lra).
  replace ((g + 1) * (g + 1) * m / (2 * sN g m))
    with (((g + 1) * m / sD g m) * ((g + 1) / sN g m * (sD g m / 2))) by (field; lra).
  assert (P1 : 0 < (g + 1) / sN g m) by (apply Rdiv_lt_0_compat; lra).
  assert (P2 : 0 < sD g m / 2) by lra.
  rewrite <- (Rpower_mult_distr _ _ (g / (g - 1)) H0 (Rmult_lt_0_compat _ _ P1 P2)).
  rewrite <- (Rpower_mult_distr _ _ (g / (g - 1)) P1 P2).
  replace (g / (g - 1)) with (1 + 1 / (g - 1)) at 4 by (field; lra).
  rewrite (Rpower_plus 1 (1 / (g - 1)) ((g + 1) / sN g m)), Rpower_1 by auto.
  field. split; lra.
Qed.

(** ** Oblique shocks *)
Lemma oblique_eq : forall M g th be, let m := (M * sin be) * (M * sin be) in
  oblique M g th be = Shock (shock_M g m / sin (be - th)) (shock_P g m) (shock_T g m) (shock_Pt g m).
Proof.
  intros M g th be m. unfold oblique, shock_M, shock_P, shock_T, shock_P, shock_Pt, sD, sN. unfold m.
  rewrite !(Rmult_assoc _ (M * sin be) (M * sin be)). reflexivity.
Qed.
Lemma wave_strong : forall M g th be, 1 < g -> 0 < M -> 0 < th < PI / 2 -> 0 < be < PI / 2 ->
  theta_beta_M M g th be -> 1 < M * sin be.
Proof.
  intros M g th be G HM HT HB H. unfold theta_beta_M in H.
  assert (ST : 0 < tan th) by (apply tan_gt_0; lra).
  assert (SB : 0 < sin be) by (apply sin_gt_0; lra).
  assert (CB : 0 < cos be) by (apply cos_gt_0; lra).
  pose proof (COS_bound (2 * be)).
  assert (0 < M ^ 2) by (apply pow_lt; auto).
  assert (0 < M ^ 2 * (g + cos (2 * be)) + 2) by nra.
  assert (0 < tan th * (M ^ 2 * (g + cos (2 * be)) + 2) * sin be) by (apply Rmult_lt_0_compat; [apply Rmult_lt_0_compat |]; assumption).
  assert (0 < M ^ 2 * sin be ^ 2 - 1).
  { apply Rmult_lt_reg_l with (2 * cos be); [lra |]. rewrite Rmult_0_r. lra. }
  assert (0 < M * sin be) by (apply Rmult_lt_0_compat; auto). nra.
Qed.
(** the turning relation in the form of velocity triangles *)
Lemma triangle : forall M g th be, 1 < g -> 0 < M -> 0 < th < PI / 2 -> 0 < be < PI / 2 ->
  theta_beta_M M g th be -> let m := (M * sin be) * (M * sin be) in
  sin (be - th) * cos be * ((g + 1) * m) = cos (be - th) * sin be * sD g m.
Proof.
  intros M g th be G HM HT HB H m. unfold theta_beta_M in H.
  assert (CT : 0 < cos th) by (apply cos_gt_0; lra).
  rewrite sin_minus, cos_minus. unfold tan in H.
  assert (H' : sin th * (M ^ 2 * (g + cos (2 * be)) + 2) * sin be = 2 * cos be * (M ^ 2 * sin be ^ 2 - 1) * cos th).
  { apply (Rmult_eq_compat_r (cos th)) in H.
    replace (sin th / cos th * (M ^ 2 * (g + cos (2 * be)) + 2) * sin be * cos th)
      with (sin th * (M ^ 2 * (g + cos (2 * be)) + 2) * sin be) in H by (field; lra). exact H. }
  rewrite cos_2a in H'.
  assert (S1 : cos be * cos be = 1 - sin be * sin be).
  { pose proof (sin2_cos2 be) as S. unfold Rsqr in S. lra. }
  rewrite S1 in H'. unfold m, sD.
  set (s := sin be) in *. set (k := cos be) in *. set (a := sin th) in *. set (b := cos th) in *.
  assert (X : forall w, k * k * w = (1 - s * s) * w) by (intro w; rewrite S1; ring).
  replace ((s * b - k * a) * k * ((g + 1) * (M * s * (M * s))))
    with (s * b * k * ((g + 1) * (M * s * (M * s))) - k * k * (a * ((g + 1) * (M * s * (M * s))))) by ring.
  rewrite X.
  apply (Rmult_eq_compat_r s) in H'. nra.
Qed.
Lemma turned : forall M g th be, 1 < g -> 0 < M -> 0 < th < PI / 2 -> 0 < be < PI / 2 ->
  theta_beta_M M g th be -> 0 < sin (be - th) /\ 0 < cos (be - th).
Proof.
  intros M g th be G HM HT HB H.
  pose proof (wave_strong M g th be G HM HT HB H) as W.
  pose proof (triangle M g th be G HM HT HB H) as T. cbv zeta in T.
  set (m := M * sin be * (M * sin be)) in *. assert (1 < m) by (unfold m; nra).
  assert (SB : 0 < sin be) by (apply sin_gt_0; lra).
  assert (CB : 0 < cos be) by (apply cos_gt_0; lra).
  assert (CC : 0 < cos (be - th)) by (apply cos_gt_0; lra).
  split; auto. pose proof (sD_pos g m G ltac:(lra)).
  assert (0 < cos (be - th) * sin be * sD g m) by (repeat apply Rmult_lt_0_compat; auto).
  assert (0 < cos be * ((g + 1) * m)) by (repeat apply Rmult_lt_0_compat; lra).
  apply Rmult_lt_reg_r with (cos be * ((g + 1) * m)); auto. lra.
Qed.
Lemma oblique_energy : forall M g th be, 1 < g -> 0 < M -> 0 < th < PI / 2 -> 0 < be < PI / 2 ->
  theta_beta_M M g th be -> let k := oblique M g th be in
  k_T k * (1 + (g - 1) / 2 * k_M k ^ 2) = 1 + (g - 1) / 2 * M ^ 2 /\
  (k_M k * cos (be - th)) ^ 2 * k_T k = (M * cos be) ^ 2.
Proof.
  intros M g th be G HM HT HB H k.
  pose proof (wave_strong M g th be G HM HT HB H) as W.
  pose proof (triangle M g th be G HM HT HB H) as T. cbv zeta in T.
  destruct (turned M g th be G HM HT HB H) as [HS HC].
  unfold k. rewrite oblique_eq. cbv zeta. cbn [k_T k_M].
  set (m := M * sin be * (M * sin be)) in *. assert (M1 : 1 < m) by (unfold m; nra).
  pose proof (sD_pos g m G ltac:(lra)) as HD. pose proof (sN_pos g m G ltac:(lra)) as HN.
  assert (SB : 0 < sin be) by (apply sin_gt_0; lra).
  assert (SQ := shock_M_sq g m G ltac:(lra)).
  assert (EN := shock_energy g m G ltac:(lra)).
  set (q := shock_M g m) in *. set (S := sin (be - th)) in *. set (C := cos (be - th)) in *.
  assert (SC : S * S + C * C = 1).
  { pose proof (sin2_cos2 (be - th)) as Z. unfold Rsqr in Z. exact Z. }
  assert (sc : sin be * sin be + cos be * cos be = 1).
  { pose proof (sin2_cos2 be) as Z. unfold Rsqr in Z. exact Z. }
  assert (Q : (q / S) ^ 2 = sD g m / sN g m / (S * S)).
  { rewrite <- SQ. field. lra. }
  assert (TT : shock_T g m = sN g m * sD g m / ((g + 1) * (g + 1) * m)).
  { unfold shock_T, shock_P. field. lra. }
  assert (TAN : (q / S * C) ^ 2 * shock_T g m = (M * cos be) ^ 2).
  { replace ((q / S * C) ^ 2) with ((q / S) ^ 2 * (C * C)) by ring. rewrite Q, TT.
    assert (CE : C = S * cos be * ((g + 1) * m) / (sin be * sD g m)).
    { apply Rmult_eq_reg_r with (sin be * sD g m); [| apply Rgt_not_eq, Rmult_lt_0_compat; auto].
      replace (S * cos be * ((g + 1) * m) / (sin be * sD g m) * (sin be * sD g m)) with (S * cos be * ((g + 1) * m)) by (field; lra).
      lra. }
    rewrite CE. unfold m at 2 3 4 5. unfold m in M1, HD, HN |- *.
    field. repeat split; try lra. }
  split; auto.
  assert (K2 : (q / S) ^ 2 = sD g m / sN g m + (q / S * C) ^ 2).
  { replace ((q / S * C) ^ 2) with ((q / S) ^ 2 * (C * C)) by ring. rewrite Q.
    replace (C * C) with (1 - S * S) by lra. field. split; lra. }
  rewrite K2.
  replace (shock_T g m * (1 + (g - 1) / 2 * (sD g m / sN g m + (q / S * C) ^ 2)))
    with (shock_T g m * (1 + (g - 1) / 2 * (sD g m / sN g m)) + (g - 1) / 2 * ((q / S * C) ^ 2 * shock_T g m)) by ring.
  rewrite EN, TAN. unfold m.
  replace (M ^ 2) with (M ^ 2 * (sin be * sin be + cos be * cos be)) by (rewrite sc; ring). ring.
Qed.

(** ** The explicit wave angle *)
Lemma triple : forall phi d, d <> 0 -> d * sin (3 * phi) = cos (3 * phi) ->
  cos phi <> 0 /\ d * (3 * tan phi - tan phi ^ 3) = 1 - 3 * tan phi ^ 2.
Proof.
  intros phi d ND H.
  assert (sc : sin phi * sin phi = 1 - cos phi * cos phi).
  { pose proof (sin2_cos2 phi) as Z. unfold Rsqr in Z. lra. }
  replace (3 * phi) with (2 * phi + phi) in H by ring.
  rewrite sin_plus, cos_plus, sin_2a, cos_2a in H.
  set (s := sin phi) in *. set (c := cos phi) in *.
  assert (H' : d * (3 * s * (c * c) - s * (s * s)) = c * (c * c) - 3 * c * (s * s)) by lra.
  assert (NC : c <> 0).
  { intro Z. rewrite Z in *. assert (S1 : s * s = 1) by lra.
    assert (Z0 : d * s = 0) by nra.
    assert (Hs : s <> 0) by (intro Y; rewrite Y in S1; lra).
    apply Rmult_integral in Z0. destruct Z0; contradiction. }
  split; auto. unfold tan. fold s c.
  apply Rmult_eq_reg_r with (c * (c * c)); [| repeat apply Rmult_integral_contrapositive_currified; auto].
  field_simplify; auto. nra.
Qed.
Lemma shift_pi : forall n a d, d * sin a = cos a -> d * sin (INR n * PI + a) = cos (INR n * PI + a).
Proof.
  induction n as [|n IH]; intros a d H.
  - simpl INR. rewrite Rmult_0_l, Rplus_0_l. exact H.
  - rewrite S_INR. replace ((INR n + 1) * PI + a) with (INR n * PI + a + PI) by ring.
    rewrite neg_sin, neg_cos. rewrite <- (IH a d H). ring.
Qed.
Lemma atan_inv_rel : forall d, d <> 0 -> d * sin (atan (1 / d)) = cos (atan (1 / d)).
Proof.
  intros d H. pose proof (atan_bound (1 / d)).
  assert (CC : 0 < cos (atan (1 / d))) by (apply cos_gt_0; lra).
  assert (T : tan (atan (1 / d)) = 1 / d) by apply tan_atan. unfold tan in T.
  apply (Rmult_eq_compat_r (d * cos (atan (1 / d)))) in T.
  replace (sin (atan (1 / d)) / cos (atan (1 / d)) * (d * cos (atan (1 / d)))) with (d * sin (atan (1 / d))) in T by (field; lra).
  rewrite T. field. auto.
Qed.
Lemma tan_mu : forall M, 1 < M -> tan (asin (1 / M)) * tan (asin (1 / M)) = / (M ^ 2 - 1).
Proof.
  intros M H. assert (B : -1 <= 1 / M <= 1).
  { split; [apply Rle_trans with 0; [lra | left; apply Rdiv_lt_0_compat; lra] |].
    apply Rmult_le_reg_r with M; [lra |]. replace (1 / M * M) with 1 by (field; lra). lra. }
  unfold tan. rewrite sin_asin, cos_asin by auto.
  assert (P : 0 < 1 - Rsqr (1 / M)).
  { unfold Rsqr. assert (1 / M < 1) by (apply div_lt1; lra). assert (0 < 1 / M) by (apply Rdiv_lt_0_compat; lra). nra. }
  replace (1 / M / sqrt (1 - (1 / M)²) * (1 / M / sqrt (1 - (1 / M)²)))
    with (1 / M * (1 / M) / (sqrt (1 - (1 / M)²) * sqrt (1 - (1 / M)²))).
  2:{ field. split; [lra | apply Rgt_not_eq, sqrt_lt_R0; auto]. }
  rewrite sqrt_sqrt by lra. unfold Rsqr. field. nra.
Qed.
(** the root of the depressed cubic *)
Definition Qof (a b c : R) : R := 27 * a ^ 2 * c + 9 * a * b - 2.
Definition Dof (a b : R) : R := 1 - 3 * a * b.
Lemma depressed : forall a b c x, a <> 0 ->
  27 * a ^ 2 * (a * x ^ 3 - x ^ 2 + b * x + c)
  = (3 * a * x - 1) ^ 3 - 3 * Dof a b * (3 * a * x - 1) + Qof a b c.
Proof. intros. unfold Dof, Qof. ring. Qed.
Lemma cubic_root : forall a b c d t, a <> 0 -> Dof a b <> 0 -> Qof a b c <> 0 ->
  d * d = 4 * Dof a b ^ 3 / Qof a b c ^ 2 - 1 ->
  d * (3 * t - t ^ 3) = 1 - 3 * t ^ 2 ->
  let x := (b + 9 * a * c) / (2 * Dof a b) - d * Qof a b c / (6 * a * Dof a b) * t in
  3 * a * x - 1 = Qof a b c / (2 * Dof a b) * (1 - d * t) /\
  a * x ^ 3 - x ^ 2 + b * x + c = 0.
Proof.
  intros a b c d t NA ND NQ HD HT x.
  assert (W : 3 * a * x - 1 = Qof a b c / (2 * Dof a b) * (1 - d * t)).
  { unfold x. assert (E : 3 * a * (b + 9 * a * c) = Qof a b c + 2 * Dof a b) by (unfold Qof, Dof; ring).
    replace (3 * a * ((b + 9 * a * c) / (2 * Dof a b) - d * Qof a b c / (6 * a * Dof a b) * t))
      with (3 * a * (b + 9 * a * c) / (2 * Dof a b) - d * Qof a b c / (2 * Dof a b) * t) by (field; auto).
    rewrite E. field. auto. }
  split; auto.
  assert (N27 : 27 * a ^ 2 <> 0).
  { apply Rmult_integral_contrapositive_currified; [lra | apply pow_nonzero; auto]. }
  apply Rmult_eq_reg_l with (27 * a ^ 2); auto. rewrite depressed, Rmult_0_r by auto. rewrite W.
  set (Q := Qof a b c) in *. set (D := Dof a b) in *.
  assert (H4 : 4 * D ^ 3 = Q ^ 2 * (1 + d * d)).
  { rewrite HD. field. auto. }
  assert (K : Q ^ 2 / (8 * D ^ 3) * (1 - d * t) ^ 3 - 3 / 2 * (1 - d * t) + 1 = 0).
  { assert (E : Q ^ 2 / (8 * D ^ 3) = / (2 * (1 + d * d))).
    { replace (8 * D ^ 3) with (2 * (4 * D ^ 3)) by ring. rewrite H4. field.
      assert (0 <= d * d) by nra. split; [lra | auto]. }
    rewrite E. assert (0 <= d * d) by nra.
    apply Rmult_eq_reg_l with (2 * (1 + d * d)); [| lra].
    replace (2 * (1 + d * d) * (/ (2 * (1 + d * d)) * (1 - d * t) ^ 3 - 3 / 2 * (1 - d * t) + 1))
      with ((1 - d * t) ^ 3 - 3 * (1 + d * d) * (1 - d * t) + 2 * (1 + d * d)) by (field; lra).
    replace ((1 - d * t) ^ 3 - 3 * (1 + d * d) * (1 - d * t) + 2 * (1 + d * d))
      with (d * d * (d * (3 * t - t ^ 3) - (1 - 3 * t ^ 2))) by ring.
    rewrite HT. ring. }
  replace ((Q / (2 * D) * (1 - d * t)) ^ 3 - 3 * D * (Q / (2 * D) * (1 - d * t)) + Q)
    with (Q * (Q ^ 2 / (8 * D ^ 3) * (1 - d * t) ^ 3 - 3 / 2 * (1 - d * t) + 1)) by (field; auto).
  rewrite K. ring.
Qed.
(** the cubic is the turning relation *)
Lemma cubic_relation : forall M g th be, 1 < M -> - (PI / 2) < be < PI / 2 -> cos th <> 0 ->
  let x := tan be in
  (theta_beta_M M g th be <->
   cubic_a M g th * x ^ 3 - x ^ 2 + cubic_b M g th * x + / (M ^ 2 - 1) = 0).
Proof.
  intros M g th be HM HB HT x. unfold theta_beta_M, cubic_a, cubic_b, x.
  assert (CB : 0 < cos be) by (apply cos_gt_0; lra).
  assert (MM : 0 < M ^ 2 - 1) by nra.
  rewrite cos_2a.
  assert (S1 : sin be * sin be = 1 - cos be * cos be).
  { pose proof (sin2_cos2 be) as S. unfold Rsqr in S. lra. }
  set (T := tan th). unfold tan. set (s := sin be) in *. set (k := cos be) in *.
  (* both sides multiplied out are the same polynomial *)
  assert (E : 2 * k ^ 3 * (M ^ 2 - 1) *
     (((g - 1) / 2 + (g + 1) / (M ^ 2 - 1) / 2) * T * (s / k) ^ 3 - (s / k) ^ 2
      + ((g + 1) / 2 + (g + 3) / (M ^ 2 - 1) / 2) * T * (s / k) + / (M ^ 2 - 1))
     = T * (M ^ 2 * (g + (k * k - s * s)) + 2) * s - 2 * k * (M ^ 2 * s ^ 2 - 1)).
  { replace (2 * k ^ 3 * (M ^ 2 - 1) *
     (((g - 1) / 2 + (g + 1) / (M ^ 2 - 1) / 2) * T * (s / k) ^ 3 - (s / k) ^ 2
      + ((g + 1) / 2 + (g + 3) / (M ^ 2 - 1) / 2) * T * (s / k) + / (M ^ 2 - 1)))
     with (((g - 1) * (M ^ 2 - 1) + (g + 1)) * T * s * (s * s) - 2 * (M ^ 2 - 1) * k * (s * s)
           + ((g + 1) * (M ^ 2 - 1) + (g + 3)) * T * s * (k * k) + 2 * k * (k * k)) by (field; lra).
    replace (k * k) with (1 - s * s) by lra. ring. }
  assert (F : 0 < 2 * k ^ 3 * (M ^ 2 - 1)).
  { apply Rmult_lt_0_compat; auto. apply Rmult_lt_0_compat; [lra | apply pow_lt; auto]. }
  split; intro H.
  - apply Rmult_eq_reg_l with (2 * k ^ 3 * (M ^ 2 - 1)); [| lra]. rewrite Rmult_0_r, E. lra.
  - rewrite H in E. lra.
Qed.
Lemma sq_pos : forall x : R, x <> 0 -> 0 < x ^ 2.
Proof. intros x H. rewrite <- Rsqr_pow2. apply Rlt_0_sqr; auto. Qed.
(** the solution built by the code, for every [n] *)
Definition wave_x (M g th : R) (n : nat) : R :=
  let c := / (M ^ 2 - 1) in let a := cubic_a M g th in let b := cubic_b M g th in
  let d := sqrt (4 * Dof a b ^ 3 / Qof a b c ^ 2 - 1) in
  (b + 9 * a * c) / (2 * Dof a b)
  - d * Qof a b c / (6 * a * Dof a b) * tan (INR n * PI / 3 + 1 / 3 * atan (1 / d)).
Lemma wave_angle_eq : forall M g th n, 1 < M -> wave_angle M g th n = atan (wave_x M g th n).
Proof.
  intros M g th n H. unfold wave_angle. cbv zeta. rewrite (tan_mu M H).
  unfold wave_x, Dof, Qof. cbv zeta.
  replace (((g - 1) / 2 + (g + 1) * / (M ^ 2 - 1) / 2) * tan th) with (cubic_a M g th) by reflexivity.
  replace (((g + 1) / 2 + (g + 3) * / (M ^ 2 - 1) / 2) * tan th) with (cubic_b M g th) by reflexivity.
  replace (27 * cubic_a M g th * cubic_a M g th * / (M ^ 2 - 1)) with (27 * cubic_a M g th ^ 2 * / (M ^ 2 - 1)) by ring.
  reflexivity.
Qed.
Lemma cubic_a_pos : forall M g th, 1 < M -> 1 < g -> 0 < th < PI / 2 -> 0 < cubic_a M g th.
Proof.
  intros M g th HM HG HT. unfold cubic_a.
  assert (0 < tan th) by (apply tan_gt_0; lra). assert (0 < M ^ 2 - 1) by nra.
  assert (0 < (g + 1) / (M ^ 2 - 1)) by (apply Rdiv_lt_0_compat; lra).
  apply Rmult_lt_0_compat; [lra | assumption].
Qed.
Lemma attached_facts : forall M g th, attached M g th ->
  let c := / (M ^ 2 - 1) in let a := cubic_a M g th in let b := cubic_b M g th in
  Qof a b c <> 0 /\ 0 < Dof a b /\ Qof a b c ^ 2 < 4 * Dof a b ^ 3 /\
  let d := sqrt (4 * Dof a b ^ 3 / Qof a b c ^ 2 - 1) in
  0 < d /\ d * d = 4 * Dof a b ^ 3 / Qof a b c ^ 2 - 1.
Proof.
  intros M g th (NQ & L) c a b. fold a b c in NQ, L. cbv zeta in NQ, L.
  change (27 * a ^ 2 * c + 9 * a * b - 2) with (Qof a b c) in *. change (1 - 3 * a * b) with (Dof a b) in L.
  assert (0 < Qof a b c ^ 2) by (apply sq_pos; auto).
  assert (D : 0 < Dof a b).
  { destruct (Rlt_le_dec 0 (Dof a b)); auto. exfalso.
    assert (Dof a b ^ 3 <= 0) by (replace (Dof a b ^ 3) with (- ((- Dof a b) ^ 3)) by ring;
      assert (0 <= (- Dof a b) ^ 3) by (apply pow_le; lra); lra). lra. }
  split; auto. split; auto. split; auto.
  assert (R : 0 < 4 * Dof a b ^ 3 / Qof a b c ^ 2 - 1).
  { assert (1 < 4 * Dof a b ^ 3 / Qof a b c ^ 2); [| lra].
    apply Rmult_lt_reg_r with (Qof a b c ^ 2); auto.
    replace (4 * Dof a b ^ 3 / Qof a b c ^ 2 * Qof a b c ^ 2) with (4 * Dof a b ^ 3) by (field; auto). lra. }
  intro d. split; [apply sqrt_lt_R0; auto |]. apply sqrt_sqrt. lra.
Qed.
Lemma wave_x_root : forall M g th n, 1 < M -> 1 < g -> 0 < th < PI / 2 -> attached M g th ->
  let c := / (M ^ 2 - 1) in let a := cubic_a M g th in let b := cubic_b M g th in
  let x := wave_x M g th n in
  a * x ^ 3 - x ^ 2 + b * x + c = 0.
Proof.
  intros M g th n HM HG HT HA c a b x.
  destruct (attached_facts M g th HA) as (NQ & D & L & d0 & dd). fold a b c in NQ, D, L, d0, dd.
  pose proof (cubic_a_pos M g th HM HG HT) as PA. fold a in PA.
  set (d := sqrt (4 * Dof a b ^ 3 / Qof a b c ^ 2 - 1)) in *.
  set (phi := INR n * PI / 3 + 1 / 3 * atan (1 / d)).
  destruct (triple phi d) as [_ T]; [lra | |].
  { unfold phi. replace (3 * (INR n * PI / 3 + 1 / 3 * atan (1 / d))) with (INR n * PI + atan (1 / d)) by field.
    apply shift_pi, atan_inv_rel. lra. }
  refine (proj2 (cubic_root a b c d (tan phi) _ _ NQ dd T)); lra.
Qed.
Theorem wave_angle_relation : forall M g th n, 1 < M -> 1 < g -> 0 < th < PI / 2 -> attached M g th ->
  theta_beta_M M g th (wave_angle M g th n).
Proof.
  intros M g th n HM HG HT HA. rewrite wave_angle_eq by auto.
  pose proof (atan_bound (wave_x M g th n)) as B.
  assert (C : 0 < cos th) by (apply cos_gt_0; lra).
  apply cubic_relation; [auto | lra | lra |].
  rewrite tan_atan. exact (wave_x_root M g th n HM HG HT HA).
Qed.
(** the root for [n = 0] *)
Lemma third_small : forall d, 0 < d -> let t := tan (1 / 3 * atan (1 / d)) in
  0 < t /\ 0 < d * t < 1.
Proof.
  intros d Hd t. assert (A : 0 < atan (1 / d) < PI / 2).
  { pose proof (atan_bound (1 / d)). split; [| lra]. rewrite <- atan_0. apply atan_increasing.
    apply Rdiv_lt_0_compat; lra. }
  assert (T0 : 0 < t) by (apply tan_gt_0; lra).
  assert (T1 : t < / d).
  { replace (/ d) with (tan (atan (1 / d))) by (rewrite tan_atan; field; lra).
    apply tan_increasing; lra. }
  split; auto. split; [pos; nra |].
  apply Rmult_lt_compat_l with (r := d) in T1; auto. rewrite Rinv_r in T1 by lra. lra.
Qed.
Lemma wave_x_weak : forall M g th, 1 < M -> 1 < g -> 0 < th < PI / 2 -> attached M g th ->
  let c := / (M ^ 2 - 1) in let a := cubic_a M g th in let b := cubic_b M g th in
  let x := wave_x M g th 0 in
  0 < x /\ forall y, 0 < y -> a * y ^ 3 - y ^ 2 + b * y + c = 0 -> x <= y.
Proof.
  intros M g th HM HG HT HA c a b x.
  destruct (attached_facts M g th HA) as (NQ & D & L & d0 & dd). fold a b c in NQ, D, L, d0, dd.
  pose proof (cubic_a_pos M g th HM HG HT) as PA. fold a in PA.
  pose proof (wave_x_root M g th 0 HM HG HT HA) as RX. fold a b c x in RX. cbv zeta in RX. fold a b c x in RX.
  set (d := sqrt (4 * Dof a b ^ 3 / Qof a b c ^ 2 - 1)) in *.
  destruct (third_small d d0) as [t0 [dt0 dt1]]. cbv zeta in *.
  assert (E : x = (b + 9 * a * c) / (2 * Dof a b) - d * Qof a b c / (6 * a * Dof a b) * tan (1 / 3 * atan (1 / d))).
  { unfold x, wave_x. fold a b c. fold d. simpl INR. replace (0 * PI / 3 + 1 / 3 * atan (1 / d)) with (1 / 3 * atan (1 / d)) by field. reflexivity. }
  set (t := tan (1 / 3 * atan (1 / d))) in *.
  assert (W : 3 * a * x - 1 = Qof a b c / (2 * Dof a b) * (1 - d * t)).
  { rewrite E. assert (Z : 3 * a * (b + 9 * a * c) = Qof a b c + 2 * Dof a b) by (unfold Qof, Dof; ring).
    replace (3 * a * ((b + 9 * a * c) / (2 * Dof a b) - d * Qof a b c / (6 * a * Dof a b) * t))
      with (3 * a * (b + 9 * a * c) / (2 * Dof a b) - d * Qof a b c / (2 * Dof a b) * t) by (field; lra).
    rewrite Z. field. lra. }
  assert (W2 : (3 * a * x - 1) ^ 2 < Dof a b).
  { rewrite W. replace ((Qof a b c / (2 * Dof a b) * (1 - d * t)) ^ 2)
      with (Qof a b c ^ 2 / (4 * Dof a b ^ 2) * (1 - d * t) ^ 2) by (field; lra).
    assert (F : Qof a b c ^ 2 / (4 * Dof a b ^ 2) < Dof a b).
    { apply Rmult_lt_reg_r with (4 * Dof a b ^ 2); [nra |].
      replace (Qof a b c ^ 2 / (4 * Dof a b ^ 2) * (4 * Dof a b ^ 2)) with (Qof a b c ^ 2) by (field; lra). nra. }
    assert (0 < Qof a b c ^ 2 / (4 * Dof a b ^ 2)).
    { apply Rdiv_lt_0_compat; [apply sq_pos; auto | nra]. }
    assert (0 < (1 - d * t) ^ 2 < 1) by (split; nra). nra. }
  assert (C0 : 0 < c) by (apply Rinv_0_lt_compat; nra).
  pose proof (depressed a b c x ltac:(lra)) as PX. rewrite RX, Rmult_0_r in PX.
  assert (P1 : (-1) ^ 3 - 3 * Dof a b * (-1) + Qof a b c = 27 * a ^ 2 * c) by (unfold Dof, Qof; ring).
  assert (P1p : 0 < 27 * a ^ 2 * c) by (apply Rmult_lt_0_compat; nra).
  assert (DEC : forall u v, 
    (u ^ 3 - 3 * Dof a b * u + Qof a b c) - (v ^ 3 - 3 * Dof a b * v + Qof a b c)
    = (u - v) * (u ^ 2 + u * v + v ^ 2 - 3 * Dof a b)) by (intros; ring).
  set (w := 3 * a * x - 1) in *.
  assert (INS : forall u, u ^ 2 <= Dof a b -> u ^ 2 + u * w + w ^ 2 - 3 * Dof a b < 0) by (intros; nra).
  assert (WM : -1 < w).
  { destruct (Rlt_le_dec (-1) w); auto. exfalso.
    assert (Dof a b > 1) by nra.
    pose proof (DEC (-1) w) as Y. rewrite P1, <- PX in Y. specialize (INS (-1) ltac:(lra)).
    assert ((-1 - w) * ((-1) ^ 2 + -1 * w + w ^ 2 - 3 * Dof a b) <= 0) by nra. lra. }
  split.
  - assert (0 < 3 * a * x) by (unfold w in WM; lra). 
    apply Rmult_lt_reg_l with (3 * a); lra.
  - intros y Y0 Ry. destruct (Rle_lt_dec x y) as [|LT]; auto. exfalso.
    pose proof (depressed a b c y ltac:(lra)) as PY. rewrite Ry, Rmult_0_r in PY.
    set (u := 3 * a * y - 1) in *.
    assert (U1 : -1 < u) by (unfold u; assert (0 < 3 * a * y) by (apply Rmult_lt_0_compat; lra); lra).
    assert (U2 : u < w) by (unfold u, w; nra).
    destruct (Rle_lt_dec (u ^ 2) (Dof a b)) as [I | I].
    + specialize (INS u I). pose proof (DEC u w) as Z. rewrite <- PX, <- PY in Z. nra.
    + assert (u < 0).
      { destruct (Rlt_le_dec u 0); auto. exfalso. assert (u ^ 2 <= w ^ 2) by nra. lra. }
      pose proof (DEC u (-1)) as Z. rewrite P1, <- PY in Z.
      assert (0 < u ^ 2 + u * -1 + (-1) ^ 2 - 3 * Dof a b) by nra. nra.
Qed.
Theorem wave_angle_weak : forall M g th, 1 < M -> 1 < g -> 0 < th < PI / 2 -> attached M g th ->
  0 < wave_angle M g th 0 < PI / 2 /\
  forall be, 0 < be < PI / 2 -> theta_beta_M M g th be -> wave_angle M g th 0 <= be.
Proof.
  intros M g th HM HG HT HA. rewrite wave_angle_eq by auto.
  destruct (wave_x_weak M g th HM HG HT HA) as [X0 X1]. cbv zeta in *.
  pose proof (atan_bound (wave_x M g th 0)). split.
  - split; [| lra]. rewrite <- atan_0. apply atan_increasing; auto.
  - intros be HB R. assert (C : 0 < cos th) by (apply cos_gt_0; lra).
    apply cubic_relation in R; [| auto | lra | lra]. cbv zeta in R.
    assert (T : 0 < tan be) by (apply tan_gt_0; lra).
    specialize (X1 _ T R). replace be with (atan (tan be)) by (apply atan_tan; lra).
    destruct X1 as [X1 | ->]; [left; apply atan_increasing; auto | lra].
Qed.
(** ** Trains of shocks *)
Lemma train_acc : forall thetas M g T P,
  shock_train_from M g thetas T P
  = (T * fst (shock_train M g thetas), P * snd (shock_train M g thetas)).
Proof.
  induction thetas as [|th rest IH]; intros M g T P; unfold shock_train; simpl.
  - rewrite !Rmult_1_r. reflexivity.
  - rewrite (IH _ g (T * _)), (IH _ g (1 * _)). simpl. f_equal; ring.
Qed.
Lemma one_shock : forall M g th, 1 < M -> 1 < g -> 0 < th < PI / 2 -> attached M g th ->
  let k := oblique M g th (wave_angle M g th 0) in
  k_T k * (1 + (g - 1) / 2 * k_M k ^ 2) = 1 + (g - 1) / 2 * M ^ 2 /\
  1 < k_T k /\ 1 < k_P k /\ 0 < k_Pt k < 1 /\ 0 < k_M k.
Proof.
  intros M g th HM HG HT HA k.
  destruct (wave_angle_weak M g th HM HG HT HA) as [B _].
  pose proof (wave_angle_relation M g th 0 HM HG HT HA) as R.
  assert (M0 : 0 < M) by lra.
  destruct (oblique_energy M g th _ HG M0 HT B R) as [E _]. split; [exact E |].
  pose proof (wave_strong M g th _ HG M0 HT B R) as W.
  destruct (turned M g th _ HG M0 HT B R) as [S _].
  unfold k. rewrite oblique_eq. cbn [k_T k_P k_Pt k_M].
  assert (1 < M * sin (wave_angle M g th 0) * (M * sin (wave_angle M g th 0))) by nra.
  split; [apply shock_T_gt; auto |]. split; [apply shock_P_gt; auto |]. split; [apply shock_Pt_range; auto |].
  apply Rdiv_lt_0_compat; auto. apply shock_M_range; auto.
Qed.
Lemma train_laws : forall thetas M g, 1 < g -> train_attached M g thetas ->
  let r := shock_train M g thetas in
  fst r * (1 + (g - 1) / 2 * train_M M g thetas ^ 2) = 1 + (g - 1) / 2 * M ^ 2 /\
  1 <= fst r /\ 0 < snd r <= 1 /\ (thetas <> [] -> 1 < fst r /\ snd r < 1).
Proof.
  induction thetas as [|th rest IH]; intros M g HG HA r.
  - unfold r, shock_train. simpl. repeat split; try lra; exfalso; auto.
  - destruct HA as (HM & HT & AT & RA).
    destruct (one_shock M g th HM HG HT AT) as (E & T1 & P1 & Pt & K0).
    specialize (IH _ g HG RA). cbv zeta in IH. destruct IH as (E' & T' & Pt' & _).
    assert (RE : r = (k_T (oblique M g th (wave_angle M g th 0)) * fst (shock_train (k_M (oblique M g th (wave_angle M g th 0))) g rest),
                      k_Pt (oblique M g th (wave_angle M g th 0)) * snd (shock_train (k_M (oblique M g th (wave_angle M g th 0))) g rest))).
    { unfold r, shock_train at 1. simpl. rewrite train_acc, !Rmult_1_l. reflexivity. }
    rewrite RE. cbn [fst snd train_M]. clear RE r.
    set (k := oblique M g th (wave_angle M g th 0)) in *.
    set (tr := shock_train (k_M k) g rest) in *.
    split; [rewrite Rmult_assoc, E'; exact E |].
    assert (1 < k_T k * fst tr) by nra.
    assert (0 < k_Pt k * snd tr) by nra. assert (k_Pt k * snd tr < 1) by nra.
    repeat split; lra.
Qed.
