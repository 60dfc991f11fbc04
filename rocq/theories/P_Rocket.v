(** * Rockets: proofs about the area-Mach relation *)
From Coq Require Import Reals Lra Psatz List.
From Verif Require Import PyBase M_Opt M_Engine S_Engine P_Opt P_Engine P_Deriv M_Rocket S_Rocket.
Import ListNotations.
Local Open Scope R_scope.

Definition mexp (g : R) : R := (g + 1) / (2 * (g - 1)).
Lemma mexp_half g : 1 < g -> 1 / 2 < mexp g.
Proof.
  intro G. unfold mexp. apply Rmult_lt_reg_r with (2 * (g - 1)); [lra|]. unfold Rdiv at 2.
  rewrite (Rmult_assoc (g + 1)), Rinv_l by lra. lra.
Qed.
Lemma B_pos g M : 1 < g -> 0 < 1 + (g - 1) / 2 * M ^ 2.
Proof. intro G. pose proof (kM_pos g M G). replace ((g - 1) / 2 * M ^ 2) with ((g - 1) / 2 * M * M) by ring. lra. Qed.
Lemma BofE g M : Bof g M = 1 + (g - 1) / 2 * M ^ 2.
Proof. unfold Bof. ring. Qed.
Lemma Bof_pos g M : 1 < g -> 0 < Bof g M.
Proof. intro G. rewrite BofE. apply B_pos; assumption. Qed.
Lemma Rpower_quot x y e : 0 < x -> 0 < y -> Rpower (x / y) e = Rpower x e / Rpower y e.
Proof.
  intros X Y. unfold Rpower, Rdiv. rewrite ln_mult, ln_Rinv by (try apply Rinv_0_lt_compat; assumption).
  rewrite Rmult_plus_distr_l, exp_plus. f_equal. rewrite <- exp_Ropp. f_equal. ring.
Qed.
Lemma Rpower_prod x y e : 0 < x -> 0 < y -> Rpower (x * y) e = Rpower x e * Rpower y e.
Proof. intros X Y. unfold Rpower. rewrite ln_mult by assumption. rewrite Rmult_plus_distr_l. apply exp_plus. Qed.

Lemma area_fm g M : 1 < g -> 0 < M -> area_star g M = / fmR g M.
Proof.
  intros G H. unfold area_star, fmR. fold (mexp g). fold (Bof g M). rewrite <- BofE.
  replace (2 / (g + 1) * Bof g M) with (Bof g M / ((g + 1) / 2)) by (field; lra).
  rewrite Rpower_quot by (try apply Bof_pos; lra).
  pose proof (Rpower_pos (Bof g M) (mexp g)). pose proof (Rpower_pos ((g + 1) / 2) (mexp g)). field. repeat split; lra.
Qed.
Lemma area_pos g M : 1 < g -> 0 < M -> 0 < area_star g M.
Proof. intros G H. rewrite area_fm by assumption. apply Rinv_0_lt_compat, fmR_pos; assumption. Qed.
Lemma area_one g : 1 < g -> area_star g 1 = 1.
Proof. intro G. rewrite area_fm by lra. rewrite fm_one by assumption. field. Qed.
Lemma area_sub g M N : 1 < g -> 0 < M -> M < N -> N <= 1 -> area_star g N < area_star g M.
Proof. intros G H L N1. rewrite !area_fm by lra. apply Rinv_lt_contravar; [apply Rmult_lt_0_compat; apply fmR_pos; lra|apply fm_up; assumption]. Qed.
Lemma area_sup g M N : 1 < g -> 1 <= M -> M < N -> area_star g M < area_star g N.
Proof. intros G H L. rewrite !area_fm by lra. apply Rinv_lt_contravar; [apply Rmult_lt_0_compat; apply fmR_pos; lra|apply fm_down; assumption]. Qed.
Lemma area_ge1 g M : 1 < g -> 0 < M -> 1 <= area_star g M.
Proof.
  intros G H. destruct (Rtotal_order M 1) as [L|[->|L]].
  - rewrite <- (area_one g G). left. apply area_sub; lra.
  - rewrite area_one by assumption. lra.
  - rewrite <- (area_one g G). left. apply area_sup; lra.
Qed.
Lemma area_gt1 g M : 1 < g -> 0 < M -> M <> 1 -> 1 < area_star g M.
Proof.
  intros G H N. destruct (Rtotal_order M 1) as [L|[->|L]].
  - rewrite <- (area_one g G). apply area_sub; lra.
  - congruence.
  - rewrite <- (area_one g G). apply area_sup; lra.
Qed.
Lemma residual_area a M0 g M : 1 < g -> 0 < M0 -> 0 < M ->
  fm_residual a M0 g M = area_star g M / area_star g M0 - a.
Proof.
  intros G H0 H. unfold fm_residual. fold (mexp g). fold (Bof g M) (Bof g M0).
  rewrite Rpower_quot by (apply Bof_pos; assumption). unfold area_star. fold (mexp g). rewrite <- !BofE.
  rewrite !Rpower_prod by (try apply Bof_pos; try apply Rdiv_lt_0_compat; lra).
  pose proof (Rpower_pos (Bof g M) (mexp g)). pose proof (Rpower_pos (Bof g M0) (mexp g)). pose proof (Rpower_pos (2 / (g + 1)) (mexp g)).
  field. repeat split; lra.
Qed.
Lemma residual_root a M0 g M : 1 < g -> 0 < M0 -> 0 < M ->
  (fm_residual a M0 g M = 0 <-> area_star g M = a * area_star g M0).
Proof.
  intros G H0 H. rewrite residual_area by assumption. pose proof (area_pos g M0 G H0). split; intro E.
  - replace a with (area_star g M / area_star g M0) by lra. field. lra.
  - rewrite E. field. lra.
Qed.

(** ** Existence *)
Definition larea (g t : R) : R := - t + mexp g * ln (2 / (g + 1) * (1 + (g - 1) / 2 * (exp t * exp t))).
Lemma larea_pos g t : 1 < g -> 0 < 2 / (g + 1) * (1 + (g - 1) / 2 * (exp t * exp t)).
Proof. intro G. apply Rmult_lt_0_compat; [apply Rdiv_lt_0_compat; lra|]. pose proof (exp_pos t). assert (0 < exp t * exp t) by (apply Rmult_lt_0_compat; assumption). assert (0 < (g - 1) / 2 * (exp t * exp t)) by (apply Rmult_lt_0_compat; lra). lra. Qed.
Lemma larea_eq g t : 1 < g -> area_star g (exp t) = exp (larea g t).
Proof.
  intro G. unfold area_star, larea. fold (mexp g). rewrite exp_plus, exp_Ropp. f_equal. unfold Rpower. f_equal. f_equal. f_equal. ring.
Qed.
Lemma larea_cont g : 1 < g -> continuity (larea g).
Proof.
  intros G t. apply derivable_continuous_pt. eexists. unfold larea, derivable_pt_abs. der. apply larea_pos; assumption.
Qed.
Lemma larea_low g t : 1 < g -> - t + mexp g * ln (2 / (g + 1)) <= larea g t.
Proof.
  intro G. unfold larea. pose proof (mexp_half g G). apply Rplus_le_compat_l. apply Rmult_le_compat_l; [lra|].
  assert (0 < 2 / (g + 1)) by (apply Rdiv_lt_0_compat; lra). pose proof (exp_pos t).
  assert (0 < (g - 1) / 2 * (exp t * exp t)) by (apply Rmult_lt_0_compat; [lra|apply Rmult_lt_0_compat; assumption]).
  left. apply ln_increasing; [assumption|]. rewrite <- (Rmult_1_r (2 / (g + 1))) at 1. apply Rmult_lt_compat_l; lra.
Qed.
Lemma larea_high g t : 1 < g -> (2 * mexp g - 1) * t + mexp g * ln ((g - 1) / (g + 1)) <= larea g t.
Proof.
  intro G. unfold larea. pose proof (mexp_half g G). pose proof (exp_pos t).
  assert (0 < (g - 1) / (g + 1)) by (apply Rdiv_lt_0_compat; lra). assert (0 < 2 / (g + 1)) by (apply Rdiv_lt_0_compat; lra).
  replace ((2 * mexp g - 1) * t + mexp g * ln ((g - 1) / (g + 1))) with (- t + mexp g * (ln ((g - 1) / (g + 1)) + (t + t))) by ring.
  apply Rplus_le_compat_l. apply Rmult_le_compat_l; [lra|]. rewrite <- (ln_exp t) at 1 2.
  rewrite <- ln_mult by assumption. rewrite <- ln_mult by (try assumption; apply Rmult_lt_0_compat; assumption).
  left. apply ln_increasing; [apply Rmult_lt_0_compat; [assumption|apply Rmult_lt_0_compat; assumption]|].
  replace (2 / (g + 1) * (1 + (g - 1) / 2 * (exp t * exp t))) with (2 / (g + 1) + (g - 1) / (g + 1) * (exp t * exp t)) by (field; lra). lra.
Qed.
Lemma ivt_up (f : R -> R) a b v : continuity f -> a <= b -> f a <= v -> v <= f b -> exists x, a <= x <= b /\ f x = v.
Proof.
  intros C L A B. destruct (IVT_cor (fun x => f x - v) a b) as [x [I E]].
  - intro z. apply continuity_pt_minus; [apply C|apply continuity_pt_const; intros ? ?; reflexivity].
  - assumption.
  - assert (0 <= (v - f a) * (f b - v)) by (apply Rmult_le_pos; lra). nra.
  - exists x. split; [exact I|lra].
Qed.
Lemma ivt_down (f : R -> R) a b v : continuity f -> a <= b -> v <= f a -> f b <= v -> exists x, a <= x <= b /\ f x = v.
Proof.
  intros C L A B. destruct (IVT_cor (fun x => f x - v) a b) as [x [I E]].
  - intro z. apply continuity_pt_minus; [apply C|apply continuity_pt_const; intros ? ?; reflexivity].
  - assumption.
  - assert (0 <= (f a - v) * (v - f b)) by (apply Rmult_le_pos; lra). nra.
  - exists x. split; [exact I|lra].
Qed.
Lemma larea_zero g : 1 < g -> larea g 0 = 0.
Proof. intro G. rewrite <- (ln_exp (larea g 0)), <- larea_eq by assumption. rewrite exp_0, area_one by assumption. apply ln_1. Qed.
Lemma area_subsonic g b : 1 < g -> 1 < b -> exists M, 0 < M < 1 /\ area_star g M = b.
Proof.
  intros G B. set (c := mexp g * ln (2 / (g + 1))). set (t1 := Rmin (-1) (c - ln b)).
  assert (t1 <= -1 /\ t1 <= c - ln b) as [U V] by (unfold t1; split; [apply Rmin_l|apply Rmin_r]).
  assert (0 < ln b) by (rewrite <- ln_1; apply ln_increasing; lra).
  destruct (ivt_down (larea g) t1 0 (ln b)) as (t & I & E).
  - apply larea_cont; assumption.
  - lra.
  - pose proof (larea_low g t1 G). fold c in H0. lra.
  - rewrite larea_zero by assumption. lra.
  - exists (exp t). assert (t <> 0) by (intros ->; rewrite larea_zero in E by assumption; lra).
    split; [split; [apply exp_pos|rewrite <- exp_0; apply exp_increasing; lra]|]. rewrite larea_eq, E by assumption. apply exp_ln. lra.
Qed.
Lemma area_supersonic g b : 1 < g -> 1 < b -> exists M, 1 < M /\ area_star g M = b.
Proof.
  intros G B. pose proof (mexp_half g G) as H. set (c := mexp g * ln ((g - 1) / (g + 1))). set (t1 := Rmax 1 ((ln b - c) / (2 * mexp g - 1))).
  assert (1 <= t1 /\ (ln b - c) / (2 * mexp g - 1) <= t1) as [U V] by (unfold t1; split; [apply Rmax_l|apply Rmax_r]).
  assert (0 < ln b) by (rewrite <- ln_1; apply ln_increasing; lra).
  destruct (ivt_up (larea g) 0 t1 (ln b)) as (t & I & E).
  - apply larea_cont; assumption.
  - lra.
  - rewrite larea_zero by assumption. lra.
  - pose proof (larea_high g t1 G) as X. fold c in X. apply Rle_trans with (2 := X).
    assert (Y : (2 * mexp g - 1) * ((ln b - c) / (2 * mexp g - 1)) <= (2 * mexp g - 1) * t1) by (apply Rmult_le_compat_l; lra).
    replace ((2 * mexp g - 1) * ((ln b - c) / (2 * mexp g - 1))) with (ln b - c) in Y by (field; lra). lra.
  - exists (exp t). assert (t <> 0) by (intros ->; rewrite larea_zero in E by assumption; lra).
    split; [rewrite <- exp_0; apply exp_increasing; lra|]. rewrite larea_eq, E by assumption. apply exp_ln. lra.
Qed.
Lemma area_inj_sub g M N : 1 < g -> 0 < M <= 1 -> 0 < N <= 1 -> area_star g M = area_star g N -> M = N.
Proof.
  intros G H K E. destruct (Rtotal_order M N) as [L|[L|L]]; [|exact L|].
  - pose proof (area_sub g M N G ltac:(lra) L ltac:(lra)). lra.
  - pose proof (area_sub g N M G ltac:(lra) L ltac:(lra)). lra.
Qed.
Lemma area_inj_sup g M N : 1 < g -> 1 <= M -> 1 <= N -> area_star g M = area_star g N -> M = N.
Proof.
  intros G H K E. destruct (Rtotal_order M N) as [L|[L|L]]; [|exact L|].
  - pose proof (area_sup g M N G H L). lra.
  - pose proof (area_sup g N M G K L). lra.
Qed.
Lemma two_roots g b : 1 < g -> 1 < b -> exists lo hi, 0 < lo < 1 /\ 1 < hi /\
  forall M, 0 < M -> (area_star g M = b <-> M = lo \/ M = hi).
Proof.
  intros G B. destruct (area_subsonic g b G B) as (lo & L & EL). destruct (area_supersonic g b G B) as (hi & H & EH).
  exists lo, hi. split; [exact L|]. split; [exact H|]. intros M P. split; [|intros [->| ->]; assumption].
  intro E. destruct (Rle_lt_dec M 1).
  - left. apply (area_inj_sub g); try assumption; try lra.
  - right. apply (area_inj_sup g); try assumption; try lra.
Qed.

(** ** The other equation *)
Lemma mach_area_eq a g M : 1 < g -> M <> 0 -> mach_area_residual a g M = a ^ 2 - area_star g (Rabs M) ^ 2.
Proof.
  intros G N. unfold mach_area_residual, area_star. fold (mexp g).
  assert (P : 0 < Rabs M) by (apply Rabs_pos_lt; assumption).
  replace (Rabs M ^ 2) with (M ^ 2) by (symmetry; apply pow2_abs).
  set (X := 2 / (g + 1) * (1 + (g - 1) / 2 * M ^ 2)).
  assert (XP : 0 < X) by (apply Rmult_lt_0_compat; [apply Rdiv_lt_0_compat; lra|apply B_pos; assumption]).
  replace ((g + 1) / (g - 1)) with (mexp g + mexp g) by (unfold mexp; field; lra). rewrite Rpower_plus.
  rewrite Rpow_mult_distr. replace ((/ Rabs M) ^ 2) with ((1 / M) ^ 2). 2:{ rewrite <- (pow2_abs (1 / M)). f_equal. unfold Rdiv. rewrite Rmult_1_l. apply Rabs_inv. }
  ring.
Qed.
