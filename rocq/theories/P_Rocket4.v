(** * A normal shock in the exit of a nozzle *)
From Coq Require Import Reals Lra Psatz List.
From Verif Require Import PyBase M_Opt M_Engine S_Engine P_Opt P_Engine P_Deriv P_Shock Props_Shock M_Rocket S_Rocket P_Rocket P_Rocket2 P_Rocket3.
Import ListNotations.
Local Open Scope R_scope.

Lemma shock_area g M : 1 < g -> 1 < M -> let k := oblique M g 0 (PI / 2) in
  k_M k = normal_shock M g /\ 0 < k_M k < 1 /\ 0 < k_Pt k < 1 /\ area_star g (k_M k) = k_Pt k * area_star g M /\
  k_P k / Rpower (Bof g M) (kexp g) = k_Pt k / Rpower (Bof g (k_M k)) (kexp g).
Proof.
  intros G H k. destruct (C64_normal M g 1 1 1 G H ltac:(lra) ltac:(lra) ltac:(lra)) as (E & F & _ & T & R1 & _ & _ & R2 & PP).
  fold k in E, F, T, R1, R2, PP. split; [exact E|]. split; [exact R1|]. split; [exact R2|].
  rewrite !Rmult_1_l in F, T, PP. unfold isentropic_P in PP. fold (kexp g) in PP. rewrite <- !BofE in T, PP.
  pose proof (Bof_pos g M G) as B1. pose proof (Bof_pos g (k_M k) G) as B2. pose proof (Rpower_pos (Bof g M) (kexp g)) as X1. pose proof (Rpower_pos (Bof g (k_M k)) (kexp g)) as X2.
  split.
  - assert (E1 : flux g 1 1 1 M = Rpower (Bof g M) (kexp g) / sqrt (Bof g M) * sqrt (g / 1) / Rpower ((g + 1) / 2) ((g + 1) / (2 * (g - 1))) * fmR g M).
    { rewrite <- flux_fm by lra. f_equal; [field; lra|]. fold (kexp g). field. lra. }
    assert (E2 : flux g 1 (k_T k) (k_P k) (k_M k) = (k_Pt k * Rpower (Bof g M) (kexp g)) / sqrt (Bof g M) * sqrt (g / 1) / Rpower ((g + 1) / 2) ((g + 1) / (2 * (g - 1))) * fmR g (k_M k)).
    { rewrite <- flux_fm; try lra; [|apply Rmult_lt_0_compat; lra]. f_equal.
      - rewrite <- T. field. lra.
      - fold (kexp g). rewrite <- PP. field. lra. }
    rewrite E1, E2 in F. pose proof (fmR_pos g M ltac:(lra)) as f1. pose proof (fmR_pos g (k_M k) ltac:(lra)) as f2.
    assert (S0 : 0 < sqrt (Bof g M)) by (apply sqrt_lt_R0; assumption). assert (S1 : 0 < sqrt (g / 1)) by (apply sqrt_lt_R0; lra). pose proof (Rpower_pos ((g + 1) / 2) ((g + 1) / (2 * (g - 1)))) as K0.
    set (K := Rpower ((g + 1) / 2) _) in *. set (s := sqrt (Bof g M)) in *. set (w := sqrt (g / 1)) in *. set (X := Rpower (Bof g M) (kexp g)) in *.
    assert (F' : k_Pt k * fmR g (k_M k) = fmR g M).
    { apply Rmult_eq_reg_l with (X / s * w / K); [|apply Rgt_not_eq; apply Rdiv_lt_0_compat; [apply Rmult_lt_0_compat; [apply Rdiv_lt_0_compat; assumption|assumption]|assumption]].
      transitivity (k_Pt k * X / s * w / K * fmR g (k_M k)); [field; repeat split; lra|exact F]. }
    rewrite !area_fm by lra. rewrite <- F'. field. repeat split; lra.
  - apply Rmult_eq_reg_r with (Rpower (Bof g M) (kexp g) * Rpower (Bof g (k_M k)) (kexp g)); [|apply Rgt_not_eq, Rmult_lt_0_compat; assumption].
    transitivity (k_P k * Rpower (Bof g (k_M k)) (kexp g)); [field; lra|]. rewrite PP. field. lra.
Qed.
Definition outflow (g M : R) : R := Rpower ((g + 1) / 2) (mexp g) * M * Rpower (1 + (g - 1) / 2 * M ^ 2) (1 / 2).
Lemma outflow_area g M : 1 < g -> 0 < M -> area_star g M * outflow g M = Rpower (Bof g M) (kexp g).
Proof.
  intros G H. unfold outflow. rewrite <- BofE. unfold area_star. fold (mexp g). rewrite <- BofE. pose proof (Bof_pos g M G).
  replace (2 / (g + 1) * Bof g M) with (Bof g M / ((g + 1) / 2)) by (field; lra). rewrite Rpower_quot by lra.
  replace (kexp g) with (mexp g + 1 / 2) by (unfold kexp, mexp; field; lra). rewrite Rpower_plus.
  pose proof (Rpower_pos ((g + 1) / 2) (mexp g)). field. split; lra.
Qed.
Lemma outflow_pos g M : 1 < g -> 0 < M -> 0 < outflow g M.
Proof. intros G H. unfold outflow. apply Rmult_lt_0_compat; [apply Rmult_lt_0_compat; [apply Rpower_pos|assumption]|apply Rpower_pos]. Qed.
Lemma outflow_up g M N : 1 < g -> 0 < M -> M < N -> outflow g M < outflow g N.
Proof.
  intros G H L. unfold outflow. pose proof (Rpower_pos ((g + 1) / 2) (mexp g)).
  assert (Rpower (1 + (g - 1) / 2 * M ^ 2) (1 / 2) < Rpower (1 + (g - 1) / 2 * N ^ 2) (1 / 2)).
  { apply Rpower_lt_base; [apply B_pos; assumption| |lra]. assert (M ^ 2 < N ^ 2) by nra. assert ((g - 1) / 2 * M ^ 2 < (g - 1) / 2 * N ^ 2) by (apply Rmult_lt_compat_l; lra). lra. }
  pose proof (Rpower_pos (1 + (g - 1) / 2 * M ^ 2) (1 / 2)).
  apply Rmult_le_0_lt_compat; [left; apply Rmult_lt_0_compat; assumption|lra|apply Rmult_lt_compat_l; assumption|assumption].
Qed.
Lemma shock_eq a g M : 1 < g -> 1 < M -> pressure_ratio_shock a g M = / (a * outflow g (normal_shock M g)).
Proof. intros G H. unfold pressure_ratio_shock, outflow, mexp. f_equal. ring. Qed.
Lemma isen_outflow a g M : 1 < g -> 0 < M -> area_star g M = a -> pressure_ratio_isentropic g M = / (a * outflow g M).
Proof. intros G H E. rewrite isen_eq by assumption. rewrite <- E, outflow_area by assumption. reflexivity. Qed.
(** static pressure behind a normal shock that stands in the exit, over the stagnation pressure *)
Lemma shock_meaning a g M : 1 < g -> 1 < M -> area_star g M = a ->
  pressure_ratio_shock a g M = k_P (oblique M g 0 (PI / 2)) * pressure_ratio_isentropic g M.
Proof.
  intros G H E. destruct (shock_area g M G H) as (EM & R1 & R2 & EA & EP). rewrite shock_eq by assumption. rewrite <- EM. rewrite isen_eq by assumption.
  transitivity (k_P (oblique M g 0 (PI / 2)) / Rpower (Bof g M) (kexp g)); [|reflexivity]. rewrite EP.
  rewrite <- (outflow_area g (k_M (oblique M g 0 (PI / 2)))) by lra. rewrite EA, E.
  pose proof (outflow_pos g (k_M (oblique M g 0 (PI / 2))) G ltac:(lra)). pose proof (area_pos g M G ltac:(lra)). field. repeat split; lra.
Qed.
Lemma shock_order a g lo hi : 1 < g -> 0 < lo < 1 -> 1 < hi -> area_star g lo = a -> area_star g hi = a ->
  pressure_ratio_isentropic g hi < pressure_ratio_shock a g hi < pressure_ratio_isentropic g lo.
Proof.
  intros G L H EL EH. destruct (shock_area g hi G H) as (EM & R1 & R2 & EA & EP). pose proof (area_pos g hi G ltac:(lra)) as AP.
  rewrite shock_eq by assumption. rewrite (isen_outflow a g hi), (isen_outflow a g lo) by (assumption || lra). rewrite <- EM. set (M2 := k_M (oblique hi g 0 (PI / 2))) in *.
  assert (LM : lo < M2). { destruct (Rtotal_order lo M2) as [X|[X|X]]; [exact X| |].
    - exfalso. rewrite <- X in EA. rewrite EL, EH in EA. nra.
    - exfalso. pose proof (area_sub g M2 lo G ltac:(lra) X ltac:(lra)). nra. }
  rewrite EH in AP. pose proof (outflow_pos g lo G ltac:(lra)). pose proof (outflow_pos g M2 G ltac:(lra)). pose proof (outflow_pos g hi G ltac:(lra)).
  pose proof (outflow_up g lo M2 G ltac:(lra) LM). pose proof (outflow_up g M2 hi G ltac:(lra) ltac:(lra)).
  split; apply Rinv_lt_contravar; try (apply Rmult_lt_0_compat; apply Rmult_lt_0_compat; assumption); apply Rmult_lt_compat_l; assumption.
Qed.
