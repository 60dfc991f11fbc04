(** * Ramjets: proofs about heating in a duct and the limited nozzle *)
From Coq Require Import Reals Lra Psatz List.
From Verif Require Import PyBase M_Opt M_Engine S_Engine P_Opt P_Engine P_Deriv M_Rocket S_Rocket P_Rocket P_Rocket2.
Import ListNotations.
Local Open Scope R_scope.

Definition rT (g M : R) : R := (M * M) * (1 + (g - 1) / 2 * (M * M)) / ((1 + g * (M * M)) ^ 2).
Lemma den_pos g M : 1 < g -> 0 < 1 + g * (M * M).
Proof. intro G. assert (0 <= M * M) by nra. nra. Qed.
Lemma rT_pos g M : 1 < g -> 0 < M -> 0 < rT g M.
Proof.
  intros G H. unfold rT. pose proof (den_pos g M G). assert (0 < M * M) by nra. assert (0 < (g - 1) / 2 * (M * M)) by (apply Rmult_lt_0_compat; lra).
  apply Rdiv_lt_0_compat; [apply Rmult_lt_0_compat; lra|apply pow_lt; assumption].
Qed.
Lemma rT_deriv g M : 1 < g -> derivable_pt_lim (rT g) M (2 * M * (1 - M * M) / (1 + g * (M * M)) ^ 3).
Proof.
  intro G. pose proof (den_pos g M G). unfold rT. eapply D_val; [der|].
  - apply Rgt_not_eq, pow_lt. assumption.
  - unfold Rsqr. cbn [pow Init.Nat.pred INR]. field. lra.
Qed.
Lemma rT_cont g : 1 < g -> continuity (rT g).
Proof. intros G M. apply derivable_continuous_pt. eexists. apply rT_deriv. assumption. Qed.
Lemma rT_up g M N : 1 < g -> 0 <= M -> M < N -> N <= 1 -> rT g M < rT g N.
Proof.
  intros G H L K. apply (grows (rT g) (fun M => 2 * M * (1 - M * M) / (1 + g * (M * M)) ^ 3) M N L).
  - intros z _. apply rT_deriv. assumption.
  - intros z Z. apply Rdiv_lt_0_compat; [nra|apply pow_lt, den_pos; assumption].
Qed.
Lemma rT_down g M N : 1 < g -> 1 <= M -> M < N -> rT g N < rT g M.
Proof.
  intros G H L. apply (falls (rT g) (fun M => 2 * M * (1 - M * M) / (1 + g * (M * M)) ^ 3) M N L).
  - intros z _. apply rT_deriv. assumption.
  - intros z Z. assert (0 < / (1 + g * (z * z)) ^ 3) by (apply Rinv_0_lt_compat, pow_lt, den_pos; assumption). unfold Rdiv.
    assert (2 * z * (1 - z * z) < 0) by nra. nra.
Qed.
Lemma rT_one g : 1 < g -> rT g 1 = / (2 * (g + 1)).
Proof. intro G. unfold rT. field. lra. Qed.
Lemma rT_max g M : 1 < g -> 0 < M -> M <> 1 -> rT g M < rT g 1.
Proof. intros G H N. destruct (Rtotal_order M 1) as [L|[L|L]]; [apply rT_up; lra|congruence|apply rT_down; lra]. Qed.
Lemma rayleigh_rT g M0 t M : 1 < g -> 0 < M0 -> rayleigh_residual g M0 t M = rT g M / rT g M0 - t.
Proof.
  intros G H. unfold rayleigh_residual, rT. pose proof (den_pos g M G). pose proof (den_pos g M0 G).
  assert (0 < 1 + (g - 1) / 2 * (M0 * M0)) by (assert (0 < M0 * M0) by nra; nra).
  rewrite !(Rmult_assoc g), !(Rmult_assoc ((g - 1) / 2)). field. repeat split; try lra.
Qed.
Lemma rayleigh_root g M0 t M : 1 < g -> 0 < M0 -> (rayleigh_residual g M0 t M = 0 <-> rT g M = t * rT g M0).
Proof.
  intros G H. rewrite rayleigh_rT by assumption. pose proof (rT_pos g M0 G H). split; intro E.
  - replace t with (rT g M / rT g M0) by lra. field. lra.
  - rewrite E. field. lra.
Qed.
Lemma rT_inj_sub g M N : 1 < g -> 0 <= M <= 1 -> 0 <= N <= 1 -> rT g M = rT g N -> M = N.
Proof.
  intros G H K E. destruct (Rtotal_order M N) as [L|[L|L]]; [|exact L|].
  - pose proof (rT_up g M N G ltac:(lra) L ltac:(lra)). lra.
  - pose proof (rT_up g N M G ltac:(lra) L ltac:(lra)). lra.
Qed.
Lemma rT_inj_sup g M N : 1 < g -> 1 <= M -> 1 <= N -> rT g M = rT g N -> M = N.
Proof.
  intros G H K E. destruct (Rtotal_order M N) as [L|[L|L]]; [|exact L|].
  - pose proof (rT_down g M N G H L). lra.
  - pose proof (rT_down g N M G K L). lra.
Qed.
(** choking temperature *)
Lemma choking_rT g M Tt : 1 < g -> 0 < M -> choking_Tt g M Tt = Tt * (rT g 1 / rT g M).
Proof.
  intros G H. rewrite rT_one by assumption. unfold choking_Tt, rT. pose proof (den_pos g M G). assert (0 < M * M) by nra.
  assert (0 < 1 + (g - 1) / 2 * (M * M)) by nra.
  rewrite !(Rmult_assoc g), !(Rmult_assoc ((g - 1) / 2)). field. repeat split; try lra.
Qed.
Lemma choking_ge g M Tt : 1 < g -> 0 < M -> 0 < Tt -> Tt <= choking_Tt g M Tt /\ (M <> 1 -> Tt < choking_Tt g M Tt).
Proof.
  intros G H T. rewrite choking_rT by assumption. pose proof (rT_pos g M G H).
  destruct (Req_dec M 1) as [->|N].
  - split; [|congruence]. replace (rT g 1 / rT g 1) with 1 by (field; lra). lra.
  - pose proof (rT_max g M G H N). assert (1 < rT g 1 / rT g M). { apply Rmult_lt_reg_r with (rT g M); [assumption|]. unfold Rdiv. rewrite Rmult_assoc, Rinv_l by lra. lra. }
    split; [nra|intros _; nra].
Qed.
(** stagnation pressure *)
Definition lrP (g M : R) : R := kexp g * ln (1 + (g - 1) / 2 * (M * M)) - ln (1 + g * (M * M)).
Lemma lrP_deriv g M : 1 < g -> derivable_pt_lim (lrP g) M (g * M * (M * M - 1) / ((1 + g * (M * M)) * Bof g M)).
Proof.
  intro G. pose proof (den_pos g M G) as D. pose proof (Bof_pos g M G) as B.
  assert (E : 1 + (g - 1) / 2 * (M * M) = Bof g M) by (unfold Bof; ring).
  unfold lrP. eapply D_val; [der|].
  - rewrite E. assumption.
  - assumption.
  - rewrite E. unfold kexp, Bof in *. field. repeat split; lra.
Qed.
Lemma lrP_sub g M N : 1 < g -> 0 <= M -> M < N -> N <= 1 -> lrP g N < lrP g M.
Proof.
  intros G H L K. apply (falls (lrP g) (fun M => g * M * (M * M - 1) / ((1 + g * (M * M)) * Bof g M)) M N L).
  - intros z _. apply lrP_deriv. assumption.
  - intros z Z. pose proof (den_pos g z G). pose proof (Bof_pos g z G).
    assert (0 < / ((1 + g * (z * z)) * Bof g z)) by (apply Rinv_0_lt_compat, Rmult_lt_0_compat; assumption). unfold Rdiv.
    assert (0 < g * z * (1 - z * z)) by (apply Rmult_lt_0_compat; [apply Rmult_lt_0_compat; lra|nra]). nra.
Qed.
Lemma lrP_sup g M N : 1 < g -> 1 <= M -> M < N -> lrP g M < lrP g N.
Proof.
  intros G H L. apply (grows (lrP g) (fun M => g * M * (M * M - 1) / ((1 + g * (M * M)) * Bof g M)) M N L).
  - intros z _. apply lrP_deriv. assumption.
  - intros z Z. pose proof (den_pos g z G). pose proof (Bof_pos g z G). apply Rdiv_lt_0_compat; [|apply Rmult_lt_0_compat; assumption].
    apply Rmult_lt_0_compat; [apply Rmult_lt_0_compat; lra|nra].
Qed.
Lemma Ptr_exp g M0 M : 1 < g -> rayleigh_Ptr g M0 M = exp (lrP g M - lrP g M0).
Proof.
  intro G. unfold rayleigh_Ptr, lrP. fold (Bof g M) (Bof g M0). fold (kexp g).
  replace (1 + (g - 1) / 2 * (M * M)) with (Bof g M) by (unfold Bof; ring). replace (1 + (g - 1) / 2 * (M0 * M0)) with (Bof g M0) by (unfold Bof; ring).
  rewrite (Rmult_assoc g M0), (Rmult_assoc g M). pose proof (den_pos g M G). pose proof (den_pos g M0 G). pose proof (Bof_pos g M G). pose proof (Bof_pos g M0 G).
  rewrite Rpower_quot by assumption. unfold Rpower.
  replace (kexp g * ln (Bof g M) - ln (1 + g * (M * M)) - (kexp g * ln (Bof g M0) - ln (1 + g * (M0 * M0))))
    with (ln (1 + g * (M0 * M0)) + - ln (1 + g * (M * M)) + (kexp g * ln (Bof g M) + - (kexp g * ln (Bof g M0)))) by ring.
  rewrite !exp_plus, !exp_Ropp, !exp_ln by assumption. unfold Rdiv. ring.
Qed.
Lemma Ptr_loss g M0 M : 1 < g -> 0 < M0 -> 0 < M -> (M0 < M <= 1 \/ 1 <= M < M0) -> 0 < rayleigh_Ptr g M0 M < 1.
Proof.
  intros G H0 H C. rewrite Ptr_exp by assumption. split; [apply exp_pos|]. rewrite <- exp_0. apply exp_increasing.
  destruct C as [C|C].
  - pose proof (lrP_sub g M0 M G ltac:(lra) ltac:(lra) ltac:(lra)). lra.
  - pose proof (lrP_sup g M M0 G ltac:(lra) ltac:(lra)). lra.
Qed.
(** heating below the choking limit *)
Lemma heat_root g M0 t : 1 < g -> 0 < M0 -> M0 <> 1 -> 1 <= t -> t * rT g M0 < rT g 1 ->
  exists M, rT g M = t * rT g M0 /\ ((M0 < 1 /\ M0 <= M < 1) \/ (1 < M0 /\ 1 < M <= M0)) /\
  forall N, 0 < N -> (N < 1 <-> M0 < 1) -> rT g N = t * rT g M0 -> N = M.
Proof.
  intros G H N1 T L. pose proof (rT_pos g M0 G H) as P. destruct (Rlt_le_dec M0 1) as [S|S].
  - destruct (ivt_up (rT g) M0 1 (t * rT g M0)) as (M & I & E); [apply rT_cont; assumption|lra|nra|lra|].
    exists M. split; [exact E|]. assert (M <> 1) by (intros ->; lra). split; [left; lra|].
    intros N NP Q EN. destruct Q as [_ Q]. specialize (Q S). apply (rT_inj_sub g); try lra.
  - destruct (ivt_down (rT g) 1 M0 (t * rT g M0)) as (M & I & E); [apply rT_cont; assumption|lra|lra|nra|].
    exists M. split; [exact E|]. assert (M <> 1) by (intros ->; lra). split; [right; lra|].
    intros N NP Q EN. assert (1 <= N) by (destruct (Rlt_le_dec N 1) as [Y|Y]; [apply Q in Y; lra|assumption]). apply (rT_inj_sup g); try lra.
Qed.
Lemma choked_root g M : 1 < g -> 0 < M -> (rT g M = rT g 1 <-> M = 1).
Proof. intros G H. split; [|intros ->; reflexivity]. intro E. destruct (Req_dec M 1); [assumption|]. pose proof (rT_max g M G H H0). lra. Qed.

(** ** The limited nozzle *)
Lemma isen_eq g M : 1 < g -> pressure_ratio_isentropic g M = / Rpower (Bof g M) (kexp g).
Proof. intro G. unfold pressure_ratio_isentropic. rewrite <- BofE. unfold kexp. rewrite <- Rpower_Ropp. f_equal. field. lra. Qed.
Lemma isen_pos g M : 0 < pressure_ratio_isentropic g M.
Proof. apply Rpower_pos. Qed.
Lemma isen_falls g M N : 1 < g -> 0 <= M -> M < N -> pressure_ratio_isentropic g N < pressure_ratio_isentropic g M.
Proof.
  intros G H L. rewrite !isen_eq by assumption. pose proof (static_falls g 1 M N G ltac:(lra) H L). unfold Rdiv in H0. lra.
Qed.
Lemma isen_lt1 g M : 1 < g -> 0 < M -> pressure_ratio_isentropic g M < 1.
Proof.
  intros G H. replace 1 with (pressure_ratio_isentropic g 0); [apply isen_falls; lra|]. rewrite isen_eq by assumption. replace (Bof g 0) with 1 by (unfold Bof; ring). rewrite Rpower_base1. field.
Qed.
Lemma limited_cases g Po Pt l m :
  let q := Po / Pt in
  let sup_max := pressure_ratio_isentropic g (ma_max m) in
  let sup_min := pressure_ratio_isentropic g (ma_min m) in
  let shock := pressure_ratio_shock ((li_max l + li_min l) / 2) g (ma_sup m) in
  limited_exit g Po Pt l m =
    (let P := if Rltb q sup_max then sup_max * Pt
              else if negb (Rltb sup_min q) then Po
              else if Rltb q shock then sup_min * Pt else Po in
     (P, mach_from g Pt P)).
Proof.
  cbv zeta. unfold limited_exit. set (q := Po / Pt). set (sub := pressure_ratio_isentropic g (ma_sub m)). set (a := pressure_ratio_isentropic g (ma_max m)).
  set (b := pressure_ratio_isentropic g (ma_min m)). set (s := pressure_ratio_shock _ g (ma_sup m)).
  destruct (Rltb q sub), (Rltb q s), (Rltb b q), (Rltb q a); reflexivity.
Qed.
Lemma mach_from_some g Pt P : 1 < g -> 0 < P -> P <= Pt -> mach_from g Pt P = Some (mach_of g (Pt / P)).
Proof.
  intros G H L. unfold mach_from. assert (1 <= Pt / P). { apply Rmult_le_reg_r with P; [assumption|]. unfold Rdiv. rewrite Rmult_assoc, Rinv_l by lra. lra. }
  rewrite nsqrt_some; [reflexivity|]. apply mach_arg; assumption.
Qed.
Lemma mach_from_none g Pt P : 1 < g -> 0 < Pt -> Pt < P -> mach_from g Pt P = None.
Proof.
  intros G H L. unfold mach_from, nsqrt. assert (0 < Pt / P) by (apply Rdiv_lt_0_compat; lra). assert (Pt / P < 1). { apply Rmult_lt_reg_r with P; [lra|]. unfold Rdiv. rewrite Rmult_assoc, Rinv_l by lra. lra. }
  assert (Rpower (Pt / P) ((g - 1) / g) < 1). { apply Rlt_le_trans with (Rpower 1 ((g - 1) / g)); [apply Rpower_lt_base; try lra; apply Rdiv_lt_0_compat; lra|rewrite Rpower_base1; lra]. }
  destruct (Rltb _ 0) eqn:E; [reflexivity|]. apply Rltb_false in E.
  assert (0 < / (g - 1)) by (apply Rinv_0_lt_compat; lra). unfold Rdiv in E. nra.
Qed.
(** the Mach number recovered from the pressure of a loss-free expansion *)
Lemma mach_back g Pt M : 1 < g -> 0 < Pt -> 0 < M -> mach_of g (Pt / (pressure_ratio_isentropic g M * Pt)) = M.
Proof.
  intros G H HM. rewrite isen_eq by assumption. pose proof (Rpower_pos (Bof g M) (kexp g)). pose proof (Bof_pos g M G).
  replace (Pt / (/ Rpower (Bof g M) (kexp g) * Pt)) with (Rpower (Bof g M) (kexp g)) by (field; lra).
  unfold mach_of. rewrite Rpower_mult. replace (kexp g * ((g - 1) / g)) with 1 by (unfold kexp; field; lra). rewrite Rpower_1 by assumption.
  replace ((Bof g M - 1) * 2 / (g - 1)) with (M * M) by (unfold Bof; field; lra). apply sqrt_square. lra.
Qed.
Lemma mach_of_P g Pt P : 1 < g -> 0 < P -> P <= Pt -> Rpower (Bof g (mach_of g (Pt / P))) (kexp g) = Pt / P.
Proof.
  intros G H L. assert (Q : 1 <= Pt / P). { apply Rmult_le_reg_r with P; [assumption|]. unfold Rdiv. rewrite Rmult_assoc, Rinv_l by lra. lra. }
  unfold Bof. rewrite mach_sq by assumption. rewrite Rpower_mult. replace ((g - 1) / g * kexp g) with 1 by (unfold kexp; field; lra). apply Rpower_1. lra.
Qed.
Lemma limited_state l g Cp r Po Tt Pt m P : 1 < g -> 0 < r -> 0 < Tt -> 0 < li_pid l -> 0 < P -> P < Pt * li_pid l ->
  limited_exit g Po (Pt * li_pid l) l m = (P, mach_from g (Pt * li_pid l) P) ->
  let M := mach_of g (Pt * li_pid l / P) in let Tt' := Tt * Rpower (li_pid l) ((g - 1) / g * li_eff l) in
  0 < M /\
  limited_nozzle l g Cp r Po Tt Pt m =
  Jet (Some Tt') (Some (Pt * li_pid l)) (Some (Cp * Tt')) (Some M) (Some (Tt' / Bof g M)) (Some (Cp * (Tt' / Bof g M)))
      (Some (M * sqrt (g * r * (Tt' / Bof g M)))) (Some P) (Some (P / (r * (Tt' / Bof g M)))) (Some (area_star g M)).
Proof.
  intros G R0 T0 D0 P0 L E M Tt'. 
  assert (Q : 1 < Pt * li_pid l / P). { apply Rmult_lt_reg_r with P; [assumption|]. unfold Rdiv. rewrite Rmult_assoc, Rinv_l by lra. lra. }
  assert (MP : 0 < M) by (apply mach_pos; lra). split; [exact MP|].
  pose proof (Bof_pos g M G) as B. assert (TT : 0 < Tt') by (apply Rmult_lt_0_compat; [assumption|apply Rpower_pos]).
  assert (TB : 0 < Tt' / Bof g M) by (apply Rdiv_lt_0_compat; assumption).
  unfold limited_nozzle. rewrite E. rewrite mach_from_some by lra. fold M. fold Tt'.
  rewrite fm_some by assumption. fold (fmR g M). pose proof (fmR_pos g M MP). rewrite ndiv_some by lra.
  cbn [nmul nadd]. fold (Bof g M). rewrite ndiv_some by lra. cbn [nmul]. rewrite nsqrt_some.
  2:{ left. apply Rmult_lt_0_compat; [apply Rmult_lt_0_compat; lra|assumption]. }
  assert (0 < r * (Tt' / Bof g M)) by (apply Rmult_lt_0_compat; assumption). rewrite ndiv_some by lra.
  rewrite area_fm by assumption. cbn [nmul]. unfold Rdiv. rewrite Rmult_1_l. reflexivity.
Qed.
