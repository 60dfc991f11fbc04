(** * Rockets: proofs about nozzle and thrust *)
From Coq Require Import Reals Lra Psatz List.
From Verif Require Import PyBase M_Opt M_Engine S_Engine P_Opt P_Engine P_Deriv M_Rocket S_Rocket P_Rocket.
Import ListNotations.
Local Open Scope R_scope.

Lemma exit_pos c pi eta M : sane c -> 0 < pi -> 0 < M ->
  0 < ga_P (exit c pi eta M) /\ 0 < ga_T (exit c pi eta M) /\ 0 < ga_rho (exit c pi eta M) /\ 0 < ga_U (exit c pi eta M) /\ 0 < ga_Tt (exit c pi eta M).
Proof.
  intros (P & T & G & R0) Hpi HM. unfold exit, throat. cbn [ga_P ga_T ga_rho ga_U ga_Pt ga_Tt].
  fold (Bof (ch_gamma c) M). pose proof (Bof_pos (ch_gamma c) M G) as B.
  pose proof (Rpower_pos pi ((ch_gamma c - 1) / ch_gamma c * eta)) as X. pose proof (Rpower_pos (Bof (ch_gamma c) M) (ch_gamma c / (ch_gamma c - 1))) as Y.
  set (x := Rpower pi _) in *. set (y := Rpower (Bof _ _) _) in *. set (b := Bof _ _) in *.
  assert (TT : 0 < ch_T c * x * x / b) by (apply Rdiv_lt_0_compat; [repeat apply Rmult_lt_0_compat; assumption|assumption]).
  assert (PP : 0 < ch_P c * pi * pi / y) by (apply Rdiv_lt_0_compat; [repeat apply Rmult_lt_0_compat; assumption|assumption]).
  assert (0 < ch_R c * (ch_T c * x * x / b)) by (apply Rmult_lt_0_compat; assumption).
  repeat split; try assumption.
  - apply Rdiv_lt_0_compat; assumption.
  - apply Rmult_lt_0_compat; [assumption|]. apply sqrt_lt_R0. repeat (apply Rmult_lt_0_compat; try lra).
  - repeat apply Rmult_lt_0_compat; assumption.
Qed.
Lemma exit_M c pi eta M : ga_M (exit c pi eta M) = M.
Proof. reflexivity. Qed.
(** momentum flux of the exit: rho U^2 = gamma P M^2 *)
Lemma exit_flux c pi eta M : sane c -> 0 < pi -> 0 < M ->
  let e := exit c pi eta M in ga_rho e * (ga_U e * ga_U e) = ch_gamma c * M * M * ga_P e.
Proof.
  intros S Hpi HM e. destruct (exit_pos c pi eta M S Hpi HM) as (P & T & _). destruct S as (_ & _ & G & R0).
  assert (U : ga_U e = M * sqrt (ch_gamma c * ch_R c * ga_T e)) by reflexivity.
  assert (D : ga_rho e = ga_P e / (ch_R c * ga_T e)) by reflexivity. fold e in P, T.
  rewrite U, D. set (s := sqrt _). assert (SS : s * s = ch_gamma c * ch_R c * ga_T e).
  { apply sqrt_sqrt. left. repeat (apply Rmult_lt_0_compat; try lra). }
  transitivity (ga_P e / (ch_R c * ga_T e) * (M * M) * (s * s)); [ring|]. rewrite SS. field. split; lra.
Qed.
Lemma exit_energy c pi eta M cp : sane c -> 0 < pi -> 0 < M -> perfect (ch_gamma c) cp (ch_R c) ->
  let e := exit c pi eta M in cp * ga_T e + ga_U e * ga_U e / 2 = cp * ga_Tt e.
Proof.
  intros S Hpi HM Pf e. destruct (exit_pos c pi eta M S Hpi HM) as (P & T & _ & _ & TT). destruct S as (_ & _ & G & R0). fold e in P, T, TT.
  assert (U : ga_U e = M * sqrt (ch_gamma c * ch_R c * ga_T e)) by reflexivity.
  assert (D : ga_T e = ga_Tt e / Bof (ch_gamma c) M) by reflexivity.
  pose proof (Bof_pos (ch_gamma c) M G) as B.
  rewrite U. set (s := sqrt _). assert (SS : s * s = ch_gamma c * ch_R c * ga_T e).
  { apply sqrt_sqrt. left. repeat (apply Rmult_lt_0_compat; try lra). }
  replace (M * s * (M * s) / 2) with (M * M / 2 * (s * s)) by field. rewrite SS. unfold perfect in Pf. rewrite <- Pf.
  replace (ga_Tt e) with (ga_T e * Bof (ch_gamma c) M) by (rewrite D; field; lra). unfold Bof. field.
Qed.
(** the thrust of one engine *)
Lemma thrust_momentum c pi eta M a At er : sane c -> 0 < pi -> 0 < M ->
  let e := exit c pi eta M in
  am_throttle a * ga_rho e * ga_U e * (At * er)
  * (ga_U e * (1 + 1 / (ch_gamma c * ga_M e * ga_M e) * (1 - am_p a / ga_P e)))
  = am_throttle a * momentum_thrust e (At * er) (am_p a).
Proof.
  intros S Hpi HM e. pose proof (exit_flux c pi eta M S Hpi HM) as F. cbv zeta in F. fold e in F.
  destruct (exit_pos c pi eta M S Hpi HM) as (P & T & _). fold e in P, T. destruct S as (_ & _ & G & R0).
  change (ga_M e) with M. unfold momentum_thrust, mass_flow.
  transitivity (am_throttle a * (At * er) * (ga_rho e * (ga_U e * ga_U e) * (1 + 1 / (ch_gamma c * M * M) * (1 - am_p a / ga_P e)))); [ring|].
  transitivity (am_throttle a * (At * er) * (ga_rho e * (ga_U e * ga_U e) + (ga_P e - am_p a))); [|ring].
  f_equal. rewrite F. field. repeat split; lra.
Qed.

(** ** Mass conservation *)
Lemma mass_exit c pi eta M A : sane c -> 0 < pi -> 0 < M ->
  mass_flow (exit c pi eta M) A
  = ga_Pt (exit c pi eta M) / sqrt (ga_Tt (exit c pi eta M)) * sqrt (ch_gamma c / ch_R c) / Rpower ((ch_gamma c + 1) / 2) (mexp (ch_gamma c)) * fmR (ch_gamma c) M * A.
Proof.
  intros S Hpi HM. pose proof (exit_pos c pi eta M S Hpi HM) as (_ & _ & _ & _ & TT). destruct S as (P & T & G & R0).
  unfold mexp. rewrite <- flux_fm; try assumption; try lra.
  - reflexivity.
  - unfold exit, throat. cbn. repeat apply Rmult_lt_0_compat; assumption.
Qed.
Lemma mass_throat c pi eta A : sane c -> 0 < pi ->
  mass_flow (throat c pi eta) A
  = ga_Pt (throat c pi eta) / sqrt (ga_Tt (throat c pi eta)) * sqrt (ch_gamma c / ch_R c) / Rpower ((ch_gamma c + 1) / 2) (mexp (ch_gamma c)) * A.
Proof.
  intros (P & T & G & R0) Hpi.
  assert (TT : 0 < ga_Tt (throat c pi eta)) by (apply Rmult_lt_0_compat; [assumption|apply Rpower_pos]).
  assert (PP : 0 < ga_Pt (throat c pi eta)) by (apply Rmult_lt_0_compat; assumption).
  pose proof (flux_fm (ch_gamma c) (ch_R c) _ _ 1 G R0 TT PP ltac:(lra)) as F. rewrite fm_one, Rmult_1_r in F by assumption. fold (mexp (ch_gamma c)) in F.
  rewrite <- F. unfold mass_flow, flux, density, speed, sound, throat. cbn [ga_rho ga_U ga_P ga_T ga_Tt ga_Pt].
  replace (Bof (ch_gamma c) 1) with (1 + (ch_gamma c - 1) / 2) by (unfold Bof; ring). ring.
Qed.
Lemma mass_ratio c pi eta M At er : sane c -> 0 < pi -> 0 < M -> area_star (ch_gamma c) M = er ->
  mass_flow (exit c pi eta M) (At * er)
  = Rpower pi (1 - (ch_gamma c - 1) / (2 * ch_gamma c) * eta) * mass_flow (throat c pi eta) At.
Proof.
  intros S Hpi HM E. rewrite mass_exit, mass_throat by assumption. destruct S as (P & T & G & R0).
  rewrite area_fm in E by assumption. rewrite <- E.
  assert (TT : 0 < ga_Tt (throat c pi eta)) by (apply Rmult_lt_0_compat; [assumption|apply Rpower_pos]).
  set (k := (ch_gamma c - 1) / ch_gamma c * eta).
  assert (E1 : ga_Tt (exit c pi eta M) = ga_Tt (throat c pi eta) * Rpower pi k) by reflexivity.
  assert (E2 : ga_Pt (exit c pi eta M) = ga_Pt (throat c pi eta) * pi) by reflexivity.
  rewrite E1, E2. rewrite sqrt_mult by (left; try apply Rpower_pos; assumption).
  assert (E3 : sqrt (Rpower pi k) = Rpower pi (k / 2)). { rewrite sqrt_Rpower by apply Rpower_pos. rewrite Rpower_mult. f_equal. }
  rewrite E3. replace (1 - (ch_gamma c - 1) / (2 * ch_gamma c) * eta) with (1 + - (k / 2)) by (unfold k; field; lra).
  rewrite Rpower_plus, Rpower_Ropp, Rpower_1 by assumption.
  pose proof (fmR_pos (ch_gamma c) M HM). pose proof (Rpower_pos pi (k / 2)). pose proof (sqrt_lt_R0 _ TT). pose proof (Rpower_pos ((ch_gamma c + 1) / 2) (mexp (ch_gamma c))).
  field. repeat split; lra.
Qed.

(** ** The best expansion *)
Definition kexp (g : R) : R := g / (g - 1).
Definition bigF (g Pt At p0 M : R) : R :=
  At * exp (- ln M + mexp g * ln (2 / (g + 1) * (1 + (g - 1) / 2 * (M * M))))
  * (Pt * exp (- (kexp g * ln (1 + (g - 1) / 2 * (M * M)))) * (1 + g * (M * M)) - p0).
Lemma bigF_deriv g Pt At p0 M : 1 < g -> 0 < M ->
  derivable_pt_lim (bigF g Pt At p0) M
    (At * area_star g M * ((M * M - 1) / (M * Bof g M)) * (Pt / Rpower (Bof g M) (kexp g) - p0)).
Proof.
  intros G H. pose proof (Bof_pos g M G) as B. unfold bigF.
  assert (EB : 1 + (g - 1) / 2 * (M * M) = Bof g M) by (unfold Bof; ring).
  assert (C : 0 < 2 / (g + 1)) by (apply Rdiv_lt_0_compat; lra).
  eapply D_val; [der|].
  - assumption.
  - rewrite EB. apply Rmult_lt_0_compat; assumption.
  - rewrite EB. assumption.
  - rewrite EB. unfold area_star. fold (mexp g). rewrite <- BofE.
    assert (E1 : exp (- ln M + mexp g * ln (2 / (g + 1) * Bof g M)) = / M * Rpower (2 / (g + 1) * Bof g M) (mexp g)).
    { rewrite exp_plus, exp_Ropp, exp_ln by assumption. reflexivity. }
    assert (E2 : exp (- (kexp g * ln (Bof g M))) = / Rpower (Bof g M) (kexp g)) by (rewrite exp_Ropp; reflexivity).
    rewrite E1, E2. pose proof (Rpower_pos (Bof g M) (kexp g)) as Y. set (A := Rpower (2 / (g + 1) * Bof g M) (mexp g)). set (y := Rpower (Bof g M) (kexp g)) in *.
    unfold kexp, mexp. apply Rminus_diag_uniq.
    unfold Bof in *. field. repeat split; try lra.
Qed.

Lemma bigF_eq g Pt At p0 M : 1 < g -> 0 < M ->
  bigF g Pt At p0 M = At * area_star g M * (Pt / Rpower (Bof g M) (kexp g) * (1 + g * (M * M)) - p0).
Proof.
  intros G H. unfold bigF, area_star. fold (mexp g). rewrite <- BofE. replace (1 + (g - 1) / 2 * (M * M)) with (Bof g M) by (unfold Bof; ring).
  rewrite exp_plus, !exp_Ropp, exp_ln by assumption. unfold Rpower. unfold Rdiv. ring.
Qed.
Lemma static_falls g Pt M N : 1 < g -> 0 < Pt -> 0 <= M -> M < N -> Pt / Rpower (Bof g N) (kexp g) < Pt / Rpower (Bof g M) (kexp g).
Proof.
  intros G P H L. unfold Rdiv. apply Rmult_lt_compat_l; [assumption|]. apply Rinv_lt_contravar; [apply Rmult_lt_0_compat; apply Rpower_pos|].
  apply Rpower_lt_base; [apply Bof_pos; assumption| |unfold kexp; apply Rdiv_lt_0_compat; lra].
  unfold Bof. assert (M * M < N * N) by nra. assert ((g - 1) / 2 * (M * M) < (g - 1) / 2 * (N * N)) by (apply Rmult_lt_compat_l; lra). lra.
Qed.
Lemma bigF_up g Pt At p0 M N : 1 < g -> 0 < Pt -> 0 < At -> 1 <= M -> M < N -> p0 <= Pt / Rpower (Bof g N) (kexp g) ->
  bigF g Pt At p0 M < bigF g Pt At p0 N.
Proof.
  intros G P A H L Q. apply (grows (bigF g Pt At p0) (fun M => At * area_star g M * ((M * M - 1) / (M * Bof g M)) * (Pt / Rpower (Bof g M) (kexp g) - p0)) M N L).
  - intros z Z. apply bigF_deriv; lra.
  - intros z Z. pose proof (static_falls g Pt z N G P ltac:(lra) ltac:(lra)). pose proof (area_pos g z G ltac:(lra)). pose proof (Bof_pos g z G).
    assert (0 < (z * z - 1) / (z * Bof g z)) by (apply Rdiv_lt_0_compat; [nra|apply Rmult_lt_0_compat; lra]).
    apply Rmult_lt_0_compat; [|lra]. apply Rmult_lt_0_compat; [|assumption]. apply Rmult_lt_0_compat; assumption.
Qed.
Lemma bigF_down g Pt At p0 M N : 1 < g -> 0 < Pt -> 0 < At -> 1 <= M -> M < N -> Pt / Rpower (Bof g M) (kexp g) <= p0 ->
  bigF g Pt At p0 N < bigF g Pt At p0 M.
Proof.
  intros G P A H L Q. apply (falls (bigF g Pt At p0) (fun M => At * area_star g M * ((M * M - 1) / (M * Bof g M)) * (Pt / Rpower (Bof g M) (kexp g) - p0)) M N L).
  - intros z Z. apply bigF_deriv; lra.
  - intros z Z. pose proof (static_falls g Pt M z G P ltac:(lra) ltac:(lra)). pose proof (area_pos g z G ltac:(lra)). pose proof (Bof_pos g z G).
    assert (0 < At * area_star g z * ((z * z - 1) / (z * Bof g z))).
    { apply Rmult_lt_0_compat; [apply Rmult_lt_0_compat; assumption|]. apply Rdiv_lt_0_compat; [nra|apply Rmult_lt_0_compat; lra]. }
    nra.
Qed.
Lemma exit_P c pi eta M : ga_P (exit c pi eta M) = ch_P c * pi * pi / Rpower (Bof (ch_gamma c) M) (kexp (ch_gamma c)).
Proof. reflexivity. Qed.
Lemma momentum_bigF c pi eta M At p0 : sane c -> 0 < pi -> 0 < M ->
  momentum_thrust (exit c pi eta M) (At * area_star (ch_gamma c) M) p0 = bigF (ch_gamma c) (ch_P c * pi * pi) At p0 M.
Proof.
  intros S Hpi HM. rewrite bigF_eq by (try assumption; apply S). rewrite <- (exit_P c pi eta M).
  unfold momentum_thrust, mass_flow. pose proof (exit_flux c pi eta M S Hpi HM) as F. cbv zeta in F.
  set (e := exit c pi eta M) in *. transitivity (At * area_star (ch_gamma c) M * (ga_rho e * (ga_U e * ga_U e) + ga_P e - p0)); [ring|]. rewrite F. ring.
Qed.
Lemma clip0_nonneg x : 0 <= x -> clip0 x = x.
Proof. intro H. unfold clip0. destruct (Rltb x 0) eqn:E; [apply Rltb_true in E; lra|reflexivity]. Qed.
Lemma clip0_neg x : x <= 0 -> clip0 x = 0.
Proof. intro H. unfold clip0. destruct (Rltb x 0) eqn:E; [reflexivity|apply Rltb_false in E; lra]. Qed.
Lemma clip0_max x : clip0 x = Rmax 0 x.
Proof. unfold clip0. destruct (Rltb x 0) eqn:E; [apply Rltb_true in E; rewrite Rmax_left; lra|apply Rltb_false in E; rewrite Rmax_right; lra]. Qed.
Lemma clip0_mono x y : x <= y -> clip0 x <= clip0 y.
Proof. intro H. rewrite !clip0_max. apply Rle_max_compat_l. assumption. Qed.
Lemma clip0_scale k x : 0 <= k -> clip0 (k * x) = k * clip0 x.
Proof. intro K. destruct (Rle_lt_dec 0 x). - rewrite !clip0_nonneg; nra. - rewrite !clip0_neg; nra. Qed.

(** effective exhaust velocity *)
Lemma exhaust_limit c pi eta M p0 : sane c -> 0 < pi <= 1 -> 0 <= eta -> 1 <= M -> 0 <= p0 ->
  let e := exit c pi eta M in
  ga_U e * (1 + 1 / (ch_gamma c * M * M) * (1 - p0 / ga_P e)) < vacuum_speed (ch_gamma c) (ch_R c) (ch_T c).
Proof.
  intros S Hpi He HM Hp e. destruct (exit_pos c pi eta M S) as (P & T & _ & U & TT); try lra. fold e in P, T, U, TT.
  assert (S' := S). destruct S' as (P0 & T0 & G & R0). set (g := ch_gamma c) in *.
  assert (GM : 0 < g * M * M) by (repeat apply Rmult_lt_0_compat; lra).
  assert (I : 0 < 1 / (g * M * M)) by (apply Rdiv_lt_0_compat; lra).
  apply Rle_lt_trans with (ga_U e * (1 + 1 / (g * M * M))).
  { apply Rmult_le_compat_l; [lra|]. assert (0 <= p0 / ga_P e) by (apply Rmult_le_pos; [assumption|left; apply Rinv_0_lt_compat; assumption]). nra. }
  unfold vacuum_speed.
  assert (Tle : ga_Tt e <= ch_T c).
  { unfold e, exit, throat. cbn [ga_Tt]. set (k := (ch_gamma c - 1) / ch_gamma c * eta).
    assert (K : Rpower pi k <= 1). { rewrite <- (Rpower_base1 k). apply Rpower_le_base; try lra. unfold k. apply Rmult_le_pos; [|assumption]. left. apply Rdiv_lt_0_compat; fold g; lra. }
    pose proof (Rpower_pos pi k). assert (Rpower pi k * Rpower pi k <= 1) by nra. rewrite Rmult_assoc. nra. }
  assert (UE : ga_U e = M * sqrt (g * ch_R c * ga_T e)) by reflexivity.
  assert (TE : ga_Tt e = ga_T e * Bof g M). { pose proof (Bof_pos g M G). unfold e. unfold exit at 2. cbn [ga_T]. fold (Bof (ch_gamma c) M). fold g. unfold exit. cbn [ga_Tt]. fold g. field. lra. }
  apply Rsqr_incrst_0; [| |apply sqrt_pos].
  2:{ apply Rmult_le_pos; [lra|]. lra. }
  assert (V : 0 <= 2 * g / (g - 1) * ch_R c * ch_T c).
  { assert (0 < 2 * g / (g - 1)) by (apply Rdiv_lt_0_compat; lra). left. apply Rmult_lt_0_compat; [apply Rmult_lt_0_compat; assumption|assumption]. }
  rewrite Rsqr_sqrt by assumption. unfold Rsqr. rewrite UE. set (s := sqrt _).
  assert (SS : s * s = g * ch_R c * ga_T e) by (apply sqrt_sqrt; left; repeat (apply Rmult_lt_0_compat; try lra)).
  replace (M * s * (1 + 1 / (g * M * M)) * (M * s * (1 + 1 / (g * M * M)))) with (M * M * (s * s) * (1 + 1 / (g * M * M)) * (1 + 1 / (g * M * M))) by ring.
  rewrite SS. apply Rlt_le_trans with (2 * g / (g - 1) * ch_R c * ga_Tt e).
  2:{ apply Rmult_le_compat_l; [|assumption]. assert (0 < 2 * g / (g - 1)) by (apply Rdiv_lt_0_compat; lra). left. apply Rmult_lt_0_compat; lra. }
  rewrite TE. unfold Bof.
  replace (M * M * (g * ch_R c * ga_T e) * (1 + 1 / (g * M * M)) * (1 + 1 / (g * M * M))) with (ch_R c * ga_T e * (g * M * M + 2 + 1 / (g * M * M))) by (field; lra).
  replace (2 * g / (g - 1) * ch_R c * (ga_T e * (1 + (g - 1) / 2 * M * M))) with (ch_R c * ga_T e * (g * M * M + 2 + 2 / (g - 1))) by (field; lra).
  apply Rmult_lt_compat_l; [apply Rmult_lt_0_compat; assumption|]. apply Rplus_lt_compat_l.
  apply Rmult_lt_reg_r with (g * M * M); [assumption|]. unfold Rdiv. rewrite (Rmult_assoc 1), Rinv_l by lra.
  apply Rmult_lt_reg_r with (g - 1); [lra|]. replace (2 * / (g - 1) * (g * M * M) * (g - 1)) with (2 * (g * M * M)) by (field; lra). assert (1 <= M * M) by nra. assert (W : g <= g * (M * M)) by nra. rewrite <- Rmult_assoc in W. lra.
Qed.
