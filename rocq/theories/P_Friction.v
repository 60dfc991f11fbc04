(** * Skin friction, form factors, drag rise: proofs *)
From Coq Require Import Reals List Bool Arith String Lra Lia.
From Verif Require Import PyBase M_Opt P_Opt M_Util P_Util M_Drag S_Drag.
Import ListNotations.
Local Open Scope R_scope.

Ltac ltb := repeat match goal with
  | |- context [Rltb ?a ?b] => destruct (Rltb a b) eqn:?
  end; repeat match goal with
  | H : Rltb _ _ = true |- _ => apply Rltb_true in H
  | H : Rltb _ _ = false |- _ => apply Rltb_false in H
  end.

Lemma Rpow_pos x y : 0 < Rpower x y.
Proof. apply exp_pos. Qed.
Lemma pw_eq x y : 0 < x -> pw x y = Rpower x y.
Proof. intro H. unfold pw. ltb; [reflexivity|lra]. Qed.
Lemma pw_0 y : pw 0 y = 0.
Proof. unfold pw. ltb; [lra|reflexivity]. Qed.
Lemma pw_pos x y : 0 < x -> 0 < pw x y.
Proof. intro. rewrite pw_eq by assumption. apply Rpow_pos. Qed.
Lemma Rpower_less a b y : 0 < a -> a < b -> 0 < y -> Rpower a y < Rpower b y.
Proof. intros. unfold Rpower. apply exp_increasing. apply Rmult_lt_compat_l; [assumption|]. apply ln_increasing; assumption. Qed.
Lemma Rpower_leq a b y : 0 < a -> a <= b -> 0 <= y -> Rpower a y <= Rpower b y.
Proof.
  intros A [L| ->] [Y|Y]; try lra.
  - left. apply Rpower_less; assumption.
  - subst y. unfold Rpower. rewrite !Rmult_0_l. lra.
Qed.
Lemma pw_less a b y : 0 <= a -> a < b -> 0 < y -> pw a y < pw b y.
Proof.
  intros [A|A] L Y.
  - rewrite !pw_eq by lra. apply Rpower_less; assumption.
  - subst a. rewrite pw_0. apply pw_pos. assumption.
Qed.
Lemma Rpower_one y : Rpower 1 y = 1.
Proof. unfold Rpower. rewrite ln_1, Rmult_0_r, exp_0. reflexivity. Qed.

(** ** logarithm *)
Lemma ln10_pos : 0 < ln 10.
Proof. rewrite <- ln_1. apply ln_increasing; lra. Qed.
Lemma lg_less a b : 0 < a -> a < b -> lg a < lg b.
Proof. intros. unfold lg. apply Rmult_lt_compat_r; [apply Rinv_0_lt_compat, ln10_pos|]. apply ln_increasing; assumption. Qed.
Lemma lg_1 : lg 1 = 0.
Proof. unfold lg. rewrite ln_1. lra. Qed.
Lemma lg_pos a : 1 < a -> 0 < lg a.
Proof. intro. rewrite <- lg_1. apply lg_less; lra. Qed.

(** ** temperature factors *)
Definition heat (Ma : R) : R := 1 + 1151 / 10000 * Ma ^ 2.
Lemma heat_ge Ma : 1 <= heat Ma.
Proof. unfold heat. pose proof (pow2_ge_0 Ma). lra. Qed.
Lemma heat_less M M' : 0 <= M -> M < M' -> heat M < heat M'.
Proof. intros. unfold heat. assert (M ^ 2 < M' ^ 2) by nra. lra. Qed.
Definition slow (T q : R) : R := Rpower q (15 / 10) * ((q * T + 216) / (T + 216)).
Lemma slow_less T q q' : 0 < T -> 1 <= q -> q < q' -> slow T q < slow T q'.
Proof.
  intros HT Q L. unfold slow. assert (0 < T + 216) by lra.
  apply Rlt_trans with (Rpower q (15 / 10) * ((q' * T + 216) / (T + 216))).
  - apply Rmult_lt_compat_l; [apply Rpow_pos|]. apply Rmult_lt_compat_r; [apply Rinv_0_lt_compat; lra|nra].
  - apply Rmult_lt_compat_r; [apply Rdiv_lt_0_compat; nra|]. apply Rpower_less; lra.
Qed.
Lemma slow_1 T : 0 < T -> slow T 1 = 1.
Proof. intro. unfold slow. rewrite Rpower_one. field. lra. Qed.
Lemma slow_ge T q : 0 < T -> 1 <= q -> 1 <= slow T q.
Proof. intros HT [Q|Q]; [|subst; rewrite slow_1; lra]. rewrite <- (slow_1 T HT). left. apply slow_less; lra. Qed.
Lemma factors_eq Re Ma T : 0 < Re -> 0 < T ->
  plate_factors Re Ma T = (/ heat Ma, Rpower (/ slow T (heat Ma)) (2 / 10)).
Proof.
  intros HR HT. unfold plate_factors.
  assert (E : T * (1 + 35 / 1000 * Ma ^ 2 + 45 / 100 * (T * (1 + 178 / 1000 * Ma ^ 2) / T - 1)) = T * heat Ma) by (unfold heat; field; lra).
  rewrite E. pose proof (heat_ge Ma) as H.
  assert (E2 : T * heat Ma / T = heat Ma) by (field; lra). rewrite E2.
  f_equal; [field; lra|]. rewrite (pw_eq (heat Ma)) by lra.
  replace (Re / (Re * Rpower (heat Ma) (15 / 10) * ((T * heat Ma + 216) / (T + 216)))) with (/ slow T (heat Ma)).
  - apply pw_eq. apply Rinv_0_lt_compat. pose proof (slow_ge T (heat Ma) HT H). lra.
  - unfold slow. replace (heat Ma * T + 216) with (T * heat Ma + 216) by ring. field. repeat split; try nra.
    apply Rgt_not_eq. apply Rpow_pos.
Qed.
Lemma inv_le1 x : 1 <= x -> / x <= 1.
Proof. intro. rewrite <- Rinv_1. apply Rinv_le_contravar; lra. Qed.
Lemma k_comp_range M : 0 < / heat M <= 1.
Proof. pose proof (heat_ge M). split; [apply Rinv_0_lt_compat; lra|apply inv_le1; assumption]. Qed.
Lemma k_reyn_range M T : 0 < T -> 0 < Rpower (/ slow T (heat M)) (2 / 10) <= 1.
Proof.
  intro HT. split; [apply Rpow_pos|]. rewrite <- (Rpower_one (2 / 10)). pose proof (slow_ge T (heat M) HT (heat_ge M)).
  apply Rpower_leq; [apply Rinv_0_lt_compat; lra|apply inv_le1; assumption|lra].
Qed.
Lemma k_comp_less M M' : 0 <= M -> M < M' -> / heat M' < / heat M.
Proof. intros. pose proof (heat_ge M). pose proof (heat_less M M'). apply Rinv_lt_contravar; [nra|auto]. Qed.
Lemma k_reyn_less M M' T : 0 < T -> 0 <= M -> M < M' -> Rpower (/ slow T (heat M')) (2 / 10) < Rpower (/ slow T (heat M)) (2 / 10).
Proof.
  intros HT H L. pose proof (slow_ge T (heat M) HT (heat_ge M)). pose proof (slow_ge T (heat M') HT (heat_ge M')).
  apply Rpower_less; [apply Rinv_0_lt_compat; lra| |lra]. apply Rinv_lt_contravar; [nra|].
  apply slow_less; [assumption|apply heat_ge|apply heat_less; assumption].
Qed.

(** ** flat plates *)
Definition ct (Re : R) : R := 455 / 1000 / Rpower (lg Re) (258 / 100).
Lemma ct_pos Re : 0 < ct Re.
Proof. unfold ct. apply Rdiv_lt_0_compat; [lra|apply Rpow_pos]. Qed.
Lemma ct_less a b : 1 < a -> a < b -> ct b < ct a.
Proof.
  intros. unfold ct. apply Rmult_lt_compat_l; [lra|]. apply Rinv_lt_contravar; [apply Rmult_lt_0_compat; apply Rpow_pos|].
  apply Rpower_less; [apply lg_pos; assumption|apply lg_less; lra|lra].
Qed.
Definition kk (M T : R) : R := / heat M * Rpower (/ slow T (heat M)) (2 / 10).
Lemma kk_pos M T : 0 < T -> 0 < kk M T.
Proof. intro. apply Rmult_lt_0_compat; [apply k_comp_range|apply k_reyn_range; assumption]. Qed.
Lemma kk_less M M' T : 0 < T -> 0 <= M -> M < M' -> kk M' T < kk M T.
Proof.
  intros. unfold kk. pose proof (k_comp_less M M'). pose proof (k_reyn_less M M' T). pose proof (k_comp_range M').
  pose proof (k_reyn_range M T). apply Rlt_trans with (/ heat M' * Rpower (/ slow T (heat M)) (2 / 10)).
  - apply Rmult_lt_compat_l; [tauto|auto].
  - apply Rmult_lt_compat_r; [tauto|auto].
Qed.
Lemma turbulent_eq Re M T : 1 < Re -> 0 < T ->
  compressible_turbulent_flat_plate Re M T = Friction (ct Re * / heat M * Rpower (/ slow T (heat M)) (2 / 10)) (/ heat M) (Rpower (/ slow T (heat M)) (2 / 10)).
Proof. intros. unfold compressible_turbulent_flat_plate. rewrite factors_eq by lra. rewrite pw_eq by (apply lg_pos; assumption). reflexivity. Qed.
Lemma turbulent_cf Re M T : 1 < Re -> 0 < T -> f_cf (compressible_turbulent_flat_plate Re M T) = ct Re * kk M T.
Proof. intros. rewrite turbulent_eq by assumption. cbn. unfold kk. ring. Qed.

(** where the turbulent layer would have started: a fraction of the chord *)
Definition start (Re xt : R) : R := Rpower (2778 / 100 * (671 / 1000 * xt / Rpower (Re * xt) (1 / 2)) * Rpower Re (2 / 10)) (125 / 100).
Lemma start_pos Re xt : 0 < start Re xt.
Proof. apply Rpow_pos. Qed.
Definition mixed_inc (Re xt : R) : R :=
  1328 / 1000 / Rpower (Re * xt) (1 / 2) * xt + 455 / 1000 / pw (lg (Re * (1 - xt + start Re xt))) (258 / 100) * (1 - xt + start Re xt)
  - 455 / 1000 / pw (lg (Re * start Re xt)) (258 / 100) * start Re xt.
Lemma mixed_eq Re M T xt : 0 < Re -> 0 < T -> 0 < xt <= 1 ->
  compressible_mixed_flat_plate Re M T xt =
  Ok (Friction (mixed_inc Re xt * / heat M * Rpower (/ slow T (heat M)) (2 / 10)) (/ heat M) (Rpower (/ slow T (heat M)) (2 / 10))).
Proof.
  intros HR HT HX. unfold compressible_mixed_flat_plate.
  rewrite (proj2 (Rltb_false xt 0)), (proj2 (Rltb_false 1 xt)) by lra. cbn [orb].
  assert (0 < Re * xt) by nra. destruct (Req_EM_T (Re * xt) 0); [lra|].
  rewrite (proj2 (Rltb_true 0 xt)) by lra. rewrite factors_eq by assumption.
  rewrite (pw_eq (Re * xt)), (pw_eq Re) by lra.
  rewrite (pw_eq (_ * _ * _)); [reflexivity|].
  apply Rmult_lt_0_compat; [|apply Rpow_pos]. apply Rmult_lt_0_compat; [lra|]. apply Rdiv_lt_0_compat; [lra|apply Rpow_pos].
Qed.
Lemma mixed_0 Re M T : 1 < Re -> 0 < T -> compressible_mixed_flat_plate Re M T 0 = Ok (compressible_turbulent_flat_plate Re M T).
Proof.
  intros HR HT. unfold compressible_mixed_flat_plate. rewrite (proj2 (Rltb_false 0 0)), (proj2 (Rltb_false 1 0)) by lra. cbn [orb].
  replace (Re * 0) with 0 by ring. destruct (Req_EM_T 0 0); [|lra].
  replace (2778 / 100 * (671 / 1000 * 0 / pw (1 / 10000) (1 / 2)) * pw Re (2 / 10)) with 0 by (unfold Rdiv; ring).
  rewrite pw_0. replace (Re * (1 - 0 + 0)) with Re by ring. unfold compressible_turbulent_flat_plate.
  destruct (plate_factors Re M T) as [a b]. f_equal. f_equal.
  assert (0 < pw (lg Re) (258 / 100)) by (apply pw_pos, lg_pos; assumption).
  assert (0 < pw (1 / 10000) (1 / 2)) by (apply pw_pos; lra). field. split; lra.
Qed.
Lemma mixed_1 Re : 0 < Re -> mixed_inc Re 1 = 1328 / 1000 / sqrt Re.
Proof.
  intro H. unfold mixed_inc. replace (1 - 1 + start Re 1) with (start Re 1) by ring. replace (Re * 1) with Re by ring.
  replace (Rpower Re (1 / 2)) with (sqrt Re) by (rewrite <- Rpower_sqrt by assumption; f_equal; lra). ring.
Qed.

(** ** the layer that starts turbulent further up always reaches less far than the one to the trailing edge *)
(** [x ct (Re x)] grows with [x] where [ln (Re x) > 2.58] *)
Lemma growing Re x y : 0 < Re -> 0 < x -> x < y -> 258 / 100 < ln (Re * x) -> ct (Re * x) * x < ct (Re * y) * y.
Proof.
  intros HR HX HY HL.
  assert (X1 : 0 < Re * x) by nra. assert (Y1 : 0 < Re * y) by nra.
  assert (LL : ln (Re * x) < ln (Re * y)) by (apply ln_increasing; nra).
  set (u := ln (Re * x)) in *. set (w := ln (Re * y)) in *.
  assert (LX : lg (Re * x) = u / ln 10) by reflexivity. assert (LY : lg (Re * y) = w / ln 10) by reflexivity.
  pose proof ln10_pos as TEN.
  assert (E : forall z, ct z * z = 455 / 1000 * (z / Rpower (lg z) (258 / 100))).
  { intro z. unfold ct. field. apply Rgt_not_eq, Rpow_pos. }
  (* it is enough to compare [Re x ct (Re x)] *)
  apply (Rmult_lt_reg_l Re); [assumption|].
  replace (Re * (ct (Re * x) * x)) with (ct (Re * x) * (Re * x)) by ring.
  replace (Re * (ct (Re * y) * y)) with (ct (Re * y) * (Re * y)) by ring.
  rewrite !E. apply Rmult_lt_compat_l; [lra|].
  assert (F : forall z, 0 < z -> 0 < lg z -> z / Rpower (lg z) (258 / 100) = exp (ln z - 258 / 100 * ln (lg z))).
  { intros z Z L. unfold Rminus. rewrite exp_plus, exp_Ropp, exp_ln by assumption. reflexivity. }
  rewrite !F by (try assumption; rewrite ?LX, ?LY; apply Rdiv_lt_0_compat; lra).
  apply exp_increasing. fold u w. rewrite LX, LY.
  unfold Rdiv. rewrite !ln_mult by (try apply Rinv_0_lt_compat; lra).
  assert (D : ln w - ln u < (w - u) / u).
  { replace (ln w - ln u) with (ln (w / u)).
    - assert (0 < (w - u) / u) by (apply Rdiv_lt_0_compat; lra).
      replace (w / u) with (1 + (w - u) / u) by (field; lra).
      apply Rlt_le_trans with (ln (exp ((w - u) / u))); [|rewrite ln_exp; lra].
      apply ln_increasing; [lra|]. apply exp_ineq1. lra.
    - unfold Rdiv. rewrite ln_mult, ln_Rinv by (try apply Rinv_0_lt_compat; lra). lra. }
  assert (258 / 100 * ((w - u) / u) < w - u).
  { replace (258 / 100 * ((w - u) / u)) with ((w - u) * (258 / 100 / u)) by (field; lra).
    rewrite <- (Rmult_1_r (w - u)) at 2. apply Rmult_lt_compat_l; [lra|].
    apply (Rmult_lt_reg_r u); [lra|]. unfold Rdiv. rewrite Rmult_assoc, Rinv_l by lra. lra. }
  lra.
Qed.
(** the equivalent start: [Re x = 38.7 (Re xt)^0.625] *)
Lemma start_ln Re xt : 0 < Re -> 0 < xt -> ln (Re * start Re xt) = 125 / 100 * ln (2778 / 100 * (671 / 1000)) + 625 / 1000 * ln (Re * xt).
Proof.
  intros HR HX. unfold start. rewrite ln_mult by (try apply Rpow_pos; assumption). unfold Rpower at 1. rewrite ln_exp.
  assert (0 < Re * xt) by nra.
  assert (0 < Rpower (Re * xt) (1 / 2)) by apply Rpow_pos. assert (0 < Rpower Re (2 / 10)) by apply Rpow_pos.
  replace (2778 / 100 * (671 / 1000 * xt / Rpower (Re * xt) (1 / 2)) * Rpower Re (2 / 10))
    with (2778 / 100 * (671 / 1000) * (xt * (/ Rpower (Re * xt) (1 / 2) * Rpower Re (2 / 10)))) by (field; lra).
  assert (0 < / Rpower (Re * xt) (1 / 2)) by (apply Rinv_0_lt_compat; assumption).
  rewrite (ln_mult (2778 / 100 * (671 / 1000))), (ln_mult xt), (ln_mult (/ _)), ln_Rinv by (try lra; repeat apply Rmult_lt_0_compat; assumption).
  unfold Rpower. rewrite !ln_exp, !(ln_mult Re xt) by assumption. lra.
Qed.
Lemma ln_big : 258 / 100 < 125 / 100 * ln (2778 / 100 * (671 / 1000)).
Proof.
  (* e^2.064 < 18.6: e < 3 and 3^2.064 < 3^2.5 < 16 *)
  assert (H : exp 1 <= 3) by apply exp_le_3.
  assert (exp (25 / 10) < 2778 / 100 * (671 / 1000)).
  { assert (0 < exp (25 / 10)) by apply exp_pos.
    assert (S : exp (25 / 10) * exp (25 / 10) = exp 1 * exp 1 * exp 1 * exp 1 * exp 1) by (rewrite <- !exp_plus; f_equal; lra).
    assert (0 < exp 1) by apply exp_pos. assert (exp 1 * exp 1 <= 9) by nra. assert (exp 1 * exp 1 * exp 1 <= 27) by nra.
    assert (exp 1 * exp 1 * exp 1 * exp 1 <= 81) by nra. assert (exp 1 * exp 1 * exp 1 * exp 1 * exp 1 <= 243) by nra. nra. }
  assert (25 / 10 < ln (2778 / 100 * (671 / 1000))).
  { rewrite <- (ln_exp (25 / 10)). apply ln_increasing; [apply exp_pos|assumption]. }
  lra.
Qed.
Lemma mixed_pos Re xt : 0 < xt <= 1 -> 1 <= Re * xt -> 0 < mixed_inc Re xt.
Proof.
  intros HX HR. assert (0 < Re) by nra. assert (0 < Re * xt) by lra.
  assert (B : 258 / 100 < ln (Re * start Re xt)).
  { rewrite start_ln by lra. assert (0 <= ln (Re * xt)).
    { rewrite <- ln_1. destruct HR as [HR|HR]; [left; apply ln_increasing; lra|rewrite HR; lra]. }
    pose proof ln_big. lra. }
  unfold mixed_inc. pose proof (start_pos Re xt) as SP.
  assert (P : forall z, 0 < z -> 258 / 100 < ln z -> 0 < lg z) by (intros; apply Rdiv_lt_0_compat; [lra|apply ln10_pos]).
  assert (L2 : ln (Re * start Re xt) <= ln (Re * (1 - xt + start Re xt))).
  { destruct (Req_dec xt 1) as [->|]; [right; f_equal; ring|]. left. apply ln_increasing; nra. }
  rewrite !pw_eq by (apply P; nra). fold (ct (Re * start Re xt)) (ct (Re * (1 - xt + start Re xt))).
  assert (0 < 1328 / 1000 / Rpower (Re * xt) (1 / 2) * xt).
  { apply Rmult_lt_0_compat; [apply Rdiv_lt_0_compat; [lra|apply Rpow_pos]|lra]. }
  enough (ct (Re * start Re xt) * start Re xt <= ct (Re * (1 - xt + start Re xt)) * (1 - xt + start Re xt)) by lra.
  destruct (Req_dec xt 1) as [->|].
  - replace (1 - 1 + start Re 1) with (start Re 1) by ring. lra.
  - left. apply growing; lra.
Qed.
(** an all laminar plate has less friction than an all turbulent one *)
Lemma laminar_less Re : 10 ^ 5 <= Re -> 1328 / 1000 / sqrt Re < ct Re.
Proof.
  intro H. assert (1 <= 10 ^ 5) by lra. assert (0 < Re) by lra.
  pose proof ln10_pos as TEN.
  assert (L5 : 5 <= lg Re).
  { unfold lg. apply (Rmult_le_reg_r (ln 10)); [lra|]. unfold Rdiv. rewrite Rmult_assoc, Rinv_l, Rmult_1_r by lra.
    replace (5 * ln 10) with (ln (10 ^ 5)) by (rewrite ln_pow by lra; cbn [INR]; lra).
    destruct H as [H|H]; [left; apply ln_increasing; lra|rewrite H; lra]. }
  set (u := lg Re) in *.
  assert (ER : ln Re = u * ln 10) by (unfold u, lg; field; lra).
  assert (LT : 2 < ln 10).
  { apply Rle_lt_trans with (ln (exp 1 * exp 1)); [rewrite ln_mult, ln_exp by apply exp_pos; lra|].
    pose proof exp_le_3. pose proof (exp_pos 1). apply ln_increasing; [apply exp_pos || nra|nra]. }
  (* compare logarithms *)
  apply ln_lt_inv; [apply Rdiv_lt_0_compat; [lra|apply sqrt_lt_R0; assumption]|apply ct_pos|].
  unfold ct. fold u. unfold Rdiv.
  rewrite (ln_mult (1328 * / 1000) (/ _)), (ln_mult (455 * / 1000) (/ _)), !ln_Rinv
    by (try apply Rinv_0_lt_compat; try apply Rpow_pos; try apply sqrt_lt_R0; lra).
  rewrite <- Rpower_sqrt by assumption. unfold Rpower at 1 2. rewrite !ln_exp.
  rewrite ER.
  (* ln u <= ln 5 + (u-5)/5 *)
  assert (D : ln u <= ln 5 + (u - 5) / 5).
  { replace (ln u) with (ln 5 + ln (u / 5)) by (unfold Rdiv; rewrite ln_mult, ln_Rinv by lra; lra).
    apply Rplus_le_compat_l. replace (u / 5) with (1 + (u - 5) / 5) by lra.
    destruct (Req_dec u 5) as [->|]; [replace ((5 - 5) / 5) with 0 by lra; rewrite Rplus_0_r, ln_1; lra|].
    left. apply Rlt_le_trans with (ln (exp ((u - 5) / 5))); [|rewrite ln_exp; lra].
    apply ln_increasing; [lra|]. apply exp_ineq1. lra. }
  assert (C : ln (1328 * / 1000) + 258 / 100 * ln 5 < ln (455 * / 1000) + 5 / 2 * ln 10).
  { assert (258 / 100 * ln 5 <= 26 / 10 * ln 5).
    { apply Rmult_le_compat_r; [|lra]. rewrite <- ln_1. left. apply ln_increasing; lra. }
    enough (10 * ln (1328 * / 1000) + 26 * ln 5 < 10 * ln (455 * / 1000) + 25 * ln 10) by lra.
    replace (10 * ln (1328 * / 1000)) with (ln ((1328 * / 1000) ^ 10)) by (rewrite ln_pow by lra; simpl INR; lra).
    replace (10 * ln (455 * / 1000)) with (ln ((455 * / 1000) ^ 10)) by (rewrite ln_pow by lra; simpl INR; lra).
    replace (26 * ln 5) with (ln (5 ^ 26)) by (rewrite ln_pow by lra; simpl INR; lra).
    replace (25 * ln 10) with (ln (10 ^ 25)) by (rewrite ln_pow by lra; simpl INR; lra).
    rewrite <- !ln_mult by (apply pow_lt; lra). apply ln_increasing; [apply Rmult_lt_0_compat; apply pow_lt; lra|lra]. }
  nra.
Qed.
