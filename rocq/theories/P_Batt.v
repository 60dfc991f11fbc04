(** * Batteries: proofs *)
From Coq Require Import Reals List Bool Arith ZArith Lra Lia Psatz.
From Verif Require Import M_Opt P_Opt M_Mission P_Mission M_Cheb S_Cheb P_Cheb Props_Cheb M_Util M_Batt S_Batt.
Import ListNotations.
Local Open Scope R_scope.
Local Open Scope list_scope.

Ltac ltb := repeat match goal with
  | |- context [Rltb ?a ?b] => let E := fresh "E" in destruct (Rltb a b) eqn:E; [apply Rltb_true in E|apply Rltb_false in E]
  | H : context [Rltb ?a ?b] |- _ => let E := fresh "E" in destruct (Rltb a b) eqn:E; [apply Rltb_true in E|apply Rltb_false in E]
  end.

Lemma clip01_range : forall x, 0 <= clip01 x <= 1. Proof. intro x. unfold clip01. cbv zeta. ltb; lra. Qed.
Lemma clip01_id : forall x, 0 <= x <= 1 -> clip01 x = x. Proof. intros x H. unfold clip01. cbv zeta. ltb; lra. Qed.
Lemma clip01_hi : forall x, 1 <= x -> clip01 x = 1. Proof. intros x H. unfold clip01. cbv zeta. ltb; lra. Qed.
Lemma clip01_lo : forall x, x <= 0 -> clip01 x = 0. Proof. intros x H. unfold clip01. cbv zeta. ltb; lra. Qed.
Lemma clip01_same : forall x, clip01' x = clip01 x. Proof. intros x. unfold clip01, clip01'. cbv zeta. ltb; lra. Qed.
Lemma clip_range : forall lo hi x, lo <= hi -> lo <= clip lo hi x <= hi. Proof. intros lo hi x H. unfold clip. cbv zeta. ltb; lra. Qed.
Lemma clip_id : forall lo hi x, lo <= x <= hi -> clip lo hi x = x. Proof. intros lo hi x H. unfold clip. cbv zeta. ltb; lra. Qed.

(** the share of a positive maximum *)
Lemma share : forall E M, 0 < M ->
  0 <= clip01 (E / M) <= 1 /\ (0 <= E <= M -> clip01 (E / M) * M = E) /\ (M <= E -> clip01 (E / M) = 1) /\ (E <= 0 -> clip01 (E / M) = 0).
Proof.
  intros E M HM. split; [apply clip01_range|].
  assert (A : E / M * M = E) by (field; lra). split; [|split].
  - intro H. rewrite clip01_id; [exact A|]. split; [apply Rmult_le_reg_r with M; lra|apply Rmult_le_reg_r with M; lra].
  - intro H. apply clip01_hi. apply Rmult_le_reg_r with M; lra.
  - intro H. apply clip01_lo. apply Rmult_le_reg_r with M; lra.
Qed.

(** ** the power cut *)
Lemma stored_free : forall n I D P E0 Emax, (forall i, (i < n)%nat -> E0 0%nat + mulv n I P i <= Emax) ->
  forall i, (i < n)%nat -> stored n I D P E0 Emax i = E0 0%nat + mulv n I P i.
Proof.
  intros n I D P E0 Emax H i Hi. unfold stored. cbv zeta. rewrite Rplus_comm. f_equal.
  apply mulv_ext. intros j Hj. destruct (Rltb 0 (P j)); [|reflexivity].
  assert (Z : mulv n D (fun k => if Rltb (mulv n I P k - (Emax - E0 0%nat)) 0 then 0 else mulv n I P k - (Emax - E0 0%nat)) j = 0).
  { unfold mulv. apply Sum_zero. intros k Hk.
    match goal with |- _ * ?x = 0 => replace x with 0; [ring|] end.
    specialize (H k Hk). unfold mulv in H. ltb; lra. }
  rewrite Z. ring.
Qed.
Lemma stored_full : forall n I D P E0 Emax, (forall v i, (i < n)%nat -> mulv n I (mulv n D v) i = v i - v 0%nat) ->
  (forall i, (i < n)%nat -> 0 < P i) -> mulv n I P 0%nat = 0 -> E0 0%nat <= Emax ->
  forall i, (i < n)%nat -> stored n I D P E0 Emax i = Rmin (E0 0%nat + mulv n I P i) Emax.
Proof.
  intros n I D P E0 Emax U HP H0 HE i Hi. unfold stored. cbv zeta.
  set (dl := fun k => if Rltb (mulv n I P k - (Emax - E0 0%nat)) 0 then 0 else mulv n I P k - (Emax - E0 0%nat)).
  rewrite (mulv_ext n I _ (fun j => P j + (-1) * mulv n D dl j)).
  2:{ intros j Hj. specialize (HP j Hj). ltb; lra. }
  rewrite mulv_plus, mulv_scal, U by assumption.
  unfold dl at 2. rewrite H0. unfold dl. unfold Rmin. ltb; destruct (Rle_dec _ _); lra.
Qed.
Lemma calculus_undoes : forall n dt I D, segment_calculus n dt I D ->
  (forall v i, (i < n)%nat -> mulv n I (mulv n D v) i = v i - v 0%nat) /\ forall v, mulv n I v 0%nat = 0.
Proof.
  intros n dt I D (inv & x & D0 & I0 & Hi & HC & Hdt & HI & HD). split.
  - intros v i L. rewrite <- (proj1 (C38_recovers inv n x D0 I0 v i Hi HC L)). unfold mulv. apply Sum_ext. intros j _.
    rewrite HI. rewrite (Sum_ext n (fun k => D j k * v k) (fun k => / dt * (D0 j k * v k))).
    + rewrite Sum_scal. field. exact Hdt.
    + intros k _. rewrite HD. field. exact Hdt.
  - intro v. unfold mulv. apply Sum_zero. intros j _. rewrite HI, (proj1 (C38_first inv n x D0 I0 j Hi HC)). ring.
Qed.

(** ** curves *)
Lemma resistance_pos : forall s, 0 <= s <= 1 -> 0 < li_resistance s.
Proof.
  intros s H. unfold li_resistance.
  assert (A : s ^ 4 <= s ^ 3) by (replace (s ^ 4) with (s ^ 3 * s) by ring; assert (0 <= s ^ 3) by (apply pow_le; lra); nra).
  assert (B : 0 <= s * (s - 55 / 100) ^ 2) by (assert (0 <= (s - 55 / 100) ^ 2) by apply pow2_ge_0; nra).
  nra.
Qed.
Lemma nmc_resistance_pos : forall s, 0 < nmc_resistance s.
Proof. intro s. unfold nmc_resistance. assert (0 <= (s - 1259 / 1483) ^ 2) by apply pow2_ge_0. nra. Qed.
Lemma voltage_up : forall a b, 0 <= a -> a < b -> li_voltage a < li_voltage b.
Proof.
  intros a b Ha H. unfold li_voltage.
  assert (A : exp (-35 * b) < exp (-35 * a)) by (apply exp_increasing; lra).
  assert (B : 0 < (b - a) * (2156 / 10000 - 1178 / 10000 * (a + b) + 3201 / 10000 * (a ^ 2 + a * b + b ^ 2))).
  { apply Rmult_lt_0_compat; [lra|]. assert (0 <= (a + b - 2 / 10) ^ 2) by apply pow2_ge_0. nra. }
  lra.
Qed.
Lemma voltage_pos : forall s, 0 <= s -> 0 < li_voltage s.
Proof.
  intros s H. assert (Z : 0 < li_voltage 0) by (unfold li_voltage; replace (-35 * 0) with 0 by ring; rewrite exp_0; lra).
  destruct (Req_dec s 0) as [->|N]; [exact Z|]. pose proof (voltage_up 0 s). lra.
Qed.

(** ** charge moved *)
Lemma cumtrapz_S : forall f t i, cumtrapz f t (S i) = cumtrapz f t i + (t (S i) - t i) * (f i + f (S i)) / 2.
Proof. reflexivity. Qed.
Lemma cumtrapz_const : forall f t c i, (forall k, (k <= i)%nat -> f k = c) -> cumtrapz f t i = c * (t i - t 0%nat).
Proof.
  intros f t c i. induction i as [|i IH]; intro H; [cbn; ring|]. rewrite cumtrapz_S, IH by (intros; apply H; lia).
  rewrite (H i), (H (S i)) by lia. field.
Qed.
Lemma cumtrapz_ext : forall f g t i, (forall k, (k <= i)%nat -> f k = g k) -> cumtrapz f t i = cumtrapz g t i.
Proof. intros f g t i. induction i as [|i IH]; intro H; [reflexivity|]. rewrite !cumtrapz_S, IH, (H i), (H (S i)) by (auto with arith; intros; apply H; lia). reflexivity. Qed.
Lemma cumtrapz_step : forall f t i, (forall k, 0 <= f k) -> t i <= t (S i) -> cumtrapz f t i <= cumtrapz f t (S i).
Proof. intros f t i F T. rewrite cumtrapz_S. pose proof (F i). pose proof (F (S i)). nra. Qed.

(** ** ageing *)
Lemma after_cons : forall s h u us, after s h (u :: us) = after s (update_battery_state_of_health s h u) us. Proof. reflexivity. Qed.
Lemma after_app : forall s h a b, after s h (a ++ b) = after s (after s h a) b. Proof. intros. unfold after. apply fold_left_app. Qed.
Lemma after_snoc : forall s h a u, after s h (a ++ [u]) = update_battery_state_of_health s (after s h a) u. Proof. intros. rewrite after_app. reflexivity. Qed.
Lemma after_mono : forall s us h, fade (after s h us) <= fade h /\ growth h <= growth (after s h us) /\ (day h <= day (after s h us))%nat.
Proof.
  intros s us. induction us as [|u us IH]; intro h; [cbn; repeat split; lra || lia|]. rewrite after_cons.
  destruct (IH (update_battery_state_of_health s h u)) as (A & B & C).
  cbn [update_battery_state_of_health fade growth day] in A, B, C.
  pose proof (Rmin_r (aged_fade s u (day h)) (fade h)). pose proof (Rmax_r (aged_growth s u (day h)) (growth h)).
  repeat split; [lra|lra|]. destruct (u_count_day u); lia.
Qed.
Lemma after_day : forall s us h, day (after s h us) = (day h + cycles us)%nat.
Proof.
  intros s us. induction us as [|u us IH]; intro h; [cbn; lia|]. rewrite after_cons, IH. unfold cycles. cbn [update_battery_state_of_health day filter].
  destruct (u_count_day u); cbn [List.length]; lia.
Qed.
Lemma power_nonneg : forall t y, 0 <= power t y.
Proof. intros t y. unfold power. destruct (Req_EM_T t 0); [lra|]. unfold Rpower. left. apply exp_pos. Qed.

(** ** entropic heat *)
Lemma entropy_neg : forall s, 0 <= s <= 1 -> nmc_entropy s <= 0.
Proof.
  assert (N : forall u w b0 b1 b2 b3 b4 b5 b6, 0 <= u -> 0 <= w -> 0 <= b0 -> 0 <= b1 -> 0 <= b2 -> 0 <= b3 -> 0 <= b4 -> 0 <= b5 -> 0 <= b6 ->
    0 <= b0 * w ^ 6 + b1 * (u * w ^ 5) + b2 * (u ^ 2 * w ^ 4) + b3 * (u ^ 3 * w ^ 3) + b4 * (u ^ 4 * w ^ 2) + b5 * (u ^ 5 * w) + b6 * u ^ 6).
  { intros u w b0 b1 b2 b3 b4 b5 b6 Hu Hw. intros.
    repeat apply Rplus_le_le_0_compat; repeat (apply Rmult_le_pos || apply pow_le); lra. }
  intros s H. destruct (Rle_lt_dec s (1 / 2)) as [L|L].
  - set (u := 2 * s). set (w := 1 - 2 * s).
    pose proof (N u w (2673 / 250) (20449 / 500) (55691 / 400) (37799 / 200) (24519 / 200) (162933 / 4000) (93953 / 16000)) as K. unfold u, w in K. unfold nmc_entropy.
    match type of K with _ -> _ -> _ -> _ -> _ -> _ -> _ -> _ -> _ -> 0 <= ?x => assert (E : nmc_entropy s = - x) by (unfold nmc_entropy; field) end.
    unfold nmc_entropy in E. rewrite E. apply Ropp_le_cancel. rewrite Ropp_involutive, Ropp_0. apply K; lra.
  - set (u := 2 * s - 1). set (w := 2 - 2 * s).
    pose proof (N u w (93953 / 16000) (59463 / 2000) (54069 / 800) (20393 / 200) (39269 / 400) (4986 / 125) (3857 / 500)) as K. unfold u, w in K. unfold nmc_entropy.
    match type of K with _ -> _ -> _ -> _ -> _ -> _ -> _ -> _ -> _ -> 0 <= ?x => assert (E : nmc_entropy s = - x) by (unfold nmc_entropy; field) end.
    unfold nmc_entropy in E. rewrite E. apply Ropp_le_cancel. rewrite Ropp_involutive, Ropp_0. apply K; lra.
Qed.

(** ** whole numbers of cells *)
Lemma trunc_bounds : forall x, 0 <= x -> INR (trunc x) <= x < INR (trunc x) + 1.
Proof.
  intros x H. destruct (base_Int_part x) as (A & B).
  assert (Z : (0 <= Int_part x)%Z). { assert (C : (-1 < Int_part x)%Z) by (apply lt_IZR; lra). lia. }
  unfold trunc. rewrite INR_IZR_INZ, Z2Nat.id by exact Z. lra.
Qed.
Lemma trunc_between : forall x n, INR n <= x < INR n + 1 -> trunc x = n.
Proof.
  intros x n (A & B). pose proof (pos_INR n). destruct (trunc_bounds x ltac:(lra)) as (C & D).
  assert (E : (trunc x < S n)%nat) by (apply INR_lt; rewrite S_INR; lra). assert (F : (n < S (trunc x))%nat) by (apply INR_lt; rewrite S_INR; lra). lia.
Qed.
Lemma trunc_INR : forall n, trunc (INR n) = n.
Proof. intro n. apply trunc_between. lra. Qed.

(** ** cooling *)
Lemma log_mean : forall a k, a <> 0 -> 0 < k -> (a - a * exp (- k)) / ln (a / (a * exp (- k))) = a * ((1 - exp (- k)) / k) /\ 0 < (1 - exp (- k)) / k < 1.
Proof.
  intros a k Ha Hk. pose proof (exp_pos (- k)) as P.
  assert (E : a / (a * exp (- k)) = exp k) by (rewrite exp_Ropp; field; split; [pose proof (exp_pos k); lra|exact Ha]).
  rewrite E, ln_exp. split; [field; lra|].
  assert (U : 1 - k < exp (- k)) by (pose proof (exp_ineq1 (- k) ltac:(lra)); lra).
  assert (V : exp (- k) < 1) by (rewrite <- exp_0; apply exp_increasing; lra).
  assert (W : (1 - exp (- k)) / k * k = 1 - exp (- k)) by (field; lra). nra.
Qed.
Lemma nusselt_fixed : forall c Re, nusselt_constants c Re = (51 / 100, 5 / 10).
Proof. intros c Re. unfold nusselt_constants, all_positive. destruct (Req_EM_T Re 0); ltb; try reflexivity; lra. Qed.
Lemma gap_ok : forall c, sound_cooling c -> gap_speed c (coolant_speed c) /\ 0 < coolant_speed c.
Proof.
  intros c H. destruct H. unfold gap_speed, coolant_speed. cbv zeta.
  assert (Q : c_diameter c < sqrt (c_ST c ^ 2 + c_SL c ^ 2)).
  { apply Rlt_trans with (c_ST c); [assumption|]. rewrite <- (sqrt_pow2 (c_ST c)) at 1 by lra. apply sqrt_lt_1; nra. }
  unfold Rmin. destruct (Rle_dec _ _); ltb; try lra.
  - split; [field; lra|]. apply Rmult_lt_0_compat; [assumption|]. apply Rdiv_lt_0_compat; lra.
  - split; [field; lra|]. apply Rmult_lt_0_compat; [assumption|]. apply Rdiv_lt_0_compat; lra.
Qed.
