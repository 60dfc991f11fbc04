(** * Noise: proofs *)
From Coq Require Import Reals List Bool Arith ZArith Lia Lra Permutation.
From Verif Require Import M_Opt P_Opt M_Rot M_Noise S_Noise.
Import ListNotations.
Local Open Scope R_scope.
Local Open Scope list_scope.

Ltac ltb := repeat match goal with
  | |- context [Rltb ?a ?b] => let E := fresh in destruct (Rltb a b) eqn:E; [apply Rltb_true in E | apply Rltb_false in E]
  | H : context [Rltb ?a ?b] |- _ => let E := fresh in destruct (Rltb a b) eqn:E; [apply Rltb_true in E | apply Rltb_false in E]
  end.

Lemma ln10_pos : 0 < ln 10. Proof. rewrite <- ln_1. apply ln_increasing; lra. Qed.
Lemma p10_pos : forall x, 0 < p10 x. Proof. intro. apply exp_pos. Qed.
Lemma p10_log10 : forall x, 0 < x -> p10 (log10 x) = x.
Proof. intros x H. unfold p10, log10, Rpower. replace (ln x / ln 10 * ln 10) with (ln x) by (field; generalize ln10_pos; lra). now apply exp_ln. Qed.
Lemma log10_p10 : forall x, log10 (p10 x) = x.
Proof. intro. unfold p10, log10, Rpower. rewrite ln_exp. field. generalize ln10_pos; lra. Qed.
Lemma p10_plus : forall x y, p10 (x + y) = p10 x * p10 y. Proof. intros. apply Rpower_plus. Qed.
Lemma p10_le : forall x y, x <= y -> p10 x <= p10 y. Proof. intros. apply Rle_Rpower; lra. Qed.
Lemma p10_lt : forall x y, x < y -> p10 x < p10 y. Proof. intros. apply Rpower_lt; lra. Qed.
Lemma p10_0 : p10 0 = 1. Proof. unfold p10. apply Rpower_O. lra. Qed.
Lemma p10_1 : p10 1 = 10. Proof. apply Rpower_1. lra. Qed.
Lemma log10_mult : forall x y, 0 < x -> 0 < y -> log10 (x * y) = log10 x + log10 y.
Proof. intros. unfold log10. rewrite ln_mult by assumption. field. generalize ln10_pos; lra. Qed.
Lemma log10_inv : forall x, 0 < x -> log10 (/ x) = - log10 x.
Proof. intros. unfold log10. rewrite ln_Rinv by assumption. field. generalize ln10_pos; lra. Qed.
Lemma log10_pow : forall x n, 0 < x -> log10 (x ^ n) = INR n * log10 x.
Proof. intros. unfold log10. rewrite ln_pow by assumption. field. generalize ln10_pos; lra. Qed.
Lemma log10_le : forall x y, 0 < x -> x <= y -> log10 x <= log10 y.
Proof. intros x y H [L | ->]; [|lra]. unfold log10. left. apply Rmult_lt_compat_r; [apply Rinv_0_lt_compat, ln10_pos|]. now apply ln_increasing. Qed.
Lemma log10_lt : forall x y, 0 < x -> x < y -> log10 x < log10 y.
Proof. intros x y H L. unfold log10. apply Rmult_lt_compat_r; [apply Rinv_0_lt_compat, ln10_pos|]. now apply ln_increasing. Qed.
Lemma log10_1 : log10 1 = 0. Proof. unfold log10. rewrite ln_1. lra. Qed.
Lemma log10_10 : log10 10 = 1. Proof. unfold log10. field. generalize ln10_pos; lra. Qed.
Lemma log10_uniq : forall x y, 0 < x -> p10 y = x -> log10 x = y.
Proof. intros x y _ <-. apply log10_p10. Qed.

(** bounds on log10 2 *)
Lemma log2_lo : 31 / 103 < log10 2.
Proof.
  assert (log10 (10 ^ 31) < log10 (2 ^ 103)).
  { apply log10_lt; [apply pow_lt; lra|]. rewrite !pow_IZR. apply IZR_lt. vm_compute. reflexivity. }
  rewrite !log10_pow, log10_10, !INR_IZR_INZ in H by lra. simpl Z.of_nat in H. lra.
Qed.
Lemma log2_hi : log10 2 < 28 / 93.
Proof.
  assert (log10 (2 ^ 93) < log10 (10 ^ 28)).
  { apply log10_lt; [apply pow_lt; lra|]. rewrite !pow_IZR. apply IZR_lt. vm_compute. reflexivity. }
  rewrite !log10_pow, log10_10, !INR_IZR_INZ in H by lra. simpl Z.of_nat in H. lra.
Qed.

(** ** sums and maxima *)
Lemma sum_app : forall a b, sum (a ++ b) = sum a + sum b.
Proof. unfold sum. induction a as [|x a IH]; intro b; simpl; [lra|]. rewrite IH. lra. Qed.
Lemma sum_perm : forall a b, Permutation a b -> sum a = sum b.
Proof. unfold sum. induction 1; simpl; lra. Qed.
Lemma sum_scale : forall k l, sum (map (fun x => k * x) l) = k * sum l.
Proof. unfold sum. induction l as [|x l IH]; simpl; [lra|]. rewrite IH. lra. Qed.
Lemma sum_pos : forall l, l <> [] -> (forall x, In x l -> 0 < x) -> 0 < sum l.
Proof.
  assert (forall l, (forall x, In x l -> 0 <= x) -> 0 <= sum l).
  { unfold sum. induction l as [|x l IH]; intro H; simpl; [lra|]. specialize (IH (fun y h => H y (or_intror h))). specialize (H x (or_introl eq_refl)). lra. }
  intros [|x l] N P; [easy|]. simpl. change (fold_right Rplus 0 l) with (sum l).
  generalize (H l (fun y h => Rlt_le _ _ (P y (or_intror h)))), (P x (or_introl eq_refl)). unfold sum. lra.
Qed.
Lemma sum_nonneg : forall l, (forall x, In x l -> 0 <= x) -> 0 <= sum l.
Proof.
  unfold sum. induction l as [|x l IH]; intro H; simpl; [lra|]. specialize (IH (fun y h => H y (or_intror h))).
  specialize (H x (or_introl eq_refl)). lra.
Qed.
Lemma sum_ge : forall l x, (forall x, In x l -> 0 <= x) -> In x l -> x <= sum l.
Proof.
  induction l as [|y l IH]; intros x P I; [easy|]. simpl. change (fold_right Rplus 0 l) with (sum l).
  destruct I as [-> | I].
  - generalize (sum_nonneg l (fun z h => P z (or_intror h))). unfold sum. lra.
  - generalize (IH x (fun z h => P z (or_intror h)) I), (P y (or_introl eq_refl)). unfold sum. lra.
Qed.
Lemma sum_le : forall l m, (forall x, In x l -> x <= m) -> sum l <= INR (length l) * m.
Proof.
  induction l as [|y l IH]; intros m P; [simpl; lra|].
  change (length (y :: l)) with (S (length l)). rewrite S_INR. simpl sum.
  specialize (IH m (fun z h => P z (or_intror h))). specialize (P y (or_introl eq_refl)). lra.
Qed.

Lemma fold_max : forall l x, In (fold_left Rmax l x) (x :: l) /\ (forall y, In y (x :: l) -> y <= fold_left Rmax l x).
Proof.
  induction l as [|z l IH]; intro x.
  - split; [now left|]. intros y [-> | []]. simpl. lra.
  - simpl fold_left. destruct (IH (Rmax x z)) as [I B]. split.
    + destruct I as [E | I]; [|right; now right]. rewrite <- E. unfold Rmax. destruct (Rle_dec x z); simpl; auto.
    + assert (Rmax x z <= fold_left Rmax l (Rmax x z)) by (apply B; now left).
      intros y [<- | [<- | I']]; [eapply Rle_trans; [apply Rmax_l | exact H] | eapply Rle_trans; [apply Rmax_r | exact H] | apply B; now right].
Qed.
Lemma maxl_in : forall l, l <> [] -> In (maxl l) l.
Proof. intros [|x l] N; [easy|]. apply fold_max. Qed.
Lemma maxl_ge : forall l x, In x l -> x <= maxl l.
Proof. intros [|y l] x I; [easy|]. now apply fold_max. Qed.
Lemma maxl_is : forall l m, In m l -> (forall x, In x l -> x <= m) -> maxl l = m.
Proof.
  intros l m I B. apply Rle_antisym; [|now apply maxl_ge]. apply B, maxl_in. intro E. now rewrite E in I.
Qed.

(** ** decibels *)
Lemma power_p10 : forall s, power s = p10 (s / 10). Proof. reflexivity. Qed.
Lemma powers_sum : forall l, powers l = sum (map (fun s => p10 (s / 10)) l).
Proof. induction l as [|x l IH]; [reflexivity|]. simpl. now rewrite IH. Qed.
Lemma powers_pos : forall l, l <> [] -> 0 < powers l.
Proof.
  intros l N. rewrite powers_sum. apply sum_pos; [now destruct l|].
  intros x I. apply in_map_iff in I. destruct I as (y & <- & _). apply p10_pos.
Qed.
Lemma powers_ge : forall l s, In s l -> power s <= powers l.
Proof.
  intros l s I. rewrite powers_sum. apply sum_ge.
  - intros x J. apply in_map_iff in J. destruct J as (y & <- & _). left. apply p10_pos.
  - rewrite power_p10. exact (in_map (fun s => p10 (s / 10)) l s I).
Qed.
Lemma spl_is : forall l, spl_sum l = 10 * log10 (powers l).
Proof. intro. unfold spl_sum. now rewrite powers_sum. Qed.
Lemma power_level : forall x, 0 < x -> power (10 * log10 x) = x.
Proof. intros. rewrite power_p10. replace (10 * log10 x / 10) with (log10 x) by field. now apply p10_log10. Qed.
Lemma level_power : forall s, 10 * log10 (power s) = s.
Proof. intro. rewrite power_p10, log10_p10. field. Qed.
Lemma spl_together : forall l, l <> [] -> power (spl_sum l) = powers l.
Proof. intros. rewrite spl_is. apply power_level. now apply powers_pos. Qed.
Lemma level_le : forall x y, 0 < x -> x <= y -> 10 * log10 x <= 10 * log10 y.
Proof. intros. apply Rmult_le_compat_l; [lra|]. now apply log10_le. Qed.
Lemma level_lt : forall x y, 0 < x -> x < y -> 10 * log10 x < 10 * log10 y.
Proof. intros. apply Rmult_lt_compat_l; [lra|]. now apply log10_lt. Qed.
Lemma power_pos : forall s, 0 < power s. Proof. intro. apply p10_pos. Qed.
Lemma powers_app : forall a b, powers (a ++ b) = powers a + powers b.
Proof. intros. rewrite !powers_sum, map_app. apply sum_app. Qed.
Lemma powers_concat : forall gs, (forall g, In g gs -> g <> []) -> powers (map spl_sum gs) = powers (concat gs).
Proof.
  induction gs as [|g gs IH]; intro N; [reflexivity|]. simpl concat. rewrite powers_app. simpl map.
  change (powers (spl_sum g :: map spl_sum gs)) with (power (spl_sum g) + powers (map spl_sum gs)).
  rewrite spl_together by (apply N; now left). rewrite IH; [reflexivity|]. intros h I. apply N. now right.
Qed.
Lemma power_plus : forall s c, power (s + c) = power s * power c.
Proof. intros. rewrite !power_p10, <- p10_plus. f_equal. field. Qed.
Lemma powers_shift : forall c l, powers (map (fun s => s + c) l) = power c * powers l.
Proof. induction l as [|x l IH]; [simpl; lra|]. simpl. rewrite IH, power_plus. lra. Qed.
Lemma power_le : forall s t, s <= t -> power s <= power t.
Proof. intros. rewrite !power_p10. apply p10_le. lra. Qed.
Lemma powers_le : forall a b, Forall2 Rle a b -> powers a <= powers b.
Proof. induction 1; simpl; [lra|]. generalize (power_le _ _ H). lra. Qed.

Lemma in_band_iff : forall b f, in_band (fst b) (snd b) f = true <-> inside b f.
Proof. intros b f. unfold in_band, inside. ltb; simpl; split; intro; try discriminate; try lra; auto. Qed.
Lemma powers_filter : forall (p : R * R -> bool) h,
  powers (map snd h) = powers (map snd (filter p h)) + powers (map snd (filter (fun x => negb (p x)) h)).
Proof.
  intros p. induction h as [|x h IH]; simpl; [lra|]. destruct (p x); simpl; lra.
Qed.
Lemma filter_none : forall A (p : A -> bool) l, (forall x, In x l -> p x = false) -> filter p l = [].
Proof. induction l as [|x l IH]; intro H; simpl; [reflexivity|]. rewrite (H x (or_introl eq_refl)). apply IH. intros; apply H; now right. Qed.
(** the powers of the bands, each harmonic counted once for every band it is inside *)
Definition band_powers (bands h : list (R * R)) : R :=
  sum (map (fun b => powers (map snd (filter (fun x => in_band (fst b) (snd b) (fst x)) h))) bands).
Lemma band_powers_cons : forall bands x h,
  band_powers bands (x :: h) =
    sum (map (fun b => if in_band (fst b) (snd b) (fst x) then power (snd x) else 0) bands) + band_powers bands h.
Proof.
  intros. unfold band_powers, sum. induction bands as [|b bands IH]; simpl in *; [lra|]. rewrite IH. clear IH.
  destruct (in_band (fst b) (snd b) (fst x)); simpl; lra.
Qed.
Lemma one_band_sum : forall bands f v, one_band bands f -> sum (map (fun b => if in_band (fst b) (snd b) f then v else 0) bands) = v.
Proof.
  intros bands f v (pre & b & post & -> & I & N).
  assert (Z : forall l, (forall c, In c l -> ~ inside c f) -> sum (map (fun b => if in_band (fst b) (snd b) f then v else 0) l) = 0).
  { unfold sum. induction l as [|c l IH]; intro H; simpl; [reflexivity|].
    destruct (in_band (fst c) (snd c) f) eqn:E; [apply in_band_iff in E; now elim (H c (or_introl eq_refl))|].
    rewrite IH; [lra|]. intros; apply H; now right. }
  rewrite map_app, sum_app. simpl map. apply in_band_iff in I. rewrite I.
  change (sum (v :: map (fun b0 => if in_band (fst b0) (snd b0) f then v else 0) post)) with
    (v + sum (map (fun b0 => if in_band (fst b0) (snd b0) f then v else 0) post)).
  rewrite !Z; [lra | |]; intros c J; apply N; auto.
Qed.
Lemma band_powers_all : forall bands h, (forall x, In x h -> one_band bands (fst x)) -> band_powers bands h = powers (map snd h).
Proof.
  induction h as [|x h IH]; intro H.
  - clear H. unfold band_powers, sum. induction bands as [|b bands IH]; simpl in *; [reflexivity|]. rewrite IH. lra.
  - rewrite band_powers_cons, IH by (intros; apply H; now right). rewrite one_band_sum by (apply H; now left). reflexivity.
Qed.

(** ** tones *)
Lemma between_iff : forall a b i, between a b i = true <-> (a <= i < b)%nat.
Proof. intros. unfold between. rewrite andb_true_iff, Nat.leb_le, Nat.ltb_lt. reflexivity. Qed.
Lemma between_no : forall a b i, between a b i = false <-> ~ (a <= i < b)%nat.
Proof. intros. rewrite <- between_iff. destruct (between a b i); split; intro; try discriminate; auto. now elim H. Qed.
Ltac btw := repeat match goal with
  | |- context [between ?a ?b ?i] => let E := fresh in destruct (between a b i) eqn:E; [apply between_iff in E | apply between_no in E]
  | |- context [Nat.eqb ?a ?b] => let E := fresh in destruct (Nat.eqb_spec a b)
  end.
Lemma correction_low_range : forall f, 0 <= correction_low f <= 10 / 3.
Proof. intro. unfold correction_low. ltb; simpl; lra. Qed.
Lemma correction_mid_range : forall f, 0 <= correction_mid f <= 20 / 3.
Proof. intro. unfold correction_mid. ltb; simpl; lra. Qed.
Lemma correction_range : forall S i, 0 <= tone_correction S i <= 20 / 3.
Proof.
  intros. unfold tone_correction. generalize (correction_low_range (step8 S i)), (correction_mid_range (step8 S i)).
  btw; lra.
Qed.
Lemma correction_low_0 : correction_low 0 = 0. Proof. unfold correction_low. ltb; simpl; lra. Qed.
Lemma correction_mid_0 : correction_mid 0 = 0. Proof. unfold correction_mid. ltb; simpl; lra. Qed.
Lemma all_zero_max : forall S, (forall i, (i < 23)%nat -> tone_correction S i = 0) -> tone_correction_max S = 0.
Proof.
  intros S H. unfold tone_correction_max. apply maxl_is.
  - apply in_map_iff. exists 0%nat. split; [apply H; lia | apply in_seq; lia].
  - intros x I. apply in_map_iff in I. destruct I as (i & <- & I). apply in_seq in I. rewrite H by lia. lra.
Qed.
Lemma tone_zero : forall S i, step8 S i = 0 -> tone_correction S i = 0.
Proof. intros S i H. unfold tone_correction. rewrite H. btw; auto using correction_low_0, correction_mid_0. Qed.

Lemma straight_step : forall a d i, (1 <= i)%nat -> straight a d i - straight a d (i - 1) = d.
Proof. intros. unfold straight. rewrite minus_INR by lia. simpl. lra. Qed.
Lemma straight_step4 : forall a d i, (1 <= i < 23)%nat -> step4 (straight a d) i = straight a d i.
Proof.
  intros a d i H. unfold step4. destruct (between 1 23 i) eqn:Bt; [|apply between_no in Bt; lia].
  destruct (step3 (straight a d) i) eqn:E3; [|reflexivity].
  destruct (Nat.eqb_spec i 22) as [-> | N].
  - change (straight a d 21 + slope (straight a d) 21 = straight a d 22). unfold slope. btw; try lia.
    unfold straight. rewrite !INR_IZR_INZ. simpl Z.of_nat. lra.
  - unfold straight. rewrite minus_INR, (S_INR i) by lia. change (INR 1) with 1. lra.
Qed.
Lemma straight_step5 : forall a d i, (2 <= i < 23)%nat -> step5 (straight a d) i = d.
Proof.
  intros a d i H. unfold step5. btw; try lia.
  - rewrite !straight_step4 by lia. apply straight_step. lia.
  - rewrite !straight_step4 by lia. apply straight_step. lia.
Qed.
Lemma straight_running : forall a d k, (k <= 19)%nat -> running (straight a d) k = straight a d (k + 2).
Proof.
  intros a d. induction k as [|k IH]; intro H; [reflexivity|].
  change (running (straight a d) (S k)) with (running (straight a d) k + step6 (straight a d) (2 + k)). rewrite IH by lia.
  unfold step6. btw; try lia. rewrite !straight_step5 by lia.
  unfold straight. replace (S k + 2)%nat with (S (k + 2)) by lia. rewrite S_INR. lra.
Qed.
Lemma straight_none : forall a d i, (i < 23)%nat -> tone_correction (straight a d) i = 0.
Proof.
  intros a d i H. apply tone_zero. unfold step8.
  destruct (between 2 16 i || between 17 22 i) eqn:E.
  - assert (R : (2 <= i < 22)%nat) by (apply orb_true_iff in E; rewrite !between_iff in E; lia).
    assert (Z : straight a d i - step7 (straight a d) i = 0).
    { unfold step7. btw; try lia. rewrite straight_running by lia. replace (i - 2 + 2)%nat with i by lia. lra. }
    rewrite Z. destruct (Rltb 0 (3 / 2)) eqn:L; [|apply Rltb_false in L; lra]. btw; try reflexivity; lia.
  - apply orb_false_iff in E. destruct E as [-> ->]. btw; [lia|reflexivity].
Qed.

Section SingleTone.
Variables (a h : R) (k : nat).
Hypotheses (Hh : 5 < h) (Hk : (3 <= k < 22)%nat).
Let T := single_tone a h k.
Lemma tone_slope : forall i, (3 <= i < 23)%nat -> slope T i = if Nat.eqb i k then h else if Nat.eqb i (S k) then - h else 0.
Proof. intros i H. unfold slope, T, single_tone. btw; try lia; lra. Qed.
Lemma tone_slope_out : forall i, ~ (3 <= i < 23)%nat -> slope T i = 0.
Proof. intros i H. unfold slope. btw; try lia; lra. Qed.
Lemma tone_step3 : forall i, i <> k -> step3 T i = false.
Proof.
  intros i N. unfold step3.
  assert (delta_slope T i && Rltb 0 (slope T i) && Rltb (slope T (i - 1)) (slope T i) = false) as ->.
  { destruct (Nat.le_gt_cases 3 i) as [A | A]; [destruct (Nat.lt_ge_cases i 23) as [B | B]|].
    - rewrite (tone_slope i) by lia. destruct (Nat.eqb_spec i k); [lia|].
      destruct (Nat.eqb_spec i (S k)); ltb; rewrite ?andb_false_r; simpl; try reflexivity; lra.
    - rewrite (tone_slope_out i) by lia. ltb; rewrite ?andb_false_r; simpl; try reflexivity; lra.
    - rewrite (tone_slope_out i) by lia. ltb; rewrite ?andb_false_r; simpl; try reflexivity; lra. }
  destruct (Nat.le_gt_cases 3 i) as [A | A]; [destruct (Nat.lt_ge_cases i 23) as [B | B]|].
  - rewrite (tone_slope i) by lia. destruct (Nat.eqb_spec i k); [lia|].
    destruct (Nat.eqb_spec i (S k)); ltb; rewrite ?andb_false_r; simpl; try reflexivity; lra.
  - rewrite (tone_slope_out i) by lia. ltb; rewrite ?andb_false_r; simpl; try reflexivity; lra.
  - rewrite (tone_slope_out i) by lia. ltb; rewrite ?andb_false_r; simpl; try reflexivity; lra.
Qed.
Lemma tone_step3_k : step3 T k = true.
Proof.
  unfold step3. apply orb_true_iff. left.
  assert (P : slope T (k - 1) = 0).
  { destruct (Nat.eq_dec k 3) as [E | N]; [apply tone_slope_out; lia|]. rewrite tone_slope by lia. btw; try lia. lra. }
  rewrite (tone_slope k) by lia. rewrite Nat.eqb_refl, P. unfold delta_slope. rewrite (tone_slope k) by lia.
  rewrite Nat.eqb_refl, P. btw; [|lia]. rewrite Rabs_right by lra. ltb; simpl; try reflexivity; lra.
Qed.
Lemma tone_step4 : forall i, (1 <= i < 23)%nat -> step4 T i = a.
Proof.
  intros i H. unfold step4. destruct (Nat.eq_dec i k) as [-> | N].
  - rewrite tone_step3_k. unfold T, single_tone. btw; try lia. lra.
  - rewrite tone_step3 by assumption. unfold T, single_tone. btw; try lia. lra.
Qed.
Lemma tone_step5 : forall i, step5 T i = 0.
Proof. intro i. unfold step5. btw; try lia; rewrite ?tone_step4 by lia; lra. Qed.
Lemma tone_running : forall j, running T j = a.
Proof.
  induction j as [|j IH].
  - unfold T, single_tone, running. btw; try lia. reflexivity.
  - change (running T j + step6 T (2 + j) = a). rewrite IH. unfold step6. rewrite !tone_step5. btw; lra.
Qed.
Definition listened (i : nat) : bool := (between 2 9 i || between 10 16 i || between 17 20 i || Nat.eqb i 21)%bool.
Lemma tone_others : forall i, (i < 23)%nat -> i <> k -> tone_correction T i = 0.
Proof.
  intros i H N. apply tone_zero. unfold step8.
  destruct (between 2 16 i || between 17 22 i) eqn:E.
  - assert (R : (2 <= i < 22)%nat) by (apply orb_true_iff in E; rewrite !between_iff in E; lia).
    assert (Z : T i - step7 T i = 0).
    { unfold step7. rewrite tone_running. unfold T, single_tone. btw; try lia; lra. }
    rewrite Z. destruct (Rltb 0 (3 / 2)) eqn:L; [|apply Rltb_false in L; lra]. btw; try reflexivity; lia.
  - apply orb_false_iff in E. destruct E as [-> ->]. btw; [lia|reflexivity].
Qed.
Hypothesis Ha : 0 < a.
Lemma tone_step8 : step8 T k = if Nat.eqb k 16 then 0 else h.
Proof.
  unfold step8.
  assert (D : T k - step7 T k = h).
  { unfold step7. rewrite tone_running. unfold T, single_tone. btw; try lia; lra. }
  rewrite D. assert (P : forall i, 0 < T i) by (intro i; unfold T, single_tone; btw; lra).
  generalize (P k) (P (S k)) (P (k - 1)%nat). intros P1 P2 P3.
  btw; try lia; ltb; simpl; try lra; reflexivity.
Qed.
Lemma tone_at : tone_correction T k = if listened k then (if between 10 20 k then correction_mid h else correction_low h) else 0.
Proof.
  unfold tone_correction, listened. rewrite tone_step8.
  btw; simpl; try lia; try reflexivity; apply correction_mid_0.
Qed.
Lemma tone_max : tone_correction_max T = tone_correction T k.
Proof.
  unfold tone_correction_max. apply maxl_is.
  - apply in_map_iff. exists k. split; [reflexivity|]. apply in_seq. lia.
  - intros x I. apply in_map_iff in I. destruct I as (i & <- & I). apply in_seq in I.
    destruct (Nat.eq_dec i k) as [-> | N]; [lra|]. rewrite tone_others by (auto; lia). apply correction_range.
Qed.
End SingleTone.

(** ** noisiness *)
Lemma noy_rows : forall r, In r noy -> y4 r <= 52 /\ 0 <= y7 r /\ 0 <= y8 r /\ 0 <= y9 r /\ 0 <= y10 r.
Proof. intros r I. unfold noy, m6 in I. repeat (destruct I as [<- | I]; [simpl; lra|]). destruct I. Qed.
Lemma p10_ge1 : forall x, 0 <= x -> 1 <= p10 x.
Proof. intros. rewrite <- p10_0. now apply p10_le. Qed.
Lemma noys_range : forall r s, In r noy -> noys r s = 0 \/ 1 / 10 <= noys r s.
Proof.
  intros r s I. destruct (noy_rows r I) as (A & B & C & D & E). unfold noys, noy_1_2.
  assert (Q : forall u v, 0 <= u -> 0 <= v -> 1 <= p10 (u * v)) by (intros; apply p10_ge1; now apply Rmult_le_pos).
  ltb; simpl; try (now left); right;
  match goal with |- context [p10 (?u * ?v)] => assert (1 <= p10 (u * v)) by (apply Q; [assumption | lra]) end; lra.
Qed.
Lemma noisiness_range : forall S x, In x (noisiness S) -> x = 0 \/ 1 / 10 <= x.
Proof.
  intros S x I. unfold noisiness in I. apply in_app_or in I. destruct I as [I | [<- | []]]; [|now left].
  apply in_map_iff in I. destruct I as ([r s] & <- & I). apply noys_range.
  assert (In (r, s) (combine noy S)) by (rewrite <- (firstn_skipn 23 (combine noy S)); apply in_or_app; now left).
  eapply in_combine_l; eassumption.
Qed.
Lemma noisiness_nonempty : forall S, noisiness S <> [].
Proof. intros S E. unfold noisiness in E. now apply app_eq_nil in E. Qed.
Lemma noisiness_length : forall S, (length (noisiness S) <= 24)%nat.
Proof.
  intro S. unfold noisiness. rewrite app_length, map_length, firstn_length. simpl length. lia.
Qed.
(** the effective noisiness *)
Definition effective (S : list R) : R := 85 / 100 * maxl (noisiness S) + 15 / 100 * sum (noisiness S).
Lemma effective_range : forall S, effective S = 0 /\ maxl (noisiness S) = 0 \/
  1 / 10 <= maxl (noisiness S) /\ maxl (noisiness S) <= effective S <= 445 / 100 * maxl (noisiness S).
Proof.
  intro S. unfold effective. set (v := noisiness S). set (m := maxl v).
  assert (M : In m v) by (apply maxl_in, noisiness_nonempty).
  assert (P : forall x, In x v -> 0 <= x) by (intros x I; destruct (noisiness_range S x I); lra).
  assert (L : sum v <= 24 * m).
  { eapply Rle_trans; [apply (sum_le v m); intros; now apply maxl_ge|]. apply Rmult_le_compat_r; [now apply P|].
    change 24 with (IZR (Z.of_nat 24)). rewrite <- INR_IZR_INZ. apply le_INR. apply noisiness_length. }
  assert (G : m <= sum v) by (now apply sum_ge).
  destruct (noisiness_range S m M) as [Z | Z].
  - left. generalize (sum_nonneg v P). intro. split; [|exact Z]. rewrite Z in *. lra.
  - right. lra.
Qed.

(** ** durations *)
Lemma first_above_split : forall m b x r, (forall y, In y b -> y <= m - 10) -> m - 10 < x -> first_above m (b ++ x :: r) = length b.
Proof.
  induction b as [|y b IH]; intros x r B X; simpl.
  - ltb; [reflexivity | lra].
  - specialize (IH x r (fun z i => B z (or_intror i)) X). specialize (B y (or_introl eq_refl)). ltb; [lra|]. now rewrite IH.
Qed.
Lemma count_loud_split : forall m b r, (forall y, In y b -> m - 10 <= y) -> (forall y, In y r -> y < m - 10) -> count_loud m (b ++ r) = length b.
Proof.
  induction b as [|y b IH]; intros r B X; simpl.
  - destruct r as [|z r]; simpl; [reflexivity|]. specialize (X z (or_introl eq_refl)). ltb; [reflexivity | lra].
  - specialize (IH r (fun z i => B z (or_intror i)) X). specialize (B y (or_introl eq_refl)). ltb; [lra|]. now rewrite IH.
Qed.
Lemma map_nth_window : forall n k (l : list R) d, (k + n <= length l)%nat -> map (fun i => nth i l d) (seq k n) = firstn n (skipn k l).
Proof.
  induction n as [|n IH]; intros k l d H; [reflexivity|]. simpl seq. simpl map. rewrite IH by lia. clear IH.
  revert l H. induction k as [|k IH]; intros l H; destruct l as [|x l]; simpl in *; try lia; [reflexivity|].
  apply IH. lia.
Qed.
Lemma last_app_ne : forall (a b : list R) d, b <> [] -> last (a ++ b) d = last b d.
Proof.
  induction a as [|x a IH]; intros b d N; [reflexivity|]. simpl. rewrite IH by assumption.
  destruct (a ++ b) eqn:E; [|reflexivity]. apply app_eq_nil in E. now elim N.
Qed.
Lemma last_in : forall (l : list R) d, l <> [] -> In (last l d) l.
Proof. induction l as [|x l IH]; intros d N; [easy|]. destruct l as [|y l]; [now left|]. right. apply IH. discriminate. Qed.
Lemma maxl_event : forall m b l a, event m b l a -> maxl (b ++ l ++ a) = m.
Proof.
  intros m b l a (B & L & M & A). apply maxl_is; [apply in_or_app; right; apply in_or_app; now left|].
  intros x I. apply in_app_or in I. destruct I as [I | I]; [generalize (B x I); lra|].
  apply in_app_or in I. destruct I as [I | I]; [generalize (L x I); lra | generalize (A x I); lra].
Qed.
(** where the counting stops *)
Lemma stop_event : forall m b l a, event m b l a -> a <> [] ->
  last (b ++ l ++ a) 0 < m - 10 /\ first_above m (b ++ l ++ a) = length b /\
  (S (length b) + count_loud m (skipn (S (length b)) (b ++ l ++ a)) = length b + length l)%nat.
Proof.
  intros m b l a (B & L & M & A) N.
  destruct l as [|x l]; [destruct M|].
  split; [|split].
  - rewrite last_app_ne by discriminate. rewrite last_app_ne by assumption. apply A. now apply last_in.
  - simpl app. apply first_above_split; [assumption|]. apply L. now left.
  - replace (skipn (S (length b)) (b ++ (x :: l) ++ a)) with (l ++ a).
    + rewrite count_loud_split; [simpl; lia | | assumption]. intros y I. left. apply L. now right.
    + replace (b ++ (x :: l) ++ a) with ((b ++ [x]) ++ l ++ a) by (rewrite <- app_assoc; reflexivity).
      rewrite skipn_app, skipn_all2 by (rewrite app_length; simpl; lia).
      rewrite app_length. simpl length. replace (S (length b) - (length b + 1))%nat with 0%nat by lia. reflexivity.
Qed.
Lemma counted_event : forall m b x l a, event m (b ++ [x]) l a -> a <> [] -> counted ((b ++ [x]) ++ l ++ a) = x :: l.
Proof.
  intros m b x l a E N. destruct (stop_event _ _ _ _ E N) as (La & Fi & St). generalize (maxl_event _ _ _ _ E). intro Mx.
  unfold counted. cbv zeta. rewrite Mx, Fi. destruct (Rltb (last ((b ++ [x]) ++ l ++ a) 0) (m - 10)) eqn:Q; [|apply Rltb_false in Q; lra].
  simpl negb. rewrite app_length in *. simpl length in *. rewrite Nat.add_1_r in *. cbv iota.
  replace (S (S (length b)) + count_loud m (skipn (S (S (length b))) ((b ++ [x]) ++ l ++ a)))%nat with (S (length b) + length l)%nat by (symmetry; exact St).
  replace (S (length b) + length l - length b)%nat with (S (length l)) by lia.
  rewrite map_nth_window by (rewrite !app_length; simpl; lia).
  rewrite <- app_assoc. rewrite skipn_app, skipn_all, Nat.sub_diag. simpl. f_equal.
  rewrite firstn_app, firstn_all, Nat.sub_diag. simpl. apply app_nil_r.
Qed.
Lemma counted_wraps : forall m l a, event m [] l a -> a <> [] -> counted (l ++ a) = last a 0 :: l.
Proof.
  intros m l a E N. destruct (stop_event _ _ _ _ E N) as (La & Fi & St). generalize (maxl_event _ _ _ _ E). intro Mx.
  simpl app in *. simpl length in *. unfold counted. cbv zeta. rewrite Mx, Fi. destruct (Rltb (last (l ++ a) 0) (m - 10)) eqn:Q; [|apply Rltb_false in Q; lra].
  simpl negb. cbv iota. replace (1 + count_loud m (skipn 1 (l ++ a)))%nat with (length l) by (symmetry; exact St).
  f_equal.
  - rewrite <- (last_app_ne l a 0 N). assert (NE : l ++ a <> []) by (intro Z; apply app_eq_nil in Z; now elim N). revert NE.
    generalize (l ++ a). clear. induction l as [|x l IH]; intro N; [easy|]. destruct l as [|y l]; [reflexivity|].
    change (last (x :: y :: l) 0) with (last (y :: l) 0). rewrite <- IH by discriminate. simpl length.
    replace (S (S (length l)) - 1)%nat with (S (S (length l) - 1)) by lia. reflexivity.
  - rewrite map_nth_window by (rewrite app_length; lia). simpl skipn. rewrite firstn_app, firstn_all, Nat.sub_diag. simpl. apply app_nil_r.
Qed.

Lemma maxl_shift : forall c l, l <> [] -> maxl (map (fun x => x + c) l) = maxl l + c.
Proof.
  intros c l N. apply maxl_is; [apply (in_map (fun x => x + c)); now apply maxl_in|].
  intros x I. apply in_map_iff in I. destruct I as (y & <- & I). generalize (maxl_ge _ _ I). lra.
Qed.
Lemma first_above_shift : forall c m l, first_above (m + c) (map (fun x => x + c) l) = first_above m l.
Proof. induction l as [|x l IH]; simpl; [reflexivity|]. rewrite IH. ltb; try reflexivity; lra. Qed.
Lemma count_loud_shift : forall c m l, count_loud (m + c) (map (fun x => x + c) l) = count_loud m l.
Proof. induction l as [|x l IH]; simpl; [reflexivity|]. rewrite IH. ltb; try reflexivity; lra. Qed.
Lemma first_above_lt : forall l, l <> [] -> (first_above (maxl l) l < length l)%nat.
Proof.
  intros l N. assert (H : exists x, In x l /\ maxl l - 10 < x) by (exists (maxl l); split; [now apply maxl_in | lra]).
  revert H. generalize (maxl l). clear N. intros m (x & I & L). induction l as [|y l IH]; [easy|]. simpl.
  ltb; [lia|]. destruct I as [-> | I]; [lra|]. specialize (IH I). lia.
Qed.
Lemma count_loud_le : forall m l, (count_loud m l <= length l)%nat.
Proof. induction l as [|y l IH]; simpl; [lia|]. ltb; lia. Qed.
Lemma last_shift : forall c l, l <> [] -> last (map (fun x => x + c) l) 0 = last l 0 + c.
Proof. induction l as [|x l IH]; intro N; [easy|]. destruct l as [|y l]; [reflexivity|]. change (last (map (fun x0 => x0 + c) (y :: l)) 0 = last (y :: l) 0 + c). apply IH. discriminate. Qed.
Lemma nth_shift : forall c l i, (i < length l)%nat -> nth i (map (fun x => x + c) l) 0 = nth i l 0 + c.
Proof. induction l as [|x l IH]; intros i H; simpl in H; [lia|]. destruct i; simpl; [reflexivity|]. apply IH. lia. Qed.
Lemma counted_shift : forall c l, l <> [] -> counted (map (fun x => x + c) l) = map (fun x => x + c) (counted l).
Proof.
  intros c l N. unfold counted. cbv zeta. rewrite maxl_shift, first_above_shift, last_shift, map_length by assumption.
  replace (Rltb (last l 0 + c) (maxl l + c - 10)) with (Rltb (last l 0) (maxl l - 10)) by (ltb; try reflexivity; lra).
  set (t1 := first_above (maxl l) l). assert (T : (t1 < length l)%nat) by now apply first_above_lt.
  rewrite skipn_map, count_loud_shift.
  set (stop := if negb (Rltb (last l 0) (maxl l - 10)) then (length l - 1)%nat else (S t1 + count_loud (maxl l) (skipn (S t1) l))%nat).
  assert (St : (stop <= length l)%nat).
  { unfold stop. generalize (count_loud_le (maxl l) (skipn (S t1) l)). rewrite skipn_length. destruct (negb _); lia. }
  assert (W : forall k n, (k + n <= length l)%nat ->
    map (fun i => nth i (map (fun x => x + c) l) 0) (seq k n) = map (fun x => x + c) (map (fun i => nth i l 0) (seq k n))).
  { intros k n H. rewrite map_map. apply map_ext_in. intros i I. apply in_seq in I. apply nth_shift. lia. }
  destruct t1 as [|k].
  - simpl map. rewrite W by lia. rewrite nth_shift by (destruct l; simpl; [easy | lia]). reflexivity.
  - apply W. lia.
Qed.
Lemma counted_nonempty : forall l, l <> [] -> counted l <> [].
Proof.
  intros l N. unfold counted. cbv zeta. set (t1 := first_above (maxl l) l). assert (T : (t1 < length l)%nat) by now apply first_above_lt.
  destruct t1 as [|k]; [discriminate|].
  destruct (negb (Rltb (last l 0) (maxl l - 10))).
  - replace (length l - 1 - k)%nat with (S (length l - 2 - k)) by lia. discriminate.
  - replace (S (S k) + count_loud (maxl l) (skipn (S (S k)) l) - k)%nat with (S (S (count_loud (maxl l) (skipn (S (S k)) l)))) by lia. discriminate.
Qed.
Lemma counted_in : forall l x, l <> [] -> In x (counted l) -> In x l.
Proof.
  intros l x N I. unfold counted in I. cbv zeta in I. set (t1 := first_above (maxl l) l) in *. assert (T : (t1 < length l)%nat) by now apply first_above_lt.
  set (stop := if negb (Rltb (last l 0) (maxl l - 10)) then (length l - 1)%nat else (S t1 + count_loud (maxl l) (skipn (S t1) l))%nat) in *.
  assert (St : (stop <= length l)%nat).
  { unfold stop. generalize (count_loud_le (maxl l) (skipn (S t1) l)). rewrite skipn_length. destruct (negb _); lia. }
  assert (W : forall k n, (k + n <= length l)%nat -> In x (map (fun i => nth i l 0) (seq k n)) -> In x l).
  { intros k n H J. apply in_map_iff in J. destruct J as (i & <- & J). apply in_seq in J. apply nth_In. lia. }
  clearbody stop. destruct t1 as [|k].
  - destruct I as [<- | I]; [apply nth_In; lia | now apply (W 0%nat stop); [lia|]].
  - apply (W k (stop - k)%nat); [lia | exact I].
Qed.
Lemma counted_length : forall l, l <> [] -> (length (counted l) <= S (length l))%nat.
Proof.
  intros l N. unfold counted. cbv zeta. set (t1 := first_above (maxl l) l). assert (T : (t1 < length l)%nat) by now apply first_above_lt.
  set (stop := if negb (Rltb (last l 0) (maxl l - 10)) then (length l - 1)%nat else (S t1 + count_loud (maxl l) (skipn (S t1) l))%nat).
  assert (St : (stop <= length l)%nat).
  { unfold stop. generalize (count_loud_le (maxl l) (skipn (S t1) l)). rewrite skipn_length. destruct (negb _); lia. }
  clearbody stop. destruct t1 as [|k]; simpl length; rewrite map_length, seq_length; lia.
Qed.

(** ** geometry *)
Lemma nudge_id : forall s, s <> 0 -> nudge s = s.
Proof. intros s H. unfold nudge. destruct (Req_EM_T s 0); [contradiction | reflexivity]. Qed.
Lemma abs_ratio : forall h u, 0 < h -> u <> 0 -> Rabs (h / u) = h / Rabs u.
Proof. intros. unfold Rdiv. rewrite Rabs_mult, Rabs_inv. rewrite (Rabs_right h) by lra. reflexivity. Qed.
Lemma hyp_ratio : forall h u, 0 < h -> 0 < u -> sqrt (1 + (h / u)²) = sqrt (h ^ 2 + u ^ 2) / u.
Proof.
  intros h u H U. replace (1 + (h / u)²) with ((h ^ 2 + u ^ 2) / u ^ 2) by (unfold Rsqr; field; lra).
  rewrite sqrt_div_alt by (apply pow_lt; lra). rewrite sqrt_pow2 by lra. reflexivity.
Qed.
Lemma overhead_spec : forall h s x0 d t, 0 < h -> overhead h s x0 = (d, t) ->
  0 < d /\ d ^ 2 = h ^ 2 + (s - x0) ^ 2 /\ 0 <= t <= PI /\ d * cos t = s - x0 /\ d * sin t = h.
Proof.
  intros h s x0 d t H E. unfold overhead in E. set (u := s - x0) in *.
  assert (Q : 0 < h ^ 2 + u ^ 2) by (generalize (pow2_ge_0 u) (pow_lt h 2 H); lra).
  assert (D : 0 < sqrt (h ^ 2 + u ^ 2)) by now apply sqrt_lt_R0.
  apply pair_equal_spec in E. destruct E as [<- <-]. split; [exact D|]. split; [rewrite pow2_sqrt; lra|].
  assert (PI_ : 0 < PI) by apply PI_RGT_0.
  destruct (Req_EM_T u 0) as [Z | N].
  - rewrite Z. ltb; [lra|]. rewrite cos_PI2, sin_PI2. split; [lra|]. split; [lra|].
    replace (sqrt _) with h; [lra|]. rewrite <- (sqrt_pow2 h) at 1 by lra. f_equal. ring.
  - rewrite abs_ratio by assumption. assert (U : 0 < Rabs u) by now apply Rabs_pos_lt.
    set (w := Rabs u) in *.
    assert (W : u ^ 2 = w ^ 2) by (unfold w; now rewrite pow2_abs). rewrite W in *.
    assert (C : cos (atan (h / w)) = w / sqrt (h ^ 2 + w ^ 2)).
    { rewrite cos_atan, hyp_ratio by assumption. field. split; lra. }
    assert (Sn : sin (atan (h / w)) = h / sqrt (h ^ 2 + w ^ 2)).
    { rewrite sin_atan, hyp_ratio by assumption. field. split; lra. }
    assert (A : 0 < atan (h / w) < PI / 2).
    { split; [|apply atan_bound]. rewrite <- atan_0. apply atan_increasing. apply Rdiv_lt_0_compat; lra. }
    destruct (Rltb u 0) eqn:L; [apply Rltb_true in L | apply Rltb_false in L].
    + split; [lra|]. rewrite Rtrigo_facts.cos_pi_minus, Rtrigo_facts.sin_pi_minus, C, Sn.
      split; [transitivity (- w); [field; lra | unfold w; rewrite Rabs_left; lra] | field; lra].
    + split; [lra|]. rewrite C, Sn.
      split; [transitivity w; [field; lra | unfold w; rewrite Rabs_right; lra] | field; lra].
Qed.
Lemma beside_spec : forall y0 h s x0 d t p, 0 < h -> 0 < y0 -> beside y0 h s x0 = (d, t, p) ->
  0 < d /\ d ^ 2 = h ^ 2 + y0 ^ 2 + (s - x0) ^ 2 /\ 0 <= t <= PI /\ d * cos t = s - x0 /\ 0 < p < PI / 2 /\ h * tan p = y0.
Proof.
  intros y0 h s x0 d t p H Y E. unfold beside in E. set (u := s - x0) in *.
  assert (Ph : 0 < y0 / h) by (apply Rdiv_lt_0_compat; lra).
  assert (K : (y0 / sin (atan (y0 / h))) ^ 2 = h ^ 2 + y0 ^ 2).
  { rewrite sin_atan, hyp_ratio by assumption.
    assert (0 < sqrt (y0 ^ 2 + h ^ 2)) by (apply sqrt_lt_R0; generalize (pow_lt h 2 H) (pow_lt y0 2 Y); lra).
    replace (y0 / (y0 / h / (sqrt (y0 ^ 2 + h ^ 2) / h))) with (sqrt (y0 ^ 2 + h ^ 2)) by (field; lra).
    rewrite pow2_sqrt; [lra|]. generalize (pow_lt h 2 H) (pow_lt y0 2 Y). lra. }
  rewrite K in E. assert (Q : 0 < h ^ 2 + y0 ^ 2 + u ^ 2) by (generalize (pow2_ge_0 u) (pow_lt h 2 H) (pow_lt y0 2 Y); lra).
  assert (D : 0 < sqrt (h ^ 2 + y0 ^ 2 + u ^ 2)) by now apply sqrt_lt_R0.
  apply pair_equal_spec in E. destruct E as [E <-]. apply pair_equal_spec in E. destruct E as [<- <-]. split; [exact D|]. split; [rewrite pow2_sqrt; lra|].
  assert (A : Rabs ((x0 - s) / sqrt (h ^ 2 + y0 ^ 2 + u ^ 2)) = Rabs u / sqrt (h ^ 2 + y0 ^ 2 + u ^ 2)).
  { unfold Rdiv. rewrite Rabs_mult. rewrite (Rabs_right (/ _)) by (apply Rle_ge; left; now apply Rinv_0_lt_compat).
    f_equal. unfold u. apply Rabs_minus_sym. }
  rewrite A. set (r := sqrt (h ^ 2 + y0 ^ 2 + u ^ 2)) in *.
  assert (LE : Rabs u <= r).
  { rewrite <- sqrt_Rsqr_abs. apply sqrt_le_1_alt. unfold Rsqr. generalize (pow_lt h 2 H) (pow_lt y0 2 Y). nra. }
  assert (B : 0 <= Rabs u / r <= 1).
  { split; [apply Rmult_le_pos; [apply Rabs_pos | left; now apply Rinv_0_lt_compat]|].
    apply (Rmult_le_reg_r r); [exact D|]. unfold Rdiv. rewrite Rmult_assoc, Rinv_l by lra. lra. }
  generalize (acos_bound (Rabs u / r)). intro AB.
  assert (CA : cos (acos (Rabs u / r)) = Rabs u / r) by (apply cos_acos; lra).
  split; [destruct (Rltb u 0); lra|]. split; [|split].
  - destruct (Rltb u 0) eqn:L; [apply Rltb_true in L | apply Rltb_false in L].
    + rewrite Rtrigo_facts.cos_pi_minus, CA, Rabs_left by lra. field. lra.
    + rewrite CA, Rabs_right by lra. field. lra.
  - split; [rewrite <- atan_0; now apply atan_increasing | apply atan_bound].
  - rewrite tan_atan. field. lra.
Qed.

(** ** grids *)
Lemma linspace_length : forall a b n, length (linspace a b n) = n.
Proof. intros. unfold linspace. now rewrite map_length, seq_length. Qed.
Lemma map_seq_nth : forall (f : nat -> R) n i d, (i < n)%nat -> nth i (map f (seq 0 n)) d = f i.
Proof.
  intros f n i d H. rewrite (nth_indep _ d (f 0%nat)) by (now rewrite map_length, seq_length).
  rewrite (map_nth f), seq_nth by assumption. reflexivity.
Qed.
Lemma linspace_nth : forall a b n i d, (2 <= n)%nat -> (i < n)%nat -> nth i (linspace a b n) d = a + (b - a) * (INR i / INR (n - 1)).
Proof.
  intros a b n i d N I. unfold linspace. rewrite map_seq_nth by assumption.
  destruct (Nat.eqb_spec n 1); [lia|]. field. apply not_0_INR. lia.
Qed.
Lemma linspace_range : forall a b n x, a <= b -> In x (linspace a b n) -> a <= x <= b.
Proof.
  intros a b n x L I. unfold linspace in I. apply in_map_iff in I. destruct I as (i & <- & I). apply in_seq in I.
  destruct (Nat.eqb_spec n 1); [lra|].
  assert (P : 0 < INR (n - 1)) by (apply lt_0_INR; lia).
  assert (Q : 0 <= INR i / INR (n - 1) <= 1).
  { split; [apply Rmult_le_pos; [apply pos_INR | left; now apply Rinv_0_lt_compat]|].
    apply (Rmult_le_reg_r (INR (n - 1))); [exact P|]. unfold Rdiv. rewrite Rmult_assoc, Rinv_l by lra. rewrite Rmult_1_r, Rmult_1_l. apply le_INR. lia. }
  replace (INR i * ((b - a) / INR (n - 1))) with ((b - a) * (INR i / INR (n - 1))) by (field; lra). nra.
Qed.
Lemma grid_length : forall A B C (f : A -> B -> C) xs ys, length (flat_map (fun x => map (f x) ys) xs) = (length xs * length ys)%nat.
Proof. intros. induction xs as [|x xs IH]; [reflexivity|]. simpl. rewrite app_length, map_length, IH. reflexivity. Qed.
Lemma grid_nth : forall A B C (f : A -> B -> C) xs ys i j dx dy d, (i < length xs)%nat -> (j < length ys)%nat ->
  nth (i * length ys + j) (flat_map (fun x => map (f x) ys) xs) d = f (nth i xs dx) (nth j ys dy).
Proof.
  intros A B C f. induction xs as [|x xs IH]; intros ys i j dx dy d I J; simpl in I; [lia|].
  destruct i as [|i]; simpl flat_map.
  - rewrite app_nth1 by (rewrite map_length; simpl; lia). simpl.
    rewrite (nth_indep _ d (f x dy)) by (rewrite map_length; lia). apply map_nth.
  - rewrite app_nth2 by (rewrite map_length; simpl; nia). rewrite map_length.
    replace (S i * length ys + j - length ys)%nat with (i * length ys + j)%nat by (simpl; lia). simpl nth. apply IH; [lia | assumption].
Qed.
Lemma grid_in : forall A B C (f : A -> B -> C) xs ys p, In p (flat_map (fun x => map (f x) ys) xs) -> exists x y, In x xs /\ In y ys /\ p = f x y.
Proof.
  intros A B C f xs ys p I. apply in_flat_map in I. destruct I as (x & X & I). apply in_map_iff in I. destruct I as (y & <- & Y). eauto.
Qed.
Lemma centred_range : forall t w c n, 0 <= w -> In t (map (fun t => t * (w / 2) + c) (linspace (-1) 1 n)) -> c - w / 2 <= t <= c + w / 2.
Proof.
  intros t w c n W I. apply in_map_iff in I. destruct I as (x & <- & I). apply linspace_range in I; [|lra]. nra.
Qed.
Lemma height_range : forall t h n, 0 <= h -> In t (map (fun t => t * h) (linspace 0 1 n)) -> 0 <= t <= h.
Proof.
  intros t h n W I. apply in_map_iff in I. destruct I as (x & <- & I). apply linspace_range in I; [|lra]. nra.
Qed.
Lemma faces_on_box : forall c d a b e p, 0 <= vx d -> 0 <= vy d -> 0 <= vz d -> In p (building_faces c d a b e) -> in_box c d p /\ on_face c d p.
Proof.
  intros c d a b e p X Y Z I. unfold building_faces in I. cbv zeta in I.
  unfold in_box, on_face.
  repeat (apply in_app_or in I; destruct I as [I | I]);
    apply grid_in in I; destruct I as (u & v & U & V & ->); simpl;
    repeat match goal with
    | H : In _ (map _ (linspace (-1) 1 _)) |- _ => apply centred_range in H; [|assumption]
    | H : In _ (map _ (linspace 0 1 _)) |- _ => apply height_range in H; [|assumption]
    end; split; auto 6; lra.
Qed.
Lemma faces_count : forall c d a b e, length (building_faces c d a b e) = (2 * (a * e + b * e) + a * b)%nat.
Proof. intros. unfold building_faces. cbv zeta. rewrite !app_length, !grid_length, !map_length, !linspace_length. lia. Qed.
