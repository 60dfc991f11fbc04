(** * Static stability: proofs *)
From Coq Require Import Reals List Bool Lra Psatz Permutation.
From Verif Require Import PyBase M_Opt P_Opt M_Stab S_Stab.
Import ListNotations.
Local Open Scope R_scope.
Local Open Scope list_scope.

Lemma zero_yes x : x = 0 -> zero x = true. Proof. unfold zero. destruct (Req_EM_T x 0); congruence. Qed.
Lemma zero_no x : x <> 0 -> zero x = false. Proof. unfold zero. destruct (Req_EM_T x 0); congruence. Qed.
Lemma tan_of_atan x : tan (atan x) = x. Proof. apply atan_right_inv. Qed.
Lemma atan_of_tan a : steep a -> atan (tan a) = a.
Proof.
  intro H. apply tan_is_inj; [split; apply atan_bound | unfold steep in H; lra | apply tan_of_atan].
Qed.
Lemma segments_tan a pa ca pb cb root span symm old new :
  tan (convert_sweep_segments a pa ca pb cb root span symm old new) =
  tan a - 4 * (new - old) * (1 - cb * root / (ca * root)) / ((if symm then span else span * 2) * (pb - pa) / (1 / 2 * (ca * root + cb * root)) * (1 + cb * root / (ca * root))).
Proof.
  unfold convert_sweep_segments. destruct (Req_EM_T old new) as [->|N]; [unfold Rdiv; ring|]. cbn zeta.
  set (d := (if symm then span else span * 2) * (pb - pa) / (1 / 2 * (ca * root + cb * root)) * (1 + cb * root / (ca * root))).
  unfold zero. destruct (Req_EM_T old 0) as [->|Z]; rewrite ?tan_of_atan; unfold Rdiv; ring.
Qed.
Lemma sum_perm (f : surface -> R) l m : Permutation l m -> sum f l = sum f m.
Proof. induction 1; cbn; lra. Qed.
Lemma add_up_sum f l : forall acc, add_up f l acc = acc + sum f l.
Proof. induction l as [|s l IH]; intro acc; cbn; [lra|]. rewrite IH. lra. Qed.
Lemma sum_ext f g l : (forall s, In s l -> f s = g s) -> sum f l = sum g l.
Proof. induction l as [|s l IH]; intro H; cbn; [reflexivity|]. rewrite H by (now left). rewrite IH; [reflexivity|]. intros; apply H; now right. Qed.
Lemma sum_app f l m : sum f (l ++ m) = sum f l + sum f m.
Proof. induction l; cbn; lra. Qed.
(** moving the centre of gravity *)
Lemma cm_alpha_moves sref mac x x' body l : mac <> 0 -> sref <> 0 ->
  cm_alpha sref mac x' body l - cm_alpha sref mac x body l = (x' - x) / mac * lift_slope sref l.
Proof.
  intros M S. unfold cm_alpha. rewrite !add_up_sum. unfold lift_slope. induction l as [|s l IH]; cbn [sum filter]; [lra|].
  unfold cm_alpha_of, flat in *. destruct (s_vertical s); cbn [negb sum].
  - replace (1 - 1) with 0 by ring. rewrite !Rmult_0_r. lra.
  - assert (E : forall y, - arm y s * s_area s / (mac * sref) * (s_cla s * s_eta s * (1 - s_ep s)) * (1 - 0) =
      (y - (s_x s + s_ac s)) / mac * (s_area s / sref * s_cla s * s_eta s * (1 - s_ep s))) by (intro y; unfold arm; field; split; assumption).
    rewrite !E. rewrite Rmult_plus_distr_l, <- IH. unfold Rdiv. ring.
Qed.
Lemma bodies_is share l : forall acc last, bodies share l acc last =
  (acc - fold_right (fun f s => share f + s) 0 l, match rev l with [] => last | f :: _ => Some f end).
Proof.
  induction l as [|f l IH]; intros acc last; cbn [bodies fold_right rev]; [f_equal; lra|]. rewrite IH. f_equal; [lra|].
  destruct (rev l); reflexivity.
Qed.
(** lift-curve slope *)
Lemma beta_sub M : M < 1 -> beta M = sqrt (1 - M ^ 2).
Proof. intro H. unfold beta. replace (Rltb M 1) with true by (symmetry; now apply Rltb_true). reflexivity. Qed.
Lemma beta_sup M : 1 < M -> beta M = sqrt (M ^ 2 - 1).
Proof.
  intro H. unfold beta. replace (Rltb M 1) with false by (symmetry; apply Rltb_false; lra). replace (Rltb 1 M) with true by (symmetry; now apply Rltb_true). reflexivity.
Qed.
Lemma slope_k ar half b k : 0 < b -> 0 < k ->
  ar ^ 2 * (b * b) / (k * k) * (1 + tan half ^ 2 / (b * b)) + 4 = ar ^ 2 * (b ^ 2 + tan half ^ 2) / k ^ 2 + 4.
Proof. intros B K. field. lra. Qed.
Lemma slope_sub ar half M : 0 <= M -> M < 1 ->
  slope ar half M = 2 * PI * ar / (2 + sqrt (ar ^ 2 * (1 - M ^ 2 + tan half ^ 2) / (613 / 100 / (2 * PI)) ^ 2 + 4)).
Proof.
  intros M0 M1. pose proof PI_RGT_0 as P. unfold slope. assert (B : 0 < beta M) by (rewrite beta_sub by assumption; apply sqrt_lt_R0; nra).
  assert (S : section_slope M = 613 / 100 / beta M) by (unfold section_slope; replace (Rltb M 1) with true by (symmetry; now apply Rltb_true); reflexivity).
  rewrite S. replace (613 / 100 / beta M / (2 * PI / beta M)) with (613 / 100 / (2 * PI)) by (field; lra).
  rewrite slope_k; [|assumption | apply Rdiv_lt_0_compat; lra]. replace (beta M ^ 2) with (1 - M ^ 2); [reflexivity|].
  rewrite beta_sub by assumption. symmetry. apply pow2_sqrt. nra.
Qed.
Lemma slope_sup ar half M : 1 < M -> slope ar half M = 2 * PI * ar / (2 + sqrt (ar ^ 2 * (M ^ 2 - 1 + tan half ^ 2) / (2 / PI) ^ 2 + 4)).
Proof.
  intros M1. pose proof PI_RGT_0 as P. unfold slope. assert (B : 0 < beta M) by (rewrite beta_sup by assumption; apply sqrt_lt_R0; nra).
  assert (S : section_slope M = 4 / beta M).
  { unfold section_slope. replace (Rltb M 1) with false by (symmetry; apply Rltb_false; lra). replace (Rltb 1 M) with true by (symmetry; now apply Rltb_true). reflexivity. }
  rewrite S. replace (4 / beta M / (2 * PI / beta M)) with (2 / PI) by (field; lra).
  rewrite slope_k; [|assumption | apply Rdiv_lt_0_compat; lra]. replace (beta M ^ 2) with (M ^ 2 - 1); [reflexivity|].
  rewrite beta_sup by assumption. symmetry. apply pow2_sqrt. nra.
Qed.
(** the common shape: 2 pi a / (2 + sqrt (a^2 c + 4)) *)
Definition shape (a c : R) : R := 2 * PI * a / (2 + sqrt (a ^ 2 * c + 4)).
Lemma shape_pos a c : 0 < a -> 0 <= c -> 0 < shape a c.
Proof. intros A C. pose proof PI_RGT_0. unfold shape. apply Rdiv_lt_0_compat; [nra|]. pose proof (sqrt_pos (a ^ 2 * c + 4)). lra. Qed.
Lemma shape_slender a c : 0 < a -> 0 <= c -> shape a c <= PI / 2 * a.
Proof.
  intros A C. pose proof PI_RGT_0 as P. unfold shape. assert (Q : 2 <= sqrt (a ^ 2 * c + 4)).
  { rewrite <- (sqrt_square 2) at 1 by lra. apply sqrt_le_1_alt. assert (0 <= a ^ 2 * c) by (apply Rmult_le_pos; [nra | lra]). lra. }
  set (s := sqrt _) in *. apply Rmult_le_reg_r with (2 + s); [lra|]. replace (2 * PI * a / (2 + s) * (2 + s)) with (2 * PI * a) by (field; lra).
  assert (PA : 0 < PI * a) by nra. nra.
Qed.
Lemma shape_c a c c' : 0 < a -> 0 <= c -> c < c' -> shape a c' < shape a c.
Proof.
  intros A C L. pose proof PI_RGT_0 as P. unfold shape, Rdiv. apply Rmult_lt_compat_l; [nra|].
  assert (Q : sqrt (a ^ 2 * c + 4) < sqrt (a ^ 2 * c' + 4)) by (apply sqrt_lt_1_alt; assert (0 < a ^ 2) by nra; split; nra).
  pose proof (sqrt_pos (a ^ 2 * c + 4)). apply Rinv_lt_contravar; [nra | lra].
Qed.
Lemma shape_a a a' c : 0 < a -> 0 <= c -> a < a' -> shape a c < shape a' c.
Proof.
  (* a / (2 + sqrt (a^2 c + 4)) = 1 / (2/a + sqrt (c + 4/a^2)) *)
  intros A C L. pose proof PI_RGT_0 as P.
  assert (E : forall x, 0 < x -> shape x c = 2 * PI * / (2 / x + sqrt (c + 4 / x ^ 2))).
  { intros x X. unfold shape. assert (S : sqrt (x ^ 2 * c + 4) = x * sqrt (c + 4 / x ^ 2)).
    { replace (x ^ 2 * c + 4) with (x * x * (c + 4 / x ^ 2)) by (field; lra). rewrite sqrt_mult_alt by nra. rewrite sqrt_square by lra. reflexivity. }
    rewrite S. set (s := sqrt (c + 4 / x ^ 2)). assert (0 <= s) by apply sqrt_pos. assert (0 <= x * s) by nra. field. repeat split; lra. }
  rewrite (E a A), (E a') by lra. apply Rmult_lt_compat_l; [lra|]. assert (I : / a' < / a) by (apply Rinv_lt_contravar; nra). assert (IP : 0 < / a') by (apply Rinv_0_lt_compat; lra).
  assert (S : sqrt (c + 4 / a' ^ 2) <= sqrt (c + 4 / a ^ 2)).
  { apply sqrt_le_1_alt. unfold Rdiv. rewrite <- !pow_inv. assert (/ a' ^ 1 * / a' ^ 1 <= / a ^ 1 * / a ^ 1) by (rewrite !pow_1; nra). rewrite !pow_1 in H. simpl. nra. }
  pose proof (sqrt_pos (c + 4 / a' ^ 2)). apply Rinv_lt_contravar; unfold Rdiv in *; [|lra]. apply Rmult_lt_0_compat; lra.
Qed.
Lemma shape_plate a c : 0 < a -> 0 < c -> shape a c < 2 * PI / sqrt c.
Proof.
  intros A C. pose proof PI_RGT_0 as P. unfold shape. assert (S : sqrt (a ^ 2 * c + 4) > a * sqrt c).
  { replace (a * sqrt c) with (sqrt (a ^ 2 * c)); [apply sqrt_lt_1_alt; split; [apply Rmult_le_pos; nra | lra]|].
    rewrite sqrt_mult_alt by nra. f_equal. replace (a ^ 2) with (a * a) by ring. apply sqrt_square. lra. }
  pose proof (sqrt_lt_R0 c C). set (s := sqrt c) in *. set (r := sqrt (a ^ 2 * c + 4)) in *. assert (AS : 0 < a * s) by nra. assert (RP : 0 < 2 + r) by lra. apply Rmult_lt_reg_r with (2 + r); [assumption|].
  replace (2 * PI * a / (2 + r) * (2 + r)) with (2 * PI * a) by (field; lra). apply Rmult_lt_reg_r with s; [assumption|].
  replace (2 * PI / s * (2 + r) * s) with (2 * PI * (2 + r)) by (field; lra). nra.
Qed.
