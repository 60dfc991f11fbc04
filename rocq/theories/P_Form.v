(** * Form factors and drag rise: proofs *)
From Coq Require Import Reals List Bool Arith String Lra Lia.
From Verif Require Import PyBase M_Opt P_Opt M_Util P_Util Props_Util M_Drag S_Drag P_Deriv P_Friction.
Import ListNotations.
Local Open Scope R_scope.

(** ** slender bodies *)
Definition at' (x : R) : R := 1 / 2 * (ln (1 + x) - ln (1 - x)).
Lemma at_eq x : -1 < x < 1 -> arctanh x = at' x.
Proof. intro H. unfold arctanh, at', Rdiv. rewrite (ln_mult (1 + x)), ln_Rinv by (try apply Rinv_0_lt_compat; lra). lra. Qed.
Definition gap (x : R) : R := at' x - x.
Lemma gap_0 : gap 0 = 0.
Proof. unfold gap, at'. replace (1 + 0) with 1 by ring. replace (1 - 0) with 1 by ring. ring. Qed.
Lemma gap_der x : -1 < x < 1 -> derivable_pt_lim gap x (x ^ 2 / (1 - x ^ 2)).
Proof.
  intro H. unfold gap, at'. eapply D_val.
  - der; lra.
  - assert (1 - x ^ 2 <> 0) by nra. field. repeat split; try lra; nra.
Qed.
Lemma gap_pos x : 0 < x < 1 -> 0 < gap x.
Proof.
  intro H. rewrite <- gap_0. apply (grows gap (fun x => x ^ 2 / (1 - x ^ 2))); [lra| |].
  - intros c C. apply gap_der. lra.
  - intros c C. apply Rdiv_lt_0_compat; nra.
Qed.
Lemma gap_upper x : 0 < x < 1 -> (1 - x ^ 2) * gap x < x ^ 3.
Proof.
  intro H. assert (P : 0 < 1 - x ^ 2) by nra.
  enough (E : 0 < x ^ 3 / (1 - x ^ 2) - gap x).
  { assert (0 < (1 - x ^ 2) * (x ^ 3 / (1 - x ^ 2) - gap x)) by (apply Rmult_lt_0_compat; assumption).
    replace ((1 - x ^ 2) * (x ^ 3 / (1 - x ^ 2) - gap x)) with (x ^ 3 - (1 - x ^ 2) * gap x) in H0 by (field; lra). lra. }
  replace 0 with (0 ^ 3 / (1 - 0 ^ 2) - gap 0) by (rewrite gap_0; lra).
  apply (grows (fun x => x ^ 3 / (1 - x ^ 2) - gap x) (fun x => 2 * x ^ 2 / (1 - x ^ 2) ^ 2)); [lra| |].
  - intros c C. assert (0 < 1 - c ^ 2) by nra. eapply D_val.
    + apply (derivable_pt_lim_minus (fun x => x ^ 3 / (1 - x ^ 2)) gap); [der; nra|apply gap_der; lra].
    + cbn [pred INR]. unfold Rsqr. field. nra.
  - intros c C. assert (0 < 1 - c ^ 2) by nra. apply Rdiv_lt_0_compat; [nra|apply pow_lt; assumption].
Qed.
Lemma gap_lower x : 0 < x < 1 -> x ^ 3 < (3 - x ^ 2) * gap x.
Proof.
  intro H. assert (P : 0 < 3 - x ^ 2) by nra.
  enough (E : 0 < gap x - x ^ 3 / (3 - x ^ 2)).
  { assert (0 < (3 - x ^ 2) * (gap x - x ^ 3 / (3 - x ^ 2))) by (apply Rmult_lt_0_compat; assumption).
    replace ((3 - x ^ 2) * (gap x - x ^ 3 / (3 - x ^ 2))) with ((3 - x ^ 2) * gap x - x ^ 3) in H0 by (field; lra). lra. }
  replace 0 with (gap 0 - 0 ^ 3 / (3 - 0 ^ 2)) by (rewrite gap_0; lra).
  apply (grows (fun x => gap x - x ^ 3 / (3 - x ^ 2)) (fun x => 4 * x ^ 4 / ((1 - x ^ 2) * (3 - x ^ 2) ^ 2))); [lra| |].
  - intros c C. assert (0 < 1 - c ^ 2) by nra. eapply D_val.
    + apply (derivable_pt_lim_minus gap (fun x => x ^ 3 / (3 - x ^ 2))); [apply gap_der; lra|der; nra].
    + cbn [pred INR]. unfold Rsqr. field. repeat split; nra.
  - intros c C. assert (0 < 1 - c ^ 2) by nra. apply Rdiv_lt_0_compat; [assert (0 < c ^ 4) by (apply pow_lt; lra); lra|].
    apply Rmult_lt_0_compat; [assumption|]. apply pow_lt. nra.
Qed.
Definition along (D : R) : R := 2 * (1 - D ^ 2) * gap D / D ^ 3.
Lemma along_range D : 0 < D < 1 -> 0 < along D < 2.
Proof.
  intro H. assert (0 < D ^ 3) by (apply pow_lt; lra). pose proof (gap_pos D H). pose proof (gap_upper D H). unfold along.
  assert (0 < 1 - D ^ 2) by nra. split; [apply Rdiv_lt_0_compat; nra|].
  apply (Rmult_lt_reg_r (D ^ 3)); [assumption|]. unfold Rdiv. rewrite Rmult_assoc, Rinv_l by lra. lra.
Qed.
Lemma along_falls D D' : 0 < D -> D < D' -> D' < 1 -> along D' < along D.
Proof.
  intros A B C. apply (falls along (fun x => 2 * (x ^ 3 - (3 - x ^ 2) * gap x) / x ^ 4)); [assumption| |].
  - intros c K. assert (0 < 1 - c ^ 2) by nra. assert (0 < c ^ 3) by (apply pow_lt; lra). unfold along. eapply D_val.
    + apply (D_div (fun D => 2 * (1 - D ^ 2) * gap D) (fun D => D ^ 3)); [lra| |der].
      apply (derivable_pt_lim_mult (fun D => 2 * (1 - D ^ 2)) gap); [der|apply gap_der; lra].
    + cbn [pred INR]. unfold Rsqr. field. split; nra.
  - intros c K. pose proof (gap_lower c ltac:(lra)). assert (0 < c ^ 4) by (apply pow_lt; lra).
    assert (0 < 2 * ((3 - c ^ 2) * gap c - c ^ 3) / c ^ 4) by (apply Rdiv_lt_0_compat; lra).
    replace (2 * (c ^ 3 - (3 - c ^ 2) * gap c) / c ^ 4) with (- (2 * ((3 - c ^ 2) * gap c - c ^ 3) / c ^ 4)) by (field; lra). lra.
Qed.
(** the factor of the free-stream speed that the fastest air gains, in terms of the width of the stretched body *)
Definition gain (e : R) : R := along (sqrt (1 - e)) / (2 - along (sqrt (1 - e))).
Lemma root_range e : 0 < e < 1 -> 0 < sqrt (1 - e) < 1.
Proof. intro H. split; [apply sqrt_lt_R0; lra|]. rewrite <- sqrt_1 at 2. apply sqrt_lt_1; lra. Qed.
Lemma gain_pos e : 0 < e < 1 -> 0 < gain e.
Proof. intro H. pose proof (along_range _ (root_range e H)). unfold gain. apply Rdiv_lt_0_compat; lra. Qed.
Lemma gain_grows e e' : 0 < e -> e < e' -> e' < 1 -> gain e < gain e'.
Proof.
  intros A B C. unfold gain. pose proof (root_range e ltac:(lra)) as R1. pose proof (root_range e' ltac:(lra)) as R2.
  pose proof (along_range _ R1). pose proof (along_range _ R2).
  assert (L : along (sqrt (1 - e)) < along (sqrt (1 - e'))).
  { apply along_falls; [lra| |lra]. apply sqrt_lt_1; lra. }
  set (p := along (sqrt (1 - e))) in *. set (q := along (sqrt (1 - e'))) in *.
  apply (Rmult_lt_reg_r ((2 - p) * (2 - q))); [apply Rmult_lt_0_compat; lra|].
  replace (p / (2 - p) * ((2 - p) * (2 - q))) with (p * (2 - q)) by (field; lra).
  replace (q / (2 - q) * ((2 - p) * (2 - q))) with (q * (2 - p)) by (field; lra). lra.
Qed.
Lemma beta_range M : 0 <= M -> M < 95 / 100 -> 0 < 1 - M ^ 2 <= 1.
Proof. intros. assert (0 <= M ^ 2) by nra. assert (M ^ 2 < 1) by nra. lra. Qed.
Lemma width d M : 0 < d < 1 -> 0 <= M -> M < 95 / 100 -> 0 < (1 - M ^ 2) * d ^ 2 < 1.
Proof. intros HD A B. pose proof (beta_range M A B). assert (0 < d ^ 2 < 1) by nra. split; [apply Rmult_lt_0_compat; lra|nra]. Qed.
Lemma speed_up_eq d M : 0 < d < 1 -> 0 <= M ->
  (M < 95 / 100 -> speed_up d M = gain ((1 - M ^ 2) * d ^ 2) / sqrt (1 - M ^ 2)) /\
  (95 / 100 <= M -> speed_up d M = gain (d ^ 2)).
Proof.
  intros HD HM. assert (S : forall e, 0 < e < 1 -> sqrt (1 - e) ^ 2 = 1 - e) by (intros; rewrite pow2_sqrt; lra).
  unfold speed_up, gain, along. split; intro L.
  - rewrite (proj2 (Rltb_true _ _) L).
    assert (E : 0 < (1 - M ^ 2) * d ^ 2 < 1) by (apply width; lra).
    pose proof (root_range _ E) as RR. rewrite S by assumption. rewrite at_eq by lra. fold (gap (sqrt (1 - (1 - M ^ 2) * d ^ 2))).
    set (D := sqrt (1 - (1 - M ^ 2) * d ^ 2)) in *.
    replace (2 * (1 - (1 - (1 - M ^ 2) * d ^ 2)) * gap D / D ^ 3) with (2 * (1 - M ^ 2) * d ^ 2 * gap D / D ^ 3) by (unfold Rdiv; ring).
    set (a := 2 * (1 - M ^ 2) * d ^ 2 * gap D / D ^ 3). unfold Rdiv. rewrite Rinv_mult. ring.
  - rewrite (proj2 (Rltb_false _ _) L). assert (E : 0 < d ^ 2 < 1) by nra.
    pose proof (root_range _ E) as RR. rewrite S by assumption. rewrite at_eq by lra. fold (gap (sqrt (1 - d ^ 2))).
    replace (1 - (1 - d ^ 2)) with (d ^ 2) by ring. reflexivity.
Qed.
Lemma speed_up_pos d M : 0 < d < 1 -> 0 <= M -> 0 < speed_up d M.
Proof.
  intros HD HM. destruct (Rlt_or_le M (95 / 100)) as [L|L].
  - rewrite (proj1 (speed_up_eq d M HD HM) L). apply Rdiv_lt_0_compat; [apply gain_pos, width; lra|apply sqrt_lt_R0; pose proof (beta_range M HM L); lra].
  - rewrite (proj2 (speed_up_eq d M HD HM) L). apply gain_pos. nra.
Qed.
Lemma speed_up_grows d d' M : 0 < d -> d < d' -> d' < 1 -> 0 <= M -> speed_up d M < speed_up d' M.
Proof.
  intros A B C HM. destruct (Rlt_or_le M (95 / 100)) as [L|L].
  - rewrite (proj1 (speed_up_eq d M ltac:(lra) HM) L), (proj1 (speed_up_eq d' M ltac:(lra) HM) L).
    pose proof (beta_range M HM L).
    apply Rmult_lt_compat_r; [apply Rinv_0_lt_compat, sqrt_lt_R0; lra|]. assert (d ^ 2 < d' ^ 2) by nra. apply gain_grows; [apply (width d M); lra|apply Rmult_lt_compat_l; lra|apply (width d' M); lra].
  - rewrite (proj2 (speed_up_eq d M ltac:(lra) HM) L), (proj2 (speed_up_eq d' M ltac:(lra) HM) L). apply gain_grows; nra.
Qed.
Lemma fus_ff_gt1 C d M : 0 < C -> 0 < d < 1 -> 0 <= M -> 1 < fuselage_form_factor C d M.
Proof. intros HC HD HM. unfold fuselage_form_factor. pose proof (speed_up_pos d M HD HM). assert (0 < C * speed_up d M) by (apply Rmult_lt_0_compat; lra). nra. Qed.
Lemma fus_ff_grows C d d' M : 0 < C -> 0 < d -> d < d' -> d' < 1 -> 0 <= M -> fuselage_form_factor C d M < fuselage_form_factor C d' M.
Proof.
  intros HC A B D HM. unfold fuselage_form_factor. pose proof (speed_up_pos d M ltac:(lra) HM). pose proof (speed_up_grows d d' M A B D HM).
  assert (0 < C * speed_up d M) by (apply Rmult_lt_0_compat; lra). assert (C * speed_up d M < C * speed_up d' M) by (apply Rmult_lt_compat_l; lra). nra.
Qed.

(** ** wings *)
Definition ff_raw (C tc c M : R) : R := 1 + 2 * C * (tc * (c * c)) / sqrt (1 - M * M * (c * c)) + C * C * (c * c) * tc * tc * (1 + 5 * (c * c)) / (2 * (1 - (M * c) ^ 2)).
Lemma ff_eq C tc s M : M <= 1 -> wing_form_factor C tc s M = 1 + (ff_raw C tc (cos s) M - 1) * blend (95 / 100) 1 M.
Proof. intro H. unfold wing_form_factor. rewrite (proj2 (Rltb_false _ _) H). unfold ff_raw. ring. Qed.
Lemma ff_raw_ge C tc c M : 0 <= C -> 0 <= tc -> M * M * (c * c) < 1 -> 1 <= ff_raw C tc c M.
Proof.
  intros HC HT HM. unfold ff_raw. assert (0 <= c * c) by nra.
  assert (0 <= 2 * C * (tc * (c * c)) / sqrt (1 - M * M * (c * c))).
  { apply Rmult_le_pos; [|left; apply Rinv_0_lt_compat, sqrt_lt_R0; lra]. assert (0 <= tc * (c * c)) by (apply Rmult_le_pos; assumption). nra. }
  assert (0 <= C * C * (c * c) * tc * tc * (1 + 5 * (c * c)) / (2 * (1 - (M * c) ^ 2))).
  { apply Rmult_le_pos; [|left; apply Rinv_0_lt_compat; nra].
    assert (0 <= C * C * (c * c)) by (apply Rmult_le_pos; nra). rewrite (Rmult_assoc (C * C * (c * c)) tc tc).
    apply Rmult_le_pos; [|lra]. apply Rmult_le_pos; [assumption|nra]. }
  lra.
Qed.
Lemma ff_raw_grows C tc tc' c M : 0 < C -> 0 <= tc -> tc < tc' -> c <> 0 -> M * M * (c * c) < 1 -> ff_raw C tc c M < ff_raw C tc' c M.
Proof.
  intros HC HT L HN HM. unfold ff_raw. assert (0 < c * c) by (destruct (Rtotal_order c 0) as [|[|]]; nra).
  assert (S : 0 < / sqrt (1 - M * M * (c * c))) by (apply Rinv_0_lt_compat, sqrt_lt_R0; lra).
  assert (Q : 0 < / (2 * (1 - (M * c) ^ 2))) by (apply Rinv_0_lt_compat; nra). unfold Rdiv.
  assert (2 * C * (tc * (c * c)) * / sqrt (1 - M * M * (c * c)) < 2 * C * (tc' * (c * c)) * / sqrt (1 - M * M * (c * c))).
  { apply Rmult_lt_compat_r; [assumption|]. apply Rmult_lt_compat_l; [lra|]. apply Rmult_lt_compat_r; assumption. }
  assert (C * C * (c * c) * tc * tc * (1 + 5 * (c * c)) * / (2 * (1 - (M * c) ^ 2)) <= C * C * (c * c) * tc' * tc' * (1 + 5 * (c * c)) * / (2 * (1 - (M * c) ^ 2))).
  { apply Rmult_le_compat_r; [lra|]. apply Rmult_le_compat_r; [lra|]. rewrite !(Rmult_assoc (C * C * (c * c))). apply Rmult_le_compat_l; [nra|nra]. }
  lra.
Qed.
Lemma cos_sq s : cos s * cos s <= 1.
Proof. pose proof (COS_bound s). nra. Qed.
Lemma below1 s M : 0 <= M < 1 -> M * M * (cos s * cos s) < 1.
Proof. intro H. pose proof (cos_sq s). assert (0 <= cos s * cos s) by nra. assert (M * M < 1) by nra. assert (0 <= M * M) by nra. nra. Qed.
