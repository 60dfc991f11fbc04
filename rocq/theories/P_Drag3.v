(** * Drag build-up: order, repetition; a jump in the form factor *)
From Coq Require Import Reals List Bool Arith String Lra Lia Permutation.
From Verif Require Import PyBase P_Dict M_Opt P_Opt M_Util P_Util M_Drag S_Drag P_Drag P_Drag2 P_Deriv P_Friction P_Form.
Import ListNotations.
Local Open Scope R_scope.
Local Open Scope list_scope.

Lemma total_filter {A} (f : A -> R) p l : total f (filter p l) = total (fun x => if p x then f x else 0) l.
Proof. induction l as [|a l IH]; cbn; [reflexivity|]. destruct (p a); cbn; rewrite IH; lra. Qed.
Lemma misc_eq v : miscellaneous_drag v =
  excrescence (110 / 100 * (total w_wet (v_wings v) + total fu_wet (v_fuselages v) + total (fun n => na_wet n * INR (na_origins n)) (v_nacelles v))) (v_ref v).
Proof. unfold miscellaneous_drag, total_wetted. rewrite !fold_total. f_equal. lra. Qed.
Lemma reordered_named v v' : reordered v v' -> named_apart v -> named_apart v'.
Proof.
  intros (W & F & N & _) H. unfold named_apart in *. eapply Permutation_NoDup; [|exact H]. constructor. unfold tags.
  apply Permutation_app; [apply Permutation_map, W|]. apply Permutation_app; [apply Permutation_map, F|apply Permutation_map, N].
Qed.
Lemma reordered_parasite t fl v v' : reordered v v' -> parasite_of t fl v' = parasite_of t fl v.
Proof.
  intros (W & F & N & _ & S). unfold parasite_of, separate. rewrite !total_filter, <- S.
  rewrite (total_perm _ _ _ (Permutation_sym W)), (total_perm _ _ _ (Permutation_sym F)), (total_perm _ _ _ (Permutation_sym N)). reflexivity.
Qed.
Lemma reordered_misc t v v' : reordered v v' -> miscellaneous_drag (with_wings (wetted t v') v') = miscellaneous_drag (with_wings (wetted t v) v).
Proof.
  intros (W & F & N & _ & S). rewrite !misc_eq. cbn [with_wings v_wings v_fuselages v_nacelles v_ref]. unfold wetted. rewrite !total_map, <- S.
  rewrite (total_perm _ _ _ (Permutation_sym W)), (total_perm _ _ _ (Permutation_sym F)), (total_perm _ _ _ (Permutation_sym N)). reflexivity.
Qed.
Lemma reordered_wave fl v v' : reordered v v' -> wave fl v' = wave fl v.
Proof. intros (W & _ & _ & _ & S). unfold wave. rewrite <- S. apply total_perm, Permutation_sym, W. Qed.
Lemma reordered_viscous t fl v v' : reordered v v' -> viscous t fl v' = viscous t fl v.
Proof. intros (W & _ & _ & _ & S). unfold viscous. rewrite <- S. apply total_perm, Permutation_sym, W. Qed.
Lemma reordered_inviscid t v v' : reordered v v' ->
  total (fun w => inviscid t w * (w_ref w / v_ref v')) (v_wings v') = total (fun w => inviscid t w * (w_ref w / v_ref v)) (v_wings v).
Proof. intros (W & _ & _ & _ & S). rewrite <- S. apply total_perm, Permutation_sym, W. Qed.
Lemma reordered_fit v v' : reordered v v' -> (forall w, In w (v_wings v) -> transitions_fit w) -> forall w, In w (v_wings v') -> transitions_fit w.
Proof. intros (W & _) H w I. apply H. apply (Permutation_in _ (Permutation_sym W)). assumption. Qed.
Lemma evaluated_ok t fl CL CDi v b r : named_apart v -> evaluate_drag t fl CL CDi v b = Ok r ->
  (forall w, In w (v_wings v) -> transitions_fit w) /\ (v_networks v <> 0%nat \/ v_nacelles v <> []).
Proof.
  intros N E. destruct (evaluated t fl CL CDi v b N) as (_ & B & C).
  assert (H : forall w, In w (v_wings v) -> transitions_fit w).
  { intros w I. destruct (fit_dec w) as [F|F]; [assumption|]. rewrite B in E; [discriminate|]. exists w. auto. }
  split; [assumption|]. destruct (v_networks v); [|left; discriminate]. destruct (v_nacelles v); [|right; discriminate].
  rewrite C in E; [discriminate|assumption|reflexivity|reflexivity].
Qed.
(** everything known of a successful evaluation *)
Lemma evaluated_is t fl CL CDi v b v' b' d : named_apart v -> evaluate_drag t fl CL CDi v b = Ok (v', b', d) ->
  v' = with_wings (wetted t v) v /\
  d = add_up t (parasite_of t fl v) (induced_of t fl CL CDi v) (wave fl v) (miscellaneous_drag (with_wings (wetted t v) v)) /\
  (forall w, In w (v_wings v) -> stored_cd b' (w_tag w) = Some (wing_cd t fl w * w_ref w / v_ref v)) /\
  (forall f, In f (separate v) -> stored_cd b' (fu_tag f) = Some (fuselage_cd t fl f * fu_front f / v_ref v)) /\
  (forall n, In n (v_nacelles v) -> stored_cd b' (na_tag n) = Some (nacelle_cd fl n * nacelle_ref n / v_ref v)).
Proof.
  intros N E. destruct (evaluated_ok _ _ _ _ _ _ _ N E) as [H X]. destruct (proj1 (evaluated t fl CL CDi v b N) H X) as (b0 & E0 & P).
  rewrite E in E0. injection E0 as -> -> ->. tauto.
Qed.

(** ** repetition *)
Definition upd (t : settings) (w : wing) : wing := match w_segs w with [] => with_wet (wetted_area t w) w | _ => w end.
Lemma upd_kept t w : w_tag (upd t w) = w_tag w /\ w_ref (upd t w) = w_ref w /\ w_ar (upd t w) = w_ar w /\ w_cl (upd t w) = w_cl w /\
  w_segs (upd t w) = w_segs w /\ inviscid t (upd t w) = inviscid t w /\ (transitions_fit w -> transitions_fit (upd t w)) /\
  (forall fl, compressibility_drag_wing fl (upd t w) = compressibility_drag_wing fl w).
Proof. unfold upd. destruct (w_segs w) eqn:S; refine (conj _ (conj _ (conj _ (conj _ (conj _ (conj _ (conj _ _))))))); try reflexivity; try exact S; intro H; exact H. Qed.
Lemma upd_again t w : upd t (upd t w) = upd t w.
Proof.
  destruct (upd_kept t w) as (_ & _ & _ & _ & S & _). unfold upd at 1. rewrite S. unfold upd. destruct (w_segs w); [|reflexivity].
  rewrite wetted_again. reflexivity.
Qed.
Lemma upd_cd t fl w : transitions_fit w -> wing_cd t fl (upd t w) = wing_cd t fl w.
Proof.
  intro H. destruct (proj1 (wing_ok t fl w) H) as [[w' e] E]. assert (Q : w' = upd t w).
  { unfold upd. pose proof (wing_entry_kept _ _ _ _ _ E) as (K & Q & P & _). destruct (w_segs w); [rewrite (P eq_refl) in K; exact K|apply Q; discriminate]. }
  rewrite <- Q, (wing_cd_entry _ _ _ _ _ E). apply (wing_cd_entry t fl w' w'). apply (wing_entry_again _ _ _ _ _ E).
Qed.
Lemma total_upd t f v : (forall w, In w (v_wings v) -> f (upd t w) = f w) -> total f (wetted t v) = total f (v_wings v).
Proof. intro H. unfold wetted. rewrite total_map. apply total_ext. exact H. Qed.
Lemma wetted_twice t v : wetted t (with_wings (wetted t v) v) = wetted t v.
Proof. unfold wetted. cbn [with_wings v_wings]. rewrite map_map. apply map_ext. intro w. apply upd_again. Qed.
Lemma largest_upd t l : forall S ar, largest (map (upd t) l) S ar = largest l S ar.
Proof.
  induction l as [|w r IH]; intros S ar; [reflexivity|]. cbn. destruct (upd_kept t w) as (_ & -> & -> & _). rewrite !IH. reflexivity.
Qed.
Lemma tags_wetted t v : tags (with_wings (wetted t v) v) = tags v.
Proof.
  unfold tags. cbn [with_wings v_wings v_fuselages v_nacelles]. f_equal. unfold wetted. rewrite map_map. apply map_ext. intro w. apply (upd_kept t w).
Qed.

(** ** the jump at Mach 0.95 *)
Lemma exp_20 : exp (1 / 20) <= 20 / 19.
Proof.
  assert (H : 1 + - (1 / 20) <= exp (- (1 / 20))) by (left; apply exp_ineq1; lra).
  pose proof (exp_pos (1 / 20)). assert (E : exp (1 / 20) * exp (- (1 / 20)) = 1) by (rewrite <- exp_plus; replace (1 / 20 + - (1 / 20)) with 0 by lra; apply exp_0). nra.
Qed.
Lemma exp_nat n x : exp (INR n * x) = exp x ^ n.
Proof.
  induction n; [cbn; rewrite Rmult_0_l; apply exp_0|]. rewrite S_INR, Rmult_plus_distr_r, Rmult_1_l, exp_plus, IHn. cbn. ring.
Qed.
Lemma ln3_low : 105 / 100 < ln 3.
Proof.
  rewrite <- (ln_exp (105 / 100)). apply ln_increasing; [apply exp_pos|].
  replace (105 / 100) with (INR 21 * (1 / 20)) by (simpl INR; lra). rewrite exp_nat.
  apply Rle_lt_trans with ((20 / 19) ^ 21); [apply pow_incr; split; [left; apply exp_pos|apply exp_20]|lra].
Qed.
Lemma ln3_high : ln 3 < 112 / 100.
Proof.
  rewrite <- (ln_exp (112 / 100)). apply ln_increasing; [lra|].
  replace (112 / 100) with (INR 32 * (112 / 3200)) by (simpl INR; lra). rewrite exp_nat.
  apply Rlt_le_trans with ((1 + 112 / 3200) ^ 32); [lra|]. apply pow_incr. split; [lra|left; apply exp_ineq1; lra].
Qed.
Lemma ln99_high : ln 99 < 42 / 10 * ln 3.
Proof.
  enough (5 * ln 99 < 21 * ln 3) by lra.
  replace (5 * ln 99) with (ln (99 ^ 5)) by (rewrite ln_pow by lra; simpl INR; lra).
  replace (21 * ln 3) with (ln (3 ^ 21)) by (rewrite ln_pow by lra; simpl INR; lra). apply ln_increasing; lra.
Qed.
Lemma ratio_less p q : 0 <= p -> p <= q -> q < 2 -> p / (2 - p) <= q / (2 - q).
Proof.
  intros. apply (Rmult_le_reg_r ((2 - p) * (2 - q))); [apply Rmult_lt_0_compat; lra|].
  replace (p / (2 - p) * ((2 - p) * (2 - q))) with (p * (2 - q)) by (field; lra).
  replace (q / (2 - q) * ((2 - p) * (2 - q))) with (q * (2 - p)) by (field; lra). lra.
Qed.
Lemma jump_above : 21 / 100 < speed_up (6 / 10) (95 / 100).
Proof.
  rewrite (proj2 (speed_up_eq (6 / 10) (95 / 100) ltac:(lra) ltac:(lra))) by lra. unfold gain.
  replace (sqrt (1 - (6 / 10) ^ 2)) with (8 / 10) by (symmetry; replace (1 - (6 / 10) ^ 2) with ((8 / 10) * (8 / 10)) by lra; apply sqrt_square; lra).
  assert (G : 25 / 100 <= gap (8 / 10)).
  { unfold gap, at'. replace (ln (1 + 8 / 10) - ln (1 - 8 / 10)) with (2 * ln 3).
    - pose proof ln3_low. lra.
    - replace (1 + 8 / 10) with (3 * 3 * (1 - 8 / 10)) by lra. rewrite !ln_mult by lra. lra. }
  assert (A : 35 / 100 <= along (8 / 10)) by (unfold along; lra).
  pose proof (along_range (8 / 10) ltac:(lra)). pose proof (ratio_less (35 / 100) (along (8 / 10)) ltac:(lra) A ltac:(lra)). lra.
Qed.
Lemma jump_below M : 945 / 1000 <= M < 95 / 100 -> speed_up (6 / 10) M < 2 / 10.
Proof.
  intros [L U]. rewrite (proj1 (speed_up_eq (6 / 10) M ltac:(lra) ltac:(lra)) U).
  assert (B : 975 / 10000 < 1 - M ^ 2 < 107 / 1000) by nra.
  assert (S : 312 / 1000 < sqrt (1 - M ^ 2)).
  { rewrite <- (sqrt_square (312 / 1000)) by lra. apply sqrt_lt_1; lra. }
  assert (G : gain ((1 - M ^ 2) * (6 / 10) ^ 2) < gain (1 - (98 / 100) ^ 2)) by (apply gain_grows; lra).
  assert (E : gain (1 - (98 / 100) ^ 2) <= 616 / 10000).
  { unfold gain. replace (sqrt (1 - (1 - (98 / 100) ^ 2))) with (98 / 100) by (symmetry; replace (1 - (1 - (98 / 100) ^ 2)) with ((98 / 100) * (98 / 100)) by lra; apply sqrt_square; lra).
    assert (Q : gap (98 / 100) <= 1372 / 1000).
    { unfold gap, at'. replace (ln (1 + 98 / 100) - ln (1 - 98 / 100)) with (ln 99).
      - pose proof ln99_high. pose proof ln3_high. lra.
      - replace (1 + 98 / 100) with (99 * (1 - 98 / 100)) by lra. rewrite ln_mult by lra. lra. }
    assert (A : along (98 / 100) <= 116 / 1000) by (unfold along; lra).
    pose proof (along_range (98 / 100) ltac:(lra)). pose proof (ratio_less (along (98 / 100)) (116 / 1000) ltac:(lra) A ltac:(lra)). lra. }
  apply (Rmult_lt_reg_r (sqrt (1 - M ^ 2))); [lra|]. unfold Rdiv at 1. rewrite Rmult_assoc, Rinv_l by lra. lra.
Qed.
