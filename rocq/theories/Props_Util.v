(** * C39, C40, C51: blender, soft maximum, table look-up, sampling *)
From Coq Require Import Reals List Bool Arith String Lra Lia Sorted Permutation.
From Verif Require Import M_Opt P_Opt M_Util S_Util P_Atmo P_Util.
Import ListNotations.
Local Open Scope R_scope.
Local Open Scope list_scope.

(** ** C39: cubic blender *)
Lemma continuity_pt_ext : forall f g x, (forall t, f t = g t) -> continuity_pt f x -> continuity_pt g x.
Proof. intros f g x E C. apply (continuity_pt_locally_ext f g 1); [lra|auto|assumption]. Qed.
Theorem C39_ends : forall s e x, s < e -> (x <= s -> blend s e x = 1) /\ (e <= x -> blend s e x = 0).
Proof.
  intros s e x H. rewrite blend_shape. pose proof (eta_0 s e ltac:(lra)). pose proof (eta_1 s e ltac:(lra)). split; intro Q.
  - apply shape_low. pose proof (eta_le s e x s H Q). lra.
  - apply shape_high. pose proof (eta_le s e e x H Q). lra.
Qed.
Theorem C39_range : forall s e x, 0 <= blend s e x <= 1.
Proof. intros. rewrite blend_shape. apply shape_range. Qed.
Theorem C39_falls : forall s e x y, s < e -> s <= x -> x < y -> y <= e -> blend s e y < blend s e x.
Proof.
  intros s e x y H H1 H2 H3. rewrite !blend_shape.
  pose proof (eta_0 s e ltac:(lra)). pose proof (eta_1 s e ltac:(lra)).
  pose proof (eta_le s e s x H H1). pose proof (eta_order s e x y H H2). pose proof (eta_le s e y e H H3).
  rewrite !shape_mid by lra. apply poly_down; lra.
Qed.
(** it has a slope everywhere, which vanishes at both ends and outside *)
Theorem C39_smooth : forall s e, s < e -> exists slope, (forall x, derivable_pt_lim (blend s e) x (slope x)) /\
  (forall x, x <= s \/ e <= x -> slope x = 0) /\ (forall x, s < x < e -> slope x < 0) /\ continuity slope.
Proof.
  intros s e H. exists (fun x => shape' (eta_transform s e x) * / (e - s)). split; [|split; [|split]].
  - intro x. apply blend_slope. lra.
  - intros x Q. pose proof (eta_0 s e ltac:(lra)) as E0. pose proof (eta_1 s e ltac:(lra)) as E1. unfold shape'. destruct Q as [Q|Q].
    + pose proof (eta_le s e x s H Q). destruct (Rltb (eta_transform s e x) 0) eqn:E; [ring|]. apply Rltb_false in E.
      rewrite (proj2 (Rltb_false 1 (eta_transform s e x))) by lra. replace (eta_transform s e x) with 0 by lra. ring.
    + pose proof (eta_le s e e x H Q). rewrite (proj2 (Rltb_false (eta_transform s e x) 0)) by lra.
      destruct (Rltb 1 (eta_transform s e x)) eqn:E; [ring|]. apply Rltb_false in E. replace (eta_transform s e x) with 1 by lra. ring.
  - intros x [Q1 Q2]. pose proof (eta_0 s e ltac:(lra)) as E0. pose proof (eta_1 s e ltac:(lra)) as E1.
    pose proof (eta_order s e s x H Q1). pose proof (eta_order s e x e H Q2). unfold shape'.
    rewrite (proj2 (Rltb_false (eta_transform s e x) 0)) by lra. rewrite (proj2 (Rltb_false 1 (eta_transform s e x))) by lra.
    set (t := eta_transform s e x) in *. assert (6 * (t * t - t) < 0) by nra.
    assert (0 < / (e - s)) by (apply Rinv_0_lt_compat; lra). nra.
  - (* shape' e = 6 (m^2 - m) with m the value clamped to [0,1] *)
    assert (Q : forall t, shape' t = 6 * (clamp 0 1 t * clamp 0 1 t - clamp 0 1 t)).
    { intro t. unfold shape'. destruct (Rltb t 0) eqn:E; [apply Rltb_true in E; rewrite clamp_low by lra; ring|].
      destruct (Rltb 1 t) eqn:F; [apply Rltb_true in F; rewrite clamp_high by lra; ring|].
      apply Rltb_false in E, F. rewrite clamp_in by lra. ring. }
    assert (CC : continuity (clamp 0 1)).
    { intros t eps He. exists eps. split; [assumption|]. intros y [_ Hy]. cbn in *. unfold R_dist in *.
      destruct (Rle_lt_dec t y) as [L|L].
      - pose proof (clamp_le 0 1 t y L). pose proof (clamp_lipschitz 0 1 t y ltac:(lra) L).
        rewrite Rabs_right by lra. rewrite Rabs_right in Hy by lra. lra.
      - pose proof (clamp_le 0 1 y t ltac:(lra)). pose proof (clamp_lipschitz 0 1 y t ltac:(lra) ltac:(lra)).
        rewrite Rabs_left1 by lra. rewrite Rabs_left in Hy by lra. lra. }
    assert (CE : continuity (eta_transform s e)).
    { intro t. apply derivable_continuous_pt. exists (/ (e - s)).
      apply ext_of with (fun x => - (s / (e - s)) + / (e - s) * x); [intro; apply eta_affine; lra|apply affine_of]. }
    assert (CT : continuity (comp (clamp 0 1) (eta_transform s e))).
    { intro t. apply continuity_pt_comp; [apply CE|apply CC]. }
    intro x. apply continuity_pt_ext with (mult_real_fct (6 * / (e - s)) (minus_fct (mult_fct (comp (clamp 0 1) (eta_transform s e)) (comp (clamp 0 1) (eta_transform s e))) (comp (clamp 0 1) (eta_transform s e)))).
    + intro t. unfold mult_real_fct, minus_fct, mult_fct, comp. rewrite Q. ring.
    + apply continuity_pt_scal. apply continuity_pt_minus; [apply continuity_pt_mult|]; apply CT.
Qed.
(** turned round, or with the ends exchanged, it is the complement *)
Theorem C39_symmetric : forall s e x, s <> e ->
  blend s e x + blend s e (s + e - x) = 1 /\ blend s e x + blend e s x = 1.
Proof.
  intros s e x N. rewrite !blend_shape. split.
  - replace (eta_transform s e (s + e - x)) with (1 - eta_transform s e x) by (unfold eta_transform; field; lra). apply shape_reflect.
  - replace (eta_transform e s x) with (1 - eta_transform s e x) by (unfold eta_transform; field; lra). apply shape_reflect.
Qed.
Example C39_case : blend 1 3 2 = 1 / 2 /\ blend 1 3 0 = 1 /\ blend 1 3 4 = 0.
Proof.
  split; [|split; [apply C39_ends; lra|apply C39_ends; lra]].
  rewrite blend_shape. replace (eta_transform 1 3 2) with (1 / 2) by (unfold eta_transform; field).
  rewrite shape_mid by lra. unfold poly. field.
Qed.

(** ** C39: soft maximum *)
(** it is the logarithm of the sum of the exponentials *)
Theorem C39_soft_max : forall x y, exp (soft_max x y) = exp x + exp y.
Proof. intros. rewrite soft_max_log. apply exp_ln. pose proof (exp_pos x). pose proof (exp_pos y). lra. Qed.
Theorem C39_soft_bounds : forall x y, Rmax x y < soft_max x y <= Rmax x y + ln 2 /\ soft_max x y = soft_max y x /\
  (soft_max x y = Rmax x y + ln 2 <-> x = y).
Proof.
  intros x y.
  assert (A : forall x y, x <= y -> y < soft_max x y <= y + ln 2 /\ (soft_max x y = y + ln 2 <-> x = y)).
  { clear. intros x y H. rewrite soft_max_log. pose proof (exp_pos x) as Px. pose proof (exp_pos y) as Py.
    assert (E2 : y + ln 2 = ln (exp y * 2)) by (rewrite ln_mult, ln_exp by lra; ring).
    assert (LE : exp x <= exp y) by (destruct H as [H|H]; [left; apply exp_increasing; assumption|right; rewrite H; reflexivity]).
    split; [split|split].
    - rewrite <- (ln_exp y) at 1. apply ln_increasing; lra.
    - rewrite E2. destruct (Rle_lt_or_eq_dec _ _ LE) as [L|L]; [left; apply ln_increasing; lra|right; f_equal; lra].
    - intro Q. rewrite E2 in Q. apply ln_inv in Q; [|lra|lra]. apply exp_inv. lra.
    - intros ->. rewrite E2. f_equal. ring. }
  assert (SY : soft_max x y = soft_max y x) by (rewrite !soft_max_log; f_equal; ring).
  destruct (Rle_lt_dec x y) as [H|H].
  - rewrite Rmax_right by assumption. destruct (A x y H) as [B C]. tauto.
  - rewrite Rmax_left by lra. rewrite SY. destruct (A y x ltac:(lra)) as [B C]. split; [exact B|]. split; [reflexivity|].
    rewrite C. split; intro; lra.
Qed.
(** and grows with each argument *)
Theorem C39_soft_up : forall x x' y, x < x' -> soft_max x y < soft_max x' y.
Proof.
  intros x x' y H. rewrite !soft_max_log. pose proof (exp_increasing x x' H). pose proof (exp_pos x). pose proof (exp_pos y).
  apply ln_increasing; lra.
Qed.
Example C39_soft_case : soft_max 3 3 = 3 + ln 2.
Proof. destruct (C39_soft_bounds 3 3) as (_ & _ & E). rewrite (proj2 E eq_refl). rewrite Rmax_left by lra. reflexivity. Qed.

(** ** C40: table look-up *)
(** the result is the bilinear surface of whichever cell holds the point; on an edge all agree *)
Theorem C40_cell : forall x y xp yp zp i j, grid xp -> grid yp ->
  (S i < List.length xp)%nat -> (S j < List.length yp)%nat ->
  nth i xp 0 <= x <= nth (S i) xp 0 -> nth j yp 0 <= y <= nth (S j) yp 0 ->
  interp2d x y xp yp zp None = cell xp yp zp i j x y.
Proof. exact interp2d_any_cell. Qed.
(** every point inside the table is in a cell, and the result is between the values at its corners *)
Theorem C40_between : forall x y xp yp zp, grid xp -> grid yp -> inside xp x -> inside yp y ->
  exists i j, (S i < List.length xp)%nat /\ (S j < List.length yp)%nat /\
    nth i xp 0 <= x <= nth (S i) xp 0 /\ nth j yp 0 <= y <= nth (S j) yp 0 /\
    forall m M, m <= zp i j <= M -> m <= zp (S i) j <= M -> m <= zp i (S j) <= M -> m <= zp (S i) (S j) <= M ->
      m <= interp2d x y xp yp zp None <= M.
Proof.
  intros x y xp yp zp GX GY HX HY. exists (index xp x), (index yp y).
  destruct (index_bound xp x GX) as [BX _]. destruct (index_bound yp y GY) as [BY _].
  pose proof (inside_index xp x GX HX) as IX. pose proof (inside_index yp y GY HY) as IY.
  split; [assumption|]. split; [assumption|]. split; [assumption|]. split; [assumption|].
  intros m M A B C D. rewrite interp2d_cell by assumption. apply bilinear_bounds; try assumption.
  - apply sorted_nth; [apply GX|lia|assumption].
  - apply sorted_nth; [apply GY|lia|assumption].
Qed.
(** the table is reproduced *)
Theorem C40_nodes : forall xp yp zp i j, grid xp -> grid yp -> (i < List.length xp)%nat -> (j < List.length yp)%nat ->
  interp2d (nth i xp 0) (nth j yp 0) xp yp zp None = zp i j.
Proof.
  intros xp yp zp i j GX GY HI HJ.
  assert (CX : exists i0 s, (S i0 < List.length xp)%nat /\ nth i0 xp 0 <= nth i xp 0 <= nth (S i0) xp 0 /\ nth i0 xp 0 < nth (S i0) xp 0 /\
    ((i = i0 /\ s = 0) \/ (i = S i0 /\ s = 1))).
  { destruct GX as [U L]. destruct (Nat.eq_dec i 0) as [->|N].
    - exists 0%nat, 0. pose proof (sorted_nth xp 0 1 U ltac:(lia) ltac:(lia)). split; [lia|]. split; [lra|]. split; [assumption|left; auto].
    - exists (i - 1)%nat, 1. replace (S (i - 1)) with i by lia. pose proof (sorted_nth xp (i - 1) i U ltac:(lia) ltac:(lia)).
      split; [lia|]. split; [lra|]. split; [assumption|right; auto]. }
  assert (CY : exists i0 s, (S i0 < List.length yp)%nat /\ nth i0 yp 0 <= nth j yp 0 <= nth (S i0) yp 0 /\ nth i0 yp 0 < nth (S i0) yp 0 /\
    ((j = i0 /\ s = 0) \/ (j = S i0 /\ s = 1))).
  { destruct GY as [U L]. destruct (Nat.eq_dec j 0) as [->|N].
    - exists 0%nat, 0. pose proof (sorted_nth yp 0 1 U ltac:(lia) ltac:(lia)). split; [lia|]. split; [lra|]. split; [assumption|left; auto].
    - exists (j - 1)%nat, 1. replace (S (j - 1)) with j by lia. pose proof (sorted_nth yp (j - 1) j U ltac:(lia) ltac:(lia)).
      split; [lia|]. split; [lra|]. split; [assumption|right; auto]. }
  destruct CX as (i0 & s & HI0 & BX & OX & EX). destruct CY as (j0 & t & HJ0 & BY & OY & EY).
  rewrite (interp2d_any_cell _ _ xp yp zp i0 j0 GX GY HI0 HJ0 BX BY). unfold cell, bilinear. cbv zeta.
  assert (ES : (nth i xp 0 - nth i0 xp 0) / (nth (S i0) xp 0 - nth i0 xp 0) = s).
  { destruct EX as [[-> ->]|[-> ->]]; field; lra. }
  assert (ET : (nth j yp 0 - nth j0 yp 0) / (nth (S j0) yp 0 - nth j0 yp 0) = t).
  { destruct EY as [[-> ->]|[-> ->]]; field; lra. }
  rewrite ES, ET. destruct EX as [[-> ->]|[-> ->]], EY as [[-> ->]|[-> ->]]; ring.
Qed.
(** tables of bilinear functions are continued exactly, inside and outside *)
Theorem C40_exact : forall a b c d xp yp zp x y, grid xp -> grid yp ->
  (forall i j, (i < List.length xp)%nat -> (j < List.length yp)%nat ->
     zp i j = a + b * nth i xp 0 + c * nth j yp 0 + d * nth i xp 0 * nth j yp 0) ->
  interp2d x y xp yp zp None = a + b * x + c * y + d * x * y.
Proof.
  intros a b c d xp yp zp x y GX GY H. rewrite interp2d_cell by assumption.
  destruct (index_bound xp x GX) as [BX _]. destruct (index_bound yp y GY) as [BY _].
  pose proof (sorted_nth xp _ (S (index xp x)) (proj1 GX) (Nat.lt_succ_diag_r _) BX).
  pose proof (sorted_nth yp _ (S (index yp y)) (proj1 GY) (Nat.lt_succ_diag_r _) BY).
  unfold cell, bilinear. cbv zeta. rewrite !H by lia. field. lra.
Qed.
(** outside the table the surface of the nearest cell is continued; nothing is cut off *)
Definition nearest (xp : list R) (x : R) (i : nat) : Prop :=
  (S i < List.length xp)%nat /\ (i = 0%nat \/ nth i xp 0 <= x) /\ (S (S i) = List.length xp \/ x < nth (S i) xp 0).
Theorem C40_outside : forall x y xp yp zp i j, grid xp -> grid yp -> nearest xp x i -> nearest yp y j ->
  interp2d x y xp yp zp None = cell xp yp zp i j x y.
Proof.
  assert (A : forall xp x i, grid xp -> nearest xp x i -> index xp x = i).
  { intros xp x i G (H & H1 & H2). pose proof (searchsorted_le xp x). destruct G as [U L]. unfold index, clip.
    assert (Q1 : i = 0%nat \/ (i < searchsorted_right xp x)%nat).
    { destruct H1 as [H1|H1]; [left; assumption|right; apply filter_below; [assumption|lia|assumption]]. }
    assert (Q2 : S (S i) = List.length xp \/ (searchsorted_right xp x <= S i)%nat).
    { destruct H2 as [H2|H2]; [left; assumption|right].
      destruct (le_lt_dec (searchsorted_right xp x) (S i)) as [|W]; [assumption|exfalso]. apply filter_below in W; [lra|assumption|assumption]. }
    lia. }
  intros x y xp yp zp i j GX GY NX NY. rewrite interp2d_cell by assumption.
  rewrite (A xp x i GX NX), (A yp y j GY NY). reflexivity.
Qed.
(** unless a fill value is given: then that is returned, and exactly there *)
Theorem C40_fill : forall x y xp yp zp f, grid xp -> grid yp ->
  (inside xp x /\ inside yp y -> interp2d x y xp yp zp (Some f) = interp2d x y xp yp zp None) /\
  (~ (inside xp x /\ inside yp y) -> interp2d x y xp yp zp (Some f) = f).
Proof.
  intros x y xp yp zp f GX GY.
  assert (LX : last xp 0 = nth (List.length xp - 1) xp 0) by (apply last_nth; destruct GX as [_ L]; destruct xp; [cbn in L; lia|discriminate]).
  assert (LY : last yp 0 = nth (List.length yp - 1) yp 0) by (apply last_nth; destruct GY as [_ L]; destruct yp; [cbn in L; lia|discriminate]).
  unfold interp2d, inside, at_. cbv zeta. rewrite LX, LY. split.
  - intros [[A B] [C D]]. rewrite !(proj2 (Rltb_false _ _)) by lra. reflexivity.
  - intro N. destruct (Rltb x (nth 0 xp 0)) eqn:E1; [reflexivity|]. destruct (Rltb (nth (List.length xp - 1) xp 0) x) eqn:E2; [reflexivity|].
    destruct (Rltb y (nth 0 yp 0)) eqn:E3; [reflexivity|]. destruct (Rltb (nth (List.length yp - 1) yp 0) y) eqn:E4; [reflexivity|].
    apply Rltb_false in E1, E2, E3, E4. exfalso. apply N. lra.
Qed.
Example C40_case : let xp := [0; 1; 3] in let yp := [0; 2] in let zp i j := INR i * 10 + INR j in
  grid xp /\ grid yp /\ interp2d 2 1 xp yp zp None = 155 / 10 /\ interp2d 5 1 xp yp zp None = 305 / 10.
Proof.
  intros xp yp zp.
  assert (GX : grid xp) by (split; [repeat (constructor; try lra)|cbn; lia]).
  assert (GY : grid yp) by (split; [repeat (constructor; try lra)|cbn; lia]).
  split; [assumption|]. split; [assumption|]. split.
  - rewrite (C40_cell 2 1 xp yp zp 1 0 GX GY) by (cbn; lra || lia). unfold cell, bilinear, xp, yp, zp. cbn. field.
  - rewrite (C40_outside 5 1 xp yp zp 1 0 GX GY); [unfold cell, bilinear, xp, yp, zp; cbn; field| |]; unfold nearest; cbn; repeat split; try lia; try lra.
Qed.

(** ** C51: Latin hypercube sampling *)
(** whatever is drawn and however the columns are shuffled, each column has one sample in each of
    the equal slices between the bounds *)
Theorem C51_slices : forall n samples bounds criterion rand shuffle cols,
  (0 < samples)%nat -> (forall k j, 0 <= rand k j < 1) -> (forall j l, Permutation (shuffle j l) l) ->
  latin_hypercube n samples bounds criterion rand shuffle = Some cols ->
  List.length cols = n /\
  forall j lo hi, (j < n)%nat -> (lo, hi) = match bounds with None => (0, 1) | Some (l, u) => (l j, u j) end -> lo < hi ->
    let col := nth j cols [] in
    List.length col = samples /\
    (forall k, (k < samples)%nat -> exists! i, (i < samples)%nat /\ slice lo hi samples k (nth i col 0)) /\
    (forall v, In v col -> lo <= v < hi).
Proof.
  intros n samples bounds criterion rand shuffle cols M HR HS E. rewrite latin_columns in E.
  destruct (String.eqb criterion "random" || String.eqb criterion "center"); [|discriminate]. injection E as <-.
  split; [rewrite map_length, seq_length; reflexivity|]. intros j lo hi Hj EB L col.
  set (raw := shuffle j (map (cube_at samples criterion rand j) (seq 0 samples))).
  assert (EC : col = map (unscale bounds j) raw).
  { unfold col. rewrite nth_map_seq by assumption. reflexivity. }
  destruct (one_per_slice samples (cube_at samples criterion rand j) raw M) as [LR OS].
  { intros. apply cube_slice; assumption. }
  { apply HS. }
  assert (NV : forall i, (i < samples)%nat -> nth i col 0 = unscale bounds j (nth i raw 0)).
  { intros i Hi. rewrite EC. rewrite nth_indep with (d' := unscale bounds j 0) by (rewrite map_length; lia). apply map_nth. }
  split; [rewrite EC, map_length; assumption|]. split.
  - intros k Hk. destruct (OS k Hk) as (i & [Hi Si] & U). exists i. split.
    + split; [assumption|]. rewrite NV by assumption. apply (unscale_slice bounds j samples k _ lo hi M EB L). assumption.
    + intros i' [Hi' Si']. apply U. split; [assumption|]. rewrite NV in Si' by assumption.
      apply (unscale_slice bounds j samples k _ lo hi M EB L). assumption.
  - intros v I. rewrite EC in I. apply in_map_iff in I. destruct I as (w & <- & I).
    apply (Permutation_in _ (HS j _)) in I. apply in_map_iff in I. destruct I as (k & <- & B). apply in_seq in B.
    assert (SL : slice lo hi samples k (unscale bounds j (cube_at samples criterion rand j k))).
    { apply (unscale_slice bounds j samples k _ lo hi M EB L). apply cube_slice; assumption. }
    destruct SL as [S1 S2]. assert (Mp : 0 < INR samples) by (apply lt_0_INR; assumption).
    assert (W : 0 < (hi - lo) / INR samples) by (apply Rdiv_lt_0_compat; lra).
    assert (0 <= INR k) by apply pos_INR. assert (INR (S k) <= INR samples) by (apply le_INR; lia).
    split; [assert (0 <= INR k * ((hi - lo) / INR samples)) by (apply Rmult_le_pos; lra); lra|].
    assert (INR (S k) * ((hi - lo) / INR samples) <= INR samples * ((hi - lo) / INR samples)) by (apply Rmult_le_compat_r; lra).
    assert (INR samples * ((hi - lo) / INR samples) = hi - lo) by (field; lra). lra.
Qed.
(** with "center" the samples are the middles of the slices *)
Theorem C51_center : forall n samples bounds rand shuffle j, (0 < samples)%nat -> (forall j l, Permutation (shuffle j l) l) -> (j < n)%nat ->
  exists cols, latin_hypercube n samples bounds "center" rand shuffle = Some cols /\
    forall lo hi, (lo, hi) = match bounds with None => (0, 1) | Some (l, u) => (l j, u j) end ->
    Permutation (nth j cols []) (map (fun k => lo + (INR k + 1 / 2) * ((hi - lo) / INR samples)) (seq 0 samples)).
Proof.
  intros n samples bounds rand shuffle j M HS Hj. eexists. split; [rewrite latin_columns; reflexivity|].
  intros lo hi EB. rewrite nth_map_seq by assumption.
  eapply Permutation_trans; [apply Permutation_map, HS|]. rewrite map_map. apply Permutation_refl'. apply map_ext. intro k.
  assert (Mp : 0 < INR samples) by (apply lt_0_INR; assumption).
  unfold cube_at. cbn [String.eqb Ascii.eqb Bool.eqb]. destruct bounds as [[l u]|]; cbn [unscale]; injection EB as -> ->; field; lra.
Qed.
(** any other criterion is refused *)
Theorem C51_criterion : forall n samples bounds criterion rand shuffle,
  latin_hypercube n samples bounds criterion rand shuffle = None <-> criterion <> "random"%string /\ criterion <> "center"%string.
Proof.
  intros. rewrite latin_columns. destruct (String.eqb_spec criterion "random"); destruct (String.eqb_spec criterion "center"); cbn; split; intro H; try discriminate; try tauto.
Qed.
Example C51_case : exists cols, latin_hypercube 2 2 None "center" (fun _ _ => 0) (fun _ l => rev l) = Some cols
  /\ cols = [[3 / 4; 1 / 4]; [3 / 4; 1 / 4]].
Proof. eexists. split; [reflexivity|]. cbn. repeat (f_equal; try (field; fail)); try field. Qed.

Print Assumptions C39_ends.
Print Assumptions C39_range.
Print Assumptions C39_falls.
Print Assumptions C39_smooth.
Print Assumptions C39_symmetric.
Print Assumptions C39_soft_max.
Print Assumptions C39_soft_bounds.
Print Assumptions C39_soft_up.
Print Assumptions C40_cell.
Print Assumptions C40_between.
Print Assumptions C40_nodes.
Print Assumptions C40_exact.
Print Assumptions C40_outside.
Print Assumptions C40_fill.
Print Assumptions C51_slices.
Print Assumptions C51_center.
Print Assumptions C51_criterion.
