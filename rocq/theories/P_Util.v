(** * Numerical utilities: proofs *)
From Coq Require Import Reals List Bool Arith String Lra Lia Sorted Permutation.
From Verif Require Import M_Opt P_Opt M_Util S_Util P_Atmo.
Import ListNotations.
Local Open Scope R_scope.
Local Open Scope list_scope.

(** ** blender *)
Definition poly (e : R) : R := 2 * e * e * e - 3 * e * e + 1.
Definition shape (e : R) : R := if Rltb e 0 then 1 else if Rltb 1 e then 0 else poly e.
Lemma blend_shape : forall s e x, blend s e x = shape (eta_transform s e x).
Proof.
  intros. unfold blend, shape, poly. cbv zeta.
  destruct (Rltb (eta_transform s e x) 0) eqn:E; [|reflexivity].
  apply Rltb_true in E. rewrite (proj2 (Rltb_false 1 (eta_transform s e x))) by lra. reflexivity.
Qed.
Lemma shape_low : forall e, e <= 0 -> shape e = 1.
Proof.
  intros e H. unfold shape. destruct (Rltb e 0) eqn:E; [reflexivity|]. apply Rltb_false in E.
  assert (e = 0) by lra. subst. rewrite (proj2 (Rltb_false 1 0)) by lra. unfold poly. ring.
Qed.
Lemma shape_high : forall e, 1 <= e -> shape e = 0.
Proof.
  intros e H. unfold shape. rewrite (proj2 (Rltb_false e 0)) by lra.
  destruct (Rltb 1 e) eqn:E; [reflexivity|]. apply Rltb_false in E. assert (e = 1) by lra. subst. unfold poly. ring.
Qed.
Lemma shape_mid : forall e, 0 <= e <= 1 -> shape e = poly e.
Proof. intros e H. unfold shape. rewrite (proj2 (Rltb_false e 0)) by lra. rewrite (proj2 (Rltb_false 1 e)) by lra. reflexivity. Qed.
Lemma poly_down : forall x y, 0 <= x -> x < y -> y <= 1 -> poly y < poly x.
Proof.
  intros x y H1 H2 H3. unfold poly.
  assert (E : 2 * x * x * x - 3 * x * x + 1 - (2 * y * y * y - 3 * y * y + 1) = (y - x) * (3 * (x + y) - 2 * (x * x + x * y + y * y))) by ring.
  assert (0 < 3 * (x + y) - 2 * (x * x + x * y + y * y)).
  { assert (0 < y) by lra. assert (x * x <= x) by nra. assert (y * y <= y) by nra.
    assert (x * y <= x) by nra. assert (x * y <= y) by nra.
    destruct (Req_EM_T x 0) as [->|N]; [|assert (0 < x) by lra; assert (x * y < y) by nra; nra].
    assert (y * y <= y) by nra. nra. }
  assert (0 < (y - x) * (3 * (x + y) - 2 * (x * x + x * y + y * y))) by (apply Rmult_lt_0_compat; lra). lra.
Qed.
Lemma shape_range : forall e, 0 <= shape e <= 1.
Proof.
  intro e. destruct (Rle_lt_dec e 0) as [H|H]; [rewrite shape_low by assumption; lra|].
  destruct (Rle_lt_dec 1 e) as [G|G]; [rewrite shape_high by assumption; lra|].
  rewrite shape_mid by lra. pose proof (poly_down 0 e ltac:(lra) H ltac:(lra)). pose proof (poly_down e 1 ltac:(lra) G ltac:(lra)).
  unfold poly in *. lra.
Qed.
Lemma shape_reflect : forall e, shape e + shape (1 - e) = 1.
Proof.
  intro e. destruct (Rle_lt_dec e 0) as [H|H]; [rewrite shape_low, shape_high by lra; lra|].
  destruct (Rle_lt_dec 1 e) as [G|G]; [rewrite shape_high, shape_low by lra; lra|].
  rewrite !shape_mid by lra. unfold poly. ring.
Qed.
Lemma glue : forall f g k x l, (forall y, y <= x -> f y = g y) -> (forall y, x <= y -> f y = k y) ->
  derivable_pt_lim g x l -> derivable_pt_lim k x l -> derivable_pt_lim f x l.
Proof.
  intros f g k x l L U Dg Dk eps He. destruct (Dg eps He) as (d1 & H1). destruct (Dk eps He) as (d2 & H2).
  assert (P : 0 < Rmin d1 d2) by (apply Rmin_pos; apply cond_pos). exists (mkposreal _ P). intros h N Hh. cbn in Hh.
  pose proof (Rmin_l d1 d2). pose proof (Rmin_r d1 d2).
  destruct (Rle_lt_dec h 0) as [Hn|Hp].
  - rewrite !L by lra. apply H1; [assumption|lra].
  - rewrite !U by lra. apply H2; [assumption|lra].
Qed.
Lemma poly_slope : forall e, derivable_pt_lim poly e (6 * (e * e - e)).
Proof.
  intro e. apply ext_of with (fun y => 2 * y ^ 3 + (- 3 * y ^ 2 + 1 * y ^ 0)); [intro y; unfold poly; ring|].
  eapply slope_eq.
  - apply (derivable_pt_lim_plus (fun y => 2 * y ^ 3)); [apply scale_of, derivable_pt_lim_pow|].
    apply (derivable_pt_lim_plus (fun y => -3 * y ^ 2)); [apply scale_of, derivable_pt_lim_pow|].
    apply scale_of, derivable_pt_lim_pow.
  - cbn. ring.
Qed.
Definition shape' (e : R) : R := if Rltb e 0 then 0 else if Rltb 1 e then 0 else 6 * (e * e - e).
Lemma shape_slope : forall e, derivable_pt_lim shape e (shape' e).
Proof.
  intro e. unfold shape'. destruct (Rltb e 0) eqn:E0; [|destruct (Rltb 1 e) eqn:E1].
  - apply Rltb_true in E0. assert (P : 0 < - e) by lra.
    apply derivable_local with (fun _ => 1) (mkposreal _ P); [|apply derivable_pt_lim_const].
    intros y Hy. cbn in Hy. apply Rabs_def2 in Hy. apply shape_low. lra.
  - apply Rltb_true in E1. assert (P : 0 < e - 1) by lra.
    apply derivable_local with (fun _ => 0) (mkposreal _ P); [|apply derivable_pt_lim_const].
    intros y Hy. cbn in Hy. apply Rabs_def2 in Hy. apply shape_high. lra.
  - apply Rltb_false in E0, E1.
    destruct (Req_EM_T e 0) as [->|N0]; [|destruct (Req_EM_T e 1) as [->|N1]].
    + assert (P : 0 < 1) by lra.
      apply derivable_local with (fun y => if Rltb y 0 then 1 else poly y) (mkposreal _ P).
      * intros y Hy. cbn in Hy. apply Rabs_def2 in Hy. unfold shape. destruct (Rltb y 0); [reflexivity|].
        rewrite (proj2 (Rltb_false 1 y)) by lra. reflexivity.
      * apply glue with (fun _ => 1) poly.
        -- intros y Hy. destruct (Rltb y 0) eqn:E; [reflexivity|]. apply Rltb_false in E. assert (y = 0) by lra. subst. unfold poly. ring.
        -- intros y Hy. rewrite (proj2 (Rltb_false y 0)) by lra. reflexivity.
        -- eapply slope_eq; [apply derivable_pt_lim_const|ring].
        -- apply poly_slope.
    + assert (P : 0 < 1) by lra.
      apply derivable_local with (fun y => if Rltb 1 y then 0 else poly y) (mkposreal _ P).
      * intros y Hy. cbn in Hy. apply Rabs_def2 in Hy. unfold shape. rewrite (proj2 (Rltb_false y 0)) by lra. reflexivity.
      * apply glue with poly (fun _ => 0).
        -- intros y Hy. rewrite (proj2 (Rltb_false 1 y)) by lra. reflexivity.
        -- intros y Hy. destruct (Rltb 1 y) eqn:E; [reflexivity|]. apply Rltb_false in E. assert (y = 1) by lra. subst. unfold poly. ring.
        -- apply poly_slope.
        -- eapply slope_eq; [apply derivable_pt_lim_const|ring].
    + assert (P : 0 < Rmin e (1 - e)) by (apply Rmin_pos; lra).
      apply derivable_local with poly (mkposreal _ P); [|apply poly_slope].
      intros y Hy. cbn in Hy. apply Rabs_def2 in Hy. pose proof (Rmin_l e (1 - e)). pose proof (Rmin_r e (1 - e)).
      apply shape_mid. lra.
Qed.
Lemma eta_affine : forall s e x, s <> e -> eta_transform s e x = - (s / (e - s)) + / (e - s) * x.
Proof. intros. unfold eta_transform. field. lra. Qed.
Lemma blend_slope : forall s e x, s <> e ->
  derivable_pt_lim (blend s e) x (shape' (eta_transform s e x) * / (e - s)).
Proof.
  intros s e x N. apply ext_of with (fun y => shape (- (s / (e - s)) + / (e - s) * y)).
  - intro y. rewrite blend_shape, eta_affine by assumption. reflexivity.
  - rewrite eta_affine by assumption.
    apply (derivable_pt_lim_comp (fun y => - (s / (e - s)) + / (e - s) * y) shape); [apply affine_of|apply shape_slope].
Qed.
Lemma eta_order : forall s e x y, s < e -> x < y -> eta_transform s e x < eta_transform s e y.
Proof. intros. unfold eta_transform. apply Rmult_lt_compat_r; [apply Rinv_0_lt_compat; lra|lra]. Qed.
Lemma eta_0 : forall s e, s <> e -> eta_transform s e s = 0.
Proof. intros. unfold eta_transform, Rdiv. ring. Qed.
Lemma eta_1 : forall s e, s <> e -> eta_transform s e e = 1.
Proof. intros. unfold eta_transform. field. lra. Qed.
Lemma eta_le : forall s e x y, s < e -> x <= y -> eta_transform s e x <= eta_transform s e y.
Proof. intros. unfold eta_transform. apply Rmult_le_compat_r; [left; apply Rinv_0_lt_compat; lra|lra]. Qed.

(** ** soft max *)
Lemma soft_max_log : forall x y, soft_max x y = ln (exp x + exp y).
Proof.
  assert (A : forall x y, x <= y -> y + ln (1 + exp (x - y)) = ln (exp x + exp y)).
  { intros x y H. rewrite <- (ln_exp y) at 1. rewrite <- ln_mult.
    - f_equal. rewrite Rmult_plus_distr_l, Rmult_1_r, <- exp_plus. replace (y + (x - y)) with x by ring. ring.
    - apply exp_pos.
    - pose proof (exp_pos (x - y)). lra. }
  intros x y. unfold soft_max. cbv zeta. destruct (Rle_lt_dec x y) as [H|H].
  - rewrite Rmax_right, Rmin_left by lra. apply A. assumption.
  - rewrite Rmax_left, Rmin_right by lra. rewrite A by lra. f_equal. ring.
Qed.

(** ** tables *)
Lemma filter_below : forall xp x, StronglySorted Rlt xp -> forall i, (i < List.length xp)%nat ->
  ((i < searchsorted_right xp x)%nat <-> nth i xp 0 <= x).
Proof.
  unfold searchsorted_right. induction xp as [|v xp IH]; intros x U i Hi; [cbn in Hi; lia|].
  inversion U; subst. cbn [filter]. destruct (Rltb x v) eqn:E.
  - apply Rltb_true in E.
    assert (F : filter (fun v => negb (Rltb x v)) xp = []).
    { clear IH U Hi H1. induction xp as [|w xp IH]; [reflexivity|]. inversion H2; subst. cbn.
      rewrite (proj2 (Rltb_true x w)) by lra. apply IH. assumption. }
    cbn [negb]. rewrite F. cbn. split; [lia|]. intro Q. exfalso. destruct i; cbn in Q; [lra|].
    rewrite Forall_forall in H2. cbn in Hi. assert (In (nth i xp 0) xp) by (apply nth_In; lia). specialize (H2 _ H). lra.
  - apply Rltb_false in E. cbn [negb List.length]. destruct i as [|i].
    + cbn. split; [intros _; assumption|lia].
    + cbn [nth]. cbn in Hi. rewrite <- (IH x H1 i) by lia. lia.
Qed.
Lemma searchsorted_le : forall xp x, (searchsorted_right xp x <= List.length xp)%nat.
Proof.
  intros. unfold searchsorted_right. induction xp as [|v xp IH]; cbn; [lia|]. destruct (negb (Rltb x v)); cbn; lia.
Qed.
Lemma sorted_nth : forall xp i j, StronglySorted Rlt xp -> (i < j)%nat -> (j < List.length xp)%nat -> nth i xp 0 < nth j xp 0.
Proof.
  induction xp as [|v xp IH]; intros i j U L H; [cbn in H; lia|]. inversion U; subst. destruct j as [|j]; [lia|].
  cbn in H. destruct i as [|i]; cbn [nth].
  - rewrite Forall_forall in H3. apply H3. apply nth_In. lia.
  - apply IH; [assumption|lia|lia].
Qed.
Definition index (xp : list R) (x : R) : nat := (clip (searchsorted_right xp x) 1 (List.length xp - 1) - 1)%nat.
Lemma index_bound : forall xp x, grid xp -> (S (index xp x) < List.length xp)%nat /\
  clip (searchsorted_right xp x) 1 (List.length xp - 1) = S (index xp x).
Proof. intros xp x [U L]. unfold index, clip. lia. Qed.
Lemma index_low : forall xp x, grid xp -> (0 < index xp x)%nat -> nth (index xp x) xp 0 <= x.
Proof.
  intros xp x G H. destruct (index_bound xp x G) as [B E]. destruct G as [U L].
  apply filter_below; [assumption|lia|]. unfold index, clip in *. lia.
Qed.
Lemma index_high : forall xp x, grid xp -> (S (index xp x) < List.length xp - 1)%nat -> x < nth (S (index xp x)) xp 0.
Proof.
  intros xp x G H. destruct (index_bound xp x G) as [B E]. destruct G as [U L].
  destruct (Rlt_le_dec x (nth (S (index xp x)) xp 0)) as [Q|Q]; [assumption|exfalso].
  apply filter_below in Q; [|assumption|lia]. unfold index, clip in *. lia.
Qed.
Lemma index_first : forall xp x, grid xp -> x < nth 1 xp 0 -> index xp x = 0%nat.
Proof.
  intros xp x G H. destruct (index_bound xp x G) as [B E]. destruct (index xp x) eqn:I; [reflexivity|exfalso].
  assert (Q : nth (index xp x) xp 0 <= x) by (apply index_low; [assumption|lia]). rewrite I in Q.
  destruct G as [U L]. destruct n as [|n]; [lra|]. pose proof (sorted_nth xp 1 (S (S n)) U ltac:(lia) ltac:(lia)). lra.
Qed.
Lemma index_last : forall xp x, grid xp -> nth (List.length xp - 2) xp 0 <= x -> index xp x = (List.length xp - 2)%nat.
Proof.
  intros xp x G H. destruct (index_bound xp x G) as [B E]. destruct G as [U L].
  apply filter_below in H; [|assumption|lia]. unfold index, clip in *. lia.
Qed.
(** a cell that contains the value: the one chosen, or its lower neighbour when the value is on the edge *)
Lemma index_cell : forall xp x i, grid xp -> (S i < List.length xp)%nat -> nth i xp 0 <= x <= nth (S i) xp 0 ->
  index xp x = i \/ (index xp x = S i /\ x = nth (S i) xp 0).
Proof.
  intros xp x i G H [H1 H2]. destruct G as [U L].
  pose proof (proj2 (filter_below xp x U i ltac:(lia)) H1) as A.
  destruct (Rlt_le_dec x (nth (S i) xp 0)) as [Q|Q].
  - left. assert (~ (S i < searchsorted_right xp x)%nat) by (intro W; apply filter_below in W; [lra|assumption|assumption]).
    unfold index, clip. lia.
  - assert (EX : x = nth (S i) xp 0) by lra.
    pose proof (proj2 (filter_below xp x U (S i) ltac:(lia)) Q) as A2.
    destruct (Nat.eq_dec (S (S i)) (List.length xp)) as [E|E].
    + left. unfold index, clip. pose proof (searchsorted_le xp x). lia.
    + right. split; [|assumption].
      assert (~ (S (S i) < searchsorted_right xp x)%nat).
      { intro W. apply filter_below in W; [|assumption|lia]. pose proof (sorted_nth xp (S i) (S (S i)) U ltac:(lia) ltac:(lia)). lra. }
      unfold index, clip. lia.
Qed.
Lemma interp2d_cell : forall x y xp yp zp, grid xp -> grid yp ->
  interp2d x y xp yp zp None = cell xp yp zp (index xp x) (index yp y) x y.
Proof.
  intros x y xp yp zp GX GY. unfold interp2d. cbv zeta.
  destruct (index_bound xp x GX) as [BX ->]. destruct (index_bound yp y GY) as [BY ->].
  cbn [Nat.sub]. rewrite !Nat.sub_0_r. unfold cell, bilinear, at_. cbv zeta.
  pose proof (sorted_nth xp _ (S (index xp x)) (proj1 GX) (Nat.lt_succ_diag_r _) BX).
  pose proof (sorted_nth yp _ (S (index yp y)) (proj1 GY) (Nat.lt_succ_diag_r _) BY).
  field. lra.
Qed.
Lemma cell_x_edge : forall xp yp zp i j y, grid xp -> (S (S i) < List.length xp)%nat ->
  cell xp yp zp (S i) j (nth (S i) xp 0) y = cell xp yp zp i j (nth (S i) xp 0) y.
Proof.
  intros xp yp zp i j y G H. pose proof (sorted_nth xp i (S i) (proj1 G) ltac:(lia) ltac:(lia)).
  pose proof (sorted_nth xp (S i) (S (S i)) (proj1 G) ltac:(lia) ltac:(lia)).
  unfold cell, bilinear. cbv zeta.
  replace ((nth (S i) xp 0 - nth (S i) xp 0) / (nth (S (S i)) xp 0 - nth (S i) xp 0)) with 0 by (field; lra).
  replace ((nth (S i) xp 0 - nth i xp 0) / (nth (S i) xp 0 - nth i xp 0)) with 1 by (field; lra). ring.
Qed.
Lemma cell_y_edge : forall xp yp zp i j x, grid yp -> (S (S j) < List.length yp)%nat ->
  cell xp yp zp i (S j) x (nth (S j) yp 0) = cell xp yp zp i j x (nth (S j) yp 0).
Proof.
  intros xp yp zp i j x G H. pose proof (sorted_nth yp j (S j) (proj1 G) ltac:(lia) ltac:(lia)).
  pose proof (sorted_nth yp (S j) (S (S j)) (proj1 G) ltac:(lia) ltac:(lia)).
  unfold cell, bilinear. cbv zeta.
  replace ((nth (S j) yp 0 - nth (S j) yp 0) / (nth (S (S j)) yp 0 - nth (S j) yp 0)) with 0 by (field; lra).
  replace ((nth (S j) yp 0 - nth j yp 0) / (nth (S j) yp 0 - nth j yp 0)) with 1 by (field; lra). ring.
Qed.
Lemma interp2d_any_cell : forall x y xp yp zp i j, grid xp -> grid yp ->
  (S i < List.length xp)%nat -> (S j < List.length yp)%nat ->
  nth i xp 0 <= x <= nth (S i) xp 0 -> nth j yp 0 <= y <= nth (S j) yp 0 ->
  interp2d x y xp yp zp None = cell xp yp zp i j x y.
Proof.
  intros x y xp yp zp i j GX GY Hi Hj HX HY. rewrite interp2d_cell by assumption.
  destruct (index_bound xp x GX) as [BX _]. destruct (index_bound yp y GY) as [BY _].
  transitivity (cell xp yp zp i (index yp y) x y).
  - destruct (index_cell xp x i GX Hi HX) as [->|[E ->]]; [reflexivity|].
    rewrite E in *. apply cell_x_edge; assumption.
  - destruct (index_cell yp y j GY Hj HY) as [->|[E ->]]; [reflexivity|].
    rewrite E in *. apply cell_y_edge; assumption.
Qed.
Lemma last_nth : forall (xp : list R), xp <> [] -> last xp 0 = nth (List.length xp - 1) xp 0.
Proof.
  induction xp as [|v xp IH]; intro H; [contradiction|]. destruct xp as [|w xp]; [reflexivity|].
  change (last (v :: w :: xp) 0) with (last (w :: xp) 0). rewrite IH by discriminate. cbn. rewrite Nat.sub_0_r. reflexivity.
Qed.
(** a value inside the table lies in the cell chosen *)
Lemma inside_index : forall xp x, grid xp -> inside xp x -> nth (index xp x) xp 0 <= x <= nth (S (index xp x)) xp 0.
Proof.
  intros xp x G [H1 H2]. destruct (index_bound xp x G) as [B _]. split.
  - destruct (index xp x) eqn:E; [assumption|]. rewrite <- E. apply index_low; [assumption|lia].
  - rewrite last_nth in H2 by (destruct G as [_ L]; destruct xp; [cbn in L; lia|discriminate]).
    destruct (Nat.eq_dec (S (index xp x)) (List.length xp - 1)) as [E|E]; [rewrite E; assumption|].
    left. apply index_high; [assumption|lia].
Qed.
Lemma ratio_01 : forall a b x, a < b -> a <= x <= b -> 0 <= (x - a) / (b - a) <= 1.
Proof.
  intros a b x H [H1 H2]. split.
  - apply Rmult_le_pos; [lra|]. left. apply Rinv_0_lt_compat. lra.
  - apply Rmult_le_reg_r with (b - a); [lra|]. unfold Rdiv. rewrite Rmult_assoc, Rinv_l; lra.
Qed.
Lemma bilinear_bounds : forall x0 x1 y0 y1 z00 z10 z01 z11 x y m M, x0 < x1 -> y0 < y1 -> x0 <= x <= x1 -> y0 <= y <= y1 ->
  m <= z00 <= M -> m <= z10 <= M -> m <= z01 <= M -> m <= z11 <= M ->
  m <= bilinear x0 x1 y0 y1 z00 z10 z01 z11 x y <= M.
Proof.
  intros. unfold bilinear. cbv zeta. pose proof (ratio_01 x0 x1 x H H1) as S. pose proof (ratio_01 y0 y1 y H0 H2) as T.
  set (s := (x - x0) / (x1 - x0)) in *. set (t := (y - y0) / (y1 - y0)) in *.
  assert (A : 0 <= (1 - s) * (1 - t)) by (apply Rmult_le_pos; lra).
  assert (B : 0 <= s * (1 - t)) by (apply Rmult_le_pos; lra).
  assert (C : 0 <= (1 - s) * t) by (apply Rmult_le_pos; lra).
  assert (D : 0 <= s * t) by (apply Rmult_le_pos; lra).
  assert (E : (1 - s) * (1 - t) + s * (1 - t) + (1 - s) * t + s * t = 1) by ring.
  set (a := (1 - s) * (1 - t)) in *. set (b := s * (1 - t)) in *. set (c := (1 - s) * t) in *. set (d := s * t) in *.
  clearbody a b c d. assert (Q : d = 1 - a - b - c) by lra. split; nra.
Qed.

(** ** Latin hypercubes *)
Definition cube_at (samples : nat) (criterion : string) (rand : nat -> nat -> R) (j k : nat) : R :=
  INR k * (1 / INR samples) + (if String.eqb criterion "random" then rand k j else 5 / 10) * (1 / INR samples).
Lemma combine_map_seq : forall A (f : nat -> A) n m, combine (seq m n) (map f (seq m n)) = map (fun j => (j, f j)) (seq m n).
Proof. intros A f n. induction n as [|n IH]; intro m; cbn; [reflexivity|]. rewrite IH. reflexivity. Qed.
Definition unscale (bounds : option ((nat -> R) * (nat -> R))) (j : nat) (v : R) : R :=
  match bounds with None => v | Some (lo, up) => v * (up j - lo j) + lo j end.
Lemma latin_columns : forall n samples bounds criterion rand shuffle,
  latin_hypercube n samples bounds criterion rand shuffle
  = if String.eqb criterion "random" || String.eqb criterion "center"
    then Some (map (fun j => map (unscale bounds j) (shuffle j (map (cube_at samples criterion rand j) (seq 0 samples)))) (seq 0 n))
    else None.
Proof.
  intros n samples bounds criterion rand shuffle. unfold latin_hypercube. cbv zeta. unfold cube_at.
  assert (G : forall c : nat -> list R,
    match bounds with
    | None => map (fun jc => shuffle (fst jc) (snd jc)) (combine (seq 0 n) (map c (seq 0 n)))
    | Some (lower, upper) => map (fun jc => map (fun v => v * (upper (fst jc) - lower (fst jc)) + lower (fst jc)) (snd jc))
        (combine (seq 0 n) (map (fun jc => shuffle (fst jc) (snd jc)) (combine (seq 0 n) (map c (seq 0 n)))))
    end = map (fun j => map (unscale bounds j) (shuffle j (c j))) (seq 0 n)).
  { intro c. rewrite combine_map_seq, map_map. cbn [fst snd]. destruct bounds as [[lower upper]|].
    - rewrite combine_map_seq, map_map. reflexivity.
    - apply map_ext. intro j. rewrite map_id. reflexivity. }
  destruct (String.eqb criterion "random") eqn:E1.
  - cbn [orb]. f_equal. apply G.
  - destruct (String.eqb criterion "center") eqn:E2; [|reflexivity]. cbn [orb]. f_equal. apply G.
Qed.
Lemma slices_apart : forall m k l v, (0 < m)%nat -> slice 0 1 m k v -> slice 0 1 m l v -> k = l.
Proof.
  assert (A : forall m k l v, (0 < m)%nat -> slice 0 1 m k v -> slice 0 1 m l v -> (k <= l)%nat).
  { intros m k l v M [H1 _] [_ H2]. assert (Mp : 0 < INR m) by (apply lt_0_INR; assumption).
    assert (P : 0 < (1 - 0) / INR m) by (apply Rdiv_lt_0_compat; lra).
    assert (INR k < INR (S l)).
    { apply Rmult_lt_reg_r with ((1 - 0) / INR m); [assumption|lra]. }
    apply INR_lt in H. lia. }
  intros m k l v M H1 H2. apply Nat.le_antisymm; eapply A; eassumption.
Qed.
Lemma cube_slice : forall samples criterion rand j k, (0 < samples)%nat ->
  (forall k j, 0 <= rand k j < 1) -> slice 0 1 samples k (cube_at samples criterion rand j k).
Proof.
  intros samples criterion rand j k M HR. assert (Mp : 0 < INR samples) by (apply lt_0_INR; assumption).
  unfold slice, cube_at. rewrite S_INR. replace (1 - 0) with 1 by ring.
  assert (P : 0 < 1 / INR samples) by (apply Rdiv_lt_0_compat; lra). specialize (HR k j).
  destruct (String.eqb criterion "random"); nra.
Qed.
Lemma one_per_slice : forall samples f col, (0 < samples)%nat ->
  (forall k, (k < samples)%nat -> slice 0 1 samples k (f k)) ->
  Permutation col (map f (seq 0 samples)) ->
  List.length col = samples /\
  forall k, (k < samples)%nat -> exists! i, (i < samples)%nat /\ slice 0 1 samples k (nth i col 0).
Proof.
  intros samples f col M HS P.
  assert (L : List.length col = samples) by (rewrite (Permutation_length P), map_length, seq_length; reflexivity).
  split; [assumption|]. intros k Hk.
  assert (ND : NoDup col).
  { clear L. apply (Permutation_NoDup (Permutation_sym P)).
    assert (G : forall l, NoDup l -> (forall x, In x l -> (x < samples)%nat) -> NoDup (map f l)).
    { induction l as [|x l IH]; intros N B; [constructor|]. inversion N; subst. cbn. constructor.
      - intro I. apply in_map_iff in I. destruct I as (y & E & I).
        assert (x = y); [|subst; contradiction].
        apply (slices_apart samples x y (f x) M); [apply HS, B; left; reflexivity|]. rewrite <- E. apply HS, B. right. assumption.
      - apply IH; [assumption|]. intros. apply B. right. assumption. }
    apply G; [apply seq_NoDup|]. intros x I. apply in_seq in I. lia. }
  assert (I : In (f k) col).
  { apply (Permutation_in _ (Permutation_sym P)). apply in_map. apply in_seq. lia. }
  destruct (In_nth _ _ 0 I) as (i & Hi & E). exists i. split; [split; [lia|rewrite E; apply HS; assumption]|].
  intros i' [Hi' S']. apply (proj1 (NoDup_nth col 0) ND); [lia|lia|]. rewrite E.
  assert (I' : In (nth i' col 0) (map f (seq 0 samples))) by (apply (Permutation_in _ P); apply nth_In; lia).
  apply in_map_iff in I'. destruct I' as (k' & E' & B'). apply in_seq in B'.
  assert (k' = k); [|subst; assumption]. apply (slices_apart samples k' k (nth i' col 0) M); [|assumption].
  rewrite <- E'. apply HS. lia.
Qed.
Lemma unscale_slice : forall bounds j m k v lo hi, (0 < m)%nat ->
  (lo, hi) = match bounds with None => (0, 1) | Some (l, u) => (l j, u j) end -> lo < hi ->
  (slice 0 1 m k v <-> slice lo hi m k (unscale bounds j v)).
Proof.
  intros bounds j m k v lo hi M E L. assert (Mp : 0 < INR m) by (apply lt_0_INR; assumption).
  assert (Q : unscale bounds j v = v * (hi - lo) + lo).
  { destruct bounds as [[l u]|]; cbn in *; injection E as -> ->; ring. }
  rewrite Q. unfold slice. replace (1 - 0) with 1 by ring.
  replace (lo + INR k * ((hi - lo) / INR m)) with (INR k * (1 / INR m) * (hi - lo) + lo) by (field; lra).
  replace (lo + INR (S k) * ((hi - lo) / INR m)) with (INR (S k) * (1 / INR m) * (hi - lo) + lo) by (field; lra).
  split; intros [H1 H2]; split; try nra.
Qed.
Lemma nth_map_seq : forall A (f : nat -> A) n j d, (j < n)%nat -> nth j (map f (seq 0 n)) d = f j.
Proof.
  intros A f n j d H. rewrite (nth_indep _ d (f 0%nat)) by (rewrite map_length, seq_length; assumption).
  rewrite map_nth, seq_nth by assumption. reflexivity.
Qed.
