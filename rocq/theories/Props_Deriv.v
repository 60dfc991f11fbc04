(** * Aerodynamic derivatives by finite differences: property C209 *)
From Coq Require Import Reals Lra Lia Bool List.
From Verif Require Import M_Opt M_Cryo M_Deriv.
Import ListNotations.
Local Open Scope R_scope.

(** [f'] is the derivative of [f] *)
Definition derivative (f f' : R -> R) : Prop := forall x, derivable_pt_lim f x (f' x).
Definition between (a b c : R) : Prop := Rmin a b < c < Rmax a b.
Lemma quotient_slope f f' a b : derivative f f' -> a <> b -> exists c, quo (f b - f a) (b - a) = Some (f' c) /\ between a b c.
Proof.
  intros D N. unfold quo. destruct (Req_EM_T (b - a) 0) as [E|E]; [exfalso; apply N; lra|]. destruct (Rlt_or_le a b) as [L|L].
  - destruct (MVT_cor2 f f' a b L (fun c _ => D c)) as [c [Q B]]. exists c. unfold between. rewrite Rmin_left, Rmax_right by lra. split; [|exact B]. f_equal. rewrite Q. field. lra.
  - assert (L' : b < a) by lra. destruct (MVT_cor2 f f' b a L' (fun c _ => D c)) as [c [Q B]]. exists c. unfold between. rewrite Rmin_right, Rmax_left by lra. split; [|exact B]. f_equal.
    replace (f b - f a) with (- (f a - f b)) by ring. rewrite Q. field. lra.
Qed.
(** a coefficient that is a function of the angle of attack while the aircraft pitches: what is reported is its slope at an angle between that of the flight and that of
    the perturbed one, as long as these differ *)
Theorem C209_alpha : forall E s k f f', derivative f f' -> (forall p, o_coef (E (with_pitch s p)) k = f (o_alpha (E (with_pitch s p)))) ->
  o_alpha (E (with_pitch s (f_pitch s * (1 + h)))) <> o_alpha (E s) ->
  exists c, by_alpha E s (E s) k = Some (f' c) /\ between (o_alpha (E s)) (o_alpha (E (with_pitch s (f_pitch s * (1 + h))))) c.
Proof.
  intros E s k f f' D F N. assert (S : with_pitch s (f_pitch s) = s) by (destruct s; reflexivity). unfold by_alpha. cbv zeta. rewrite F. pose proof (F (f_pitch s)) as F0. rewrite S in F0. rewrite F0. apply quotient_slope; [exact D|].
  intro Q. apply N. symmetry. exact Q.
Qed.
(** where the angle of attack goes with the pitch one to one, the slope is taken within a ten-thousandth of the pitch *)
Theorem C209_alpha_near : forall E s k f f' a0, derivative f f' -> (forall p, o_coef (E (with_pitch s p)) k = f (o_alpha (E (with_pitch s p)))) -> (forall p, o_alpha (E (with_pitch s p)) = p + a0) -> f_pitch s <> 0 ->
  exists c, by_alpha E s (E s) k = Some (f' c) /\ Rabs (c - o_alpha (E s)) < Rabs (f_pitch s) / 10000.
Proof.
  intros E s k f f' a0 D F A N. assert (S : with_pitch s (f_pitch s) = s) by (destruct s; reflexivity). pose proof (A (f_pitch s)) as A0. rewrite S in A0.
  destruct (C209_alpha E s k f f' D F) as [c [Q B]]; [rewrite A, A0; unfold h; lra|]. exists c. split; [exact Q|]. unfold between in B. rewrite A, A0 in B. rewrite A0. unfold h in B.
  unfold Rmin, Rmax in B. destruct (Rle_dec _ _) as [L|L] in B; unfold Rabs; destruct (Rcase_abs (f_pitch s)); destruct (Rcase_abs (c - (f_pitch s + a0))); lra.
Qed.
(** finding: a flight with pitch 0 is not perturbed at all, and no derivative by the angle of attack is a number *)
Theorem C209_level_refuted : forall E s k, f_pitch s = 0 -> by_alpha E s (E s) k = None.
Proof.
  intros E s k P. unfold by_alpha. cbv zeta. replace (with_pitch s (f_pitch s * (1 + h))) with s by (destruct s; cbn in *; unfold with_pitch; cbn; rewrite P, Rmult_0_l; reflexivity).
  unfold quo. destruct (Req_EM_T _ 0) as [_|N]; [reflexivity|exfalso; apply N; ring].
Qed.
(** the heading is turned by a fixed amount, so the derivatives by side slip are slopes for all flights *)
Theorem C209_beta : forall E s k f f' b0 g, derivative f f' -> (forall p, o_coef (E (with_psi s p)) k = f (o_beta (E (with_psi s p)))) -> (forall p, o_beta (E (with_psi s p)) = g * p + b0) -> g = 1 \/ g = - 1 ->
  exists c, by_beta E s (E s) k = Some (f' c) /\ Rabs (c - o_beta (E s)) < 1 / 10000.
Proof.
  intros E s k f f' b0 g D F B G. assert (S : with_psi s (f_psi s) = s) by (destruct s; reflexivity). pose proof (B (f_psi s)) as B0. rewrite S in B0. pose proof (F (f_psi s)) as F0. rewrite S in F0.
  destruct (quotient_slope f f' (o_beta (E s)) (o_beta (E (with_psi s (f_psi s + h)))) D) as [c [Q W]]; [rewrite B, B0; unfold h; destruct G; subst g; lra|].
  exists c. split; [unfold by_beta; cbv zeta; rewrite F, F0; exact Q|]. unfold between in W. rewrite B, B0 in W. rewrite B0. unfold h in W. apply Rabs_def1; destruct G; subst g; unfold Rmin, Rmax in W; destruct (Rle_dec _ _) in W; lra.
Qed.
(** throttle: the slope within a ten-thousandth of the throttle; finding: none at throttle 0 *)
Theorem C209_throttle : forall E s k f f', derivative f f' -> (forall t, o_coef (E (with_throttle s t)) k = f t) -> f_thr s <> 0 ->
  exists c, by_throttle E s (E s) k = Some (f' c) /\ Rabs (c - f_thr s) < Rabs (f_thr s) / 10000.
Proof.
  intros E s k f f' D F N. assert (S : with_throttle s (f_thr s) = s) by (destruct s; reflexivity). pose proof (F (f_thr s)) as F0. rewrite S in F0.
  destruct (quotient_slope f f' (f_thr s) (f_thr s * (1 + h)) D) as [c [Q W]]; [unfold h; lra|]. exists c. split; [unfold by_throttle; cbv zeta; rewrite F, F0; exact Q|].
  unfold between, h, Rmin, Rmax in W. destruct (Rle_dec _ _) in W; unfold Rabs; destruct (Rcase_abs (f_thr s)); destruct (Rcase_abs (c - f_thr s)); lra.
Qed.
Theorem C209_idle_refuted : forall E s k, f_thr s = 0 -> by_throttle E s (E s) k = None.
Proof. intros E s k P. unfold by_throttle, quo. cbv zeta. rewrite P. destruct (Req_EM_T _ 0) as [_|N]; [reflexivity|exfalso; apply N; ring]. Qed.
(** each control surface is moved alone, by 0.1, and the slope lies within that; the moments are 0 with surrogates, whatever they are *)
Lemma set_nth_same : forall (l : list R) i, set_nth i (nth i l 0) l = l.
Proof. induction l as [|a l IH]; intros [|i]; cbn; try reflexivity. f_equal. apply IH. Qed.
Theorem C209_controls : forall E s i k f f' m, derivative f f' -> (forall d, o_coef (E (with_defl s i d)) k = f d) ->
  (exists c, by_defl false m E s (E s) i k = Some (f' c) /\ nth i (f_defl s) 0 < c < nth i (f_defl s) 0 + 1 / 10) /\
  by_defl true true E s (E s) i k = Some 0 /\ by_defl true false E s (E s) i k = by_defl false false E s (E s) i k.
Proof.
  intros E s i k f f' m D F. assert (S : with_defl s i (nth i (f_defl s) 0) = s) by (destruct s; unfold with_defl; cbn; rewrite set_nth_same; reflexivity). pose proof (F (nth i (f_defl s) 0)) as F0. rewrite S in F0.
  split; [|split].
  - destruct (quotient_slope f f' (nth i (f_defl s) 0) (nth i (f_defl s) 0 + 1 / 10) D) as [c [Q W]]; [lra|]. exists c. unfold between in W. rewrite Rmin_left, Rmax_right in W by lra. split; [|exact W].
    unfold by_defl. cbv zeta. cbn [andb]. rewrite F, F0. exact Q.
  - unfold by_defl, quo. cbv zeta. cbn [andb]. destruct (Req_EM_T _ 0) as [N|N]; [lra|]. f_equal. field. intro; apply N; lra.
  - reflexivity.
Qed.
Lemma square_pos x : x <> 0 -> 0 < x ^ 2.
Proof. intro N. rewrite <- Rsqr_pow2. apply Rsqr_pos_lt. exact N. Qed.
Lemma sqrt_pow2 x : 0 <= x -> sqrt (x ^ 2) = x.
Proof. intro X. rewrite <- Rsqr_pow2. apply sqrt_Rsqr. exact X. Qed.
(** speed: without side wind the perturbed flight is faster by a ten-thousandth in the same direction *)
Theorem C209_faster : forall s, f_y s = 0 -> (f_x s <> 0 \/ f_z s <> 0) -> f_x (faster s) = f_x s * (1 + h) /\ f_z (faster s) = f_z s * (1 + h) /\ f_y (faster s) = 0.
Proof.
  intros s Y N. unfold faster. cbv zeta. cbn [f_x f_y f_z]. rewrite Y. replace (f_x s ^ 2 + 0 ^ 2 + f_z s ^ 2) with (f_x s ^ 2 + f_z s ^ 2) by ring.
  assert (P : 0 < f_x s ^ 2 + f_z s ^ 2). { destruct N as [N|N]; [assert (0 < f_x s ^ 2) by (apply square_pos; exact N); pose proof (pow2_ge_0 (f_z s))|assert (0 < f_z s ^ 2) by (apply square_pos; exact N); pose proof (pow2_ge_0 (f_x s))]; lra. }
  pose proof (sqrt_lt_R0 _ P) as R0. destruct (Req_EM_T (sqrt (f_x s ^ 2 + f_z s ^ 2)) 0); [lra|]. repeat split; field; lra.
Qed.
(** finding: with side wind it is not *)
Theorem C209_side_refuted : forall s, f_y s <> 0 -> (f_x s <> 0 \/ f_z s <> 0) ->
  sqrt (f_x (faster s) ^ 2 + f_y (faster s) ^ 2 + f_z (faster s) ^ 2) > (1 + h) * sqrt (f_x s ^ 2 + f_y s ^ 2 + f_z s ^ 2).
Proof.
  intros s Y N. unfold faster. cbv zeta. cbn [f_x f_y f_z].
  assert (P : 0 < f_x s ^ 2 + f_z s ^ 2). { destruct N as [N|N]; [assert (0 < f_x s ^ 2) by (apply square_pos; exact N); pose proof (pow2_ge_0 (f_z s))|assert (0 < f_z s ^ 2) by (apply square_pos; exact N); pose proof (pow2_ge_0 (f_x s))]; lra. }
  pose proof (sqrt_lt_R0 _ P) as R0. destruct (Req_EM_T (sqrt (f_x s ^ 2 + f_z s ^ 2)) 0); [lra|]. set (v := sqrt (f_x s ^ 2 + f_y s ^ 2 + f_z s ^ 2)). set (r := sqrt (f_x s ^ 2 + f_z s ^ 2)) in *.
  assert (RR : r * r = f_x s ^ 2 + f_z s ^ 2) by (apply sqrt_sqrt; lra). assert (V0 : 0 <= v) by apply sqrt_pos.
  replace ((v * (1 + h) * (f_x s / r)) ^ 2 + f_y s ^ 2 + (v * (1 + h) * (f_z s / r)) ^ 2) with ((v * (1 + h)) ^ 2 * ((f_x s ^ 2 + f_z s ^ 2) / (r * r)) + f_y s ^ 2) by (field; lra).
  rewrite <- RR. replace (r * r / (r * r)) with 1 by (field; lra). assert (0 < f_y s ^ 2) by (apply square_pos; exact Y). assert (H0 : 0 <= v * (1 + h)) by (unfold h; apply Rmult_le_pos; lra).
  apply Rlt_gt. rewrite Rmult_comm. rewrite <- (sqrt_pow2 (v * (1 + h)) H0) at 1. apply sqrt_lt_1_alt. pose proof (pow2_ge_0 (v * (1 + h))). lra.
Qed.
(** finding: of the three columns only the first is a slope, in level flight along the axis; the others are the change over the whole speed; in a climb none is right:
    the first divides by the new speed less the horizontal part of the old one *)
Theorem C209_speed : forall E s k, f_y s = 0 -> 0 < f_x s -> o_V (E (faster s)) = sqrt (f_x (faster s) ^ 2 + f_y (faster s) ^ 2 + f_z (faster s) ^ 2) ->
  let d := o_coef (E (faster s)) k - o_coef (E s) k in let v := sqrt (f_x s ^ 2 + f_z s ^ 2) in
  exists a b c, by_speed E s (E s) k = [Some a; Some b; c] /\ a * (v * (1 + h) - f_x s) = d /\ b * (v * (1 + h)) = d /\ (f_z s = 0 -> a * (f_x s * h) = d) /\ (d <> 0 -> (a * (v * h) = d <-> f_z s = 0)).
Proof.
  intros E s k Y X OV d v. destruct (C209_faster s Y (or_introl (Rgt_not_eq _ _ X))) as [FX [FZ FY]]. rewrite FX, FY, FZ in OV.
  assert (P : 0 < f_x s ^ 2 + f_z s ^ 2). { assert (0 < f_x s ^ 2) by (apply square_pos; lra). pose proof (pow2_ge_0 (f_z s)). lra. }
  assert (V0 : 0 < v) by (apply sqrt_lt_R0; exact P). assert (VV : v * v = f_x s ^ 2 + f_z s ^ 2) by (apply sqrt_sqrt; lra).
  assert (VE : o_V (E (faster s)) = v * (1 + h)).
  { rewrite OV. replace ((f_x s * (1 + h)) ^ 2 + 0 ^ 2 + (f_z s * (1 + h)) ^ 2) with ((v * (1 + h)) ^ 2) by (replace ((v * (1 + h)) ^ 2) with (v * v * (1 + h) ^ 2) by ring; rewrite VV; ring). apply sqrt_pow2. unfold h. nra. }
  assert (VX : f_x s <= v) by (pose proof (pow2_ge_0 (f_z s)); apply Rnot_lt_le; intro; nra). assert (H0 : 0 < h) by (unfold h; lra). assert (VH : 0 < v * h) by (apply Rmult_lt_0_compat; assumption).
  unfold by_speed. cbv zeta. cbn [map]. rewrite VE, Y. fold d. unfold quo at 1 2. destruct (Req_EM_T (v * (1 + h) - f_x s) 0) as [N|N]; [lra|]. destruct (Req_EM_T (v * (1 + h) - 0) 0) as [M|M]; [lra|].
  do 3 eexists. split; [reflexivity|]. split; [field; exact N|]. split; [field; lra|]. split.
  - intro Z. assert (v = f_x s) by (unfold v; rewrite Z; replace (f_x s ^ 2 + 0 ^ 2) with (f_x s ^ 2) by ring; apply sqrt_pow2; lra). rewrite H in *. replace (f_x s * h) with (f_x s * (1 + h) - f_x s) by ring. field. exact N.
  - intro D. split.
    + intro Q. assert (d * (v * h) = d * (v * (1 + h) - f_x s)). { replace (d * (v * (1 + h) - f_x s)) with (d / (v * (1 + h) - f_x s) * (v * h) * (v * (1 + h) - f_x s)) by (rewrite Q; ring). field. exact N. }
      apply Rmult_eq_reg_l in H; [|exact D]. assert (v = f_x s) by lra. rewrite H1 in VV. assert (f_z s ^ 2 = 0) by lra. apply Rsqr_0_uniq. unfold Rsqr. lra.
    + intro Z. assert (v = f_x s) by (unfold v; rewrite Z; replace (f_x s ^ 2 + 0 ^ 2) with (f_x s ^ 2) by ring; apply sqrt_pow2; lra). rewrite H in *. replace (f_x s * h) with (f_x s * (1 + h) - f_x s) by ring. field. exact N.
Qed.

(** an aircraft whose lift goes with the square of the angle of attack, the throttle and the deflections *)
Definition craft (s : flight) : outs := Outs (f_pitch s + 1) (f_psi s) (sqrt (f_x s ^ 2 + f_y s ^ 2 + f_z s ^ 2)) (fun k => match k with O => (f_pitch s + 1) ^ 2 | 1%nat => 3 * f_thr s | _ => f_x s end).
Lemma square_derivative : derivative (fun x => x ^ 2) (fun x => 2 * x).
Proof. intro x. replace (2 * x) with (INR 2 * x ^ pred 2) by (cbn; ring). apply derivable_pt_lim_pow. Qed.
Example C209_case : let s := Flight (1 / 10) 0 (1 / 2) 200 0 0 [0] in exists c, by_alpha craft s (craft s) 0 = Some (2 * c) /\ Rabs (c - 11 / 10) < 1 / 100000.
Proof.
  intro s. destruct (C209_alpha_near craft s 0 (fun x => x ^ 2) (fun x => 2 * x) 1 square_derivative ltac:(intro; reflexivity) ltac:(intro; reflexivity) ltac:(cbn; lra)) as [c [Q B]].
  exists c. split; [exact Q|]. cbn in B. rewrite (Rabs_right (1 / 10)) in B by lra. replace (11 / 10) with (1 / 10 + 1) by lra. lra.
Qed.
Example C209_speed_case : let s := Flight 0 0 0 200 0 0 [] in exists a b c, by_speed craft s (craft s) 2 = [Some a; Some b; c] /\ a = 1 /\ b < 1 / 1000.
Proof.
  intro s. destruct (C209_speed craft s 2 eq_refl ltac:(cbn; lra) eq_refl) as (a & b & c & Q & A & B & A' & _). exists a, b, c. split; [exact Q|].
  assert (FX : f_x (faster s) = 200 * (1 + h)) by (apply (C209_faster s eq_refl); left; cbn; lra). cbn [craft o_coef] in A', B. rewrite FX in A', B. specialize (A' eq_refl). cbn [s f_x f_z] in *.
  replace (200 ^ 2 + 0 ^ 2) with (200 ^ 2) in B by ring. rewrite sqrt_pow2 in B by lra. unfold h in *. split; lra.
Qed.
Print Assumptions C209_alpha.
Print Assumptions C209_alpha_near.
Print Assumptions C209_level_refuted.
Print Assumptions C209_beta.
Print Assumptions C209_throttle.
Print Assumptions C209_idle_refuted.
Print Assumptions C209_controls.
Print Assumptions C209_faster.
Print Assumptions C209_side_refuted.
Print Assumptions C209_speed.
