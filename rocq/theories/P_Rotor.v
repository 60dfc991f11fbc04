(** * Rotors: proofs *)
From Coq Require Import Reals List Bool Arith Lra Lia Psatz.
From Verif Require Import PyBase M_Opt P_Opt M_Drag P_Friction M_Rot P_Rot S_Rot M_Noise P_Noise M_Evtol S_Elec S_Evtol P_Evtol P_Weight M_Rotor S_Rotor.
Import ListNotations.
Local Open Scope R_scope.

Lemma ltbP : forall a b, {Rltb a b = true /\ a < b} + {Rltb a b = false /\ b <= a}.
Proof.
  intros a b. destruct (Rltb a b) eqn:E; [left|right]; split; auto.
  - now apply Rltb_true.
  - apply Rltb_false in E. lra.
Qed.
Ltac lcase a b := let E := fresh "E" in let H := fresh "H" in destruct (ltbP a b) as [[E H]|[E H]]; rewrite ?E.

(** ** stations *)
Lemma weighted_cons : forall f a x u w, weighted f (a :: x) (u :: w) = f a * u + weighted f x w.
Proof. reflexivity. Qed.
(** the tail of the widths, with half of the interval before the first station in front *)
Lemma widths_from : forall f x a d, 
  weighted f (a :: x) (match diffs (a :: x) with [] => [d / 2] | d0 :: d' => (d / 2 + d0 / 2) :: map2 (fun a b => a / 2 + b / 2) (removelast (d0 :: d')) d' ++ [last (d0 :: d') 0 / 2] end)
  = f a * (d / 2) + under f (a :: x).
Proof.
  intros f x. induction x as [|b x IH]; intros a d.
  - cbn. ring.
  - specialize (IH b (b - a)). destruct x as [|c x].
    + cbn. field.
    + change (diffs (a :: b :: c :: x)) with ((b - a) :: diffs (b :: c :: x)).
      change (diffs (b :: c :: x)) with ((c - b) :: diffs (c :: x)) in *. cbv beta iota in *.
      set (dd := diffs (c :: x)) in *.
      change (removelast ((b - a) :: (c - b) :: dd)) with ((b - a) :: removelast ((c - b) :: dd)).
      change (last ((b - a) :: (c - b) :: dd) 0) with (last ((c - b) :: dd) 0).
      cbn [map2 app]. rewrite weighted_cons.
      rewrite IH. change (under f (a :: b :: c :: x)) with ((b - a) * (f a + f b) / 2 + under f (b :: c :: x)). field.
Qed.
Lemma widths_sum : forall f r w, deltar r = Ok w -> weighted f r w = under f r.
Proof.
  intros f r w Q. destruct r as [|a [|b x]]; [discriminate|discriminate|]. unfold deltar in Q.
  pose proof (widths_from f (b :: x) a 0) as H.
  change (diffs (a :: b :: x)) with ((b - a) :: diffs (b :: x)) in *. cbv beta iota zeta in *.
  assert (w = (b - a) / 2 :: map2 (fun a b => a / 2 + b / 2) (removelast ((b - a) :: diffs (b :: x))) (diffs (b :: x)) ++ [last ((b - a) :: diffs (b :: x)) 0 / 2]) as -> by congruence.
  rewrite weighted_cons in *. lra.
Qed.
Lemma widths_length : forall r w, deltar r = Ok w -> length w = length r /\ (2 <= length r)%nat.
Proof.
  intros r w. unfold deltar. destruct (diffs r) as [|d0 d'] eqn:D; [discriminate|]. intros Q.
  assert (w = d0 / 2 :: map2 (fun a b => a / 2 + b / 2) (removelast (d0 :: d')) d' ++ [last (d0 :: d') 0 / 2]) as -> by congruence.
  pose proof (diffs_length r) as L. rewrite D in L. cbn [length] in *. rewrite app_length, map2_length. cbn [length].
  assert (length (removelast (d0 :: d')) = length d') as ->. { rewrite removelast_firstn_len, firstn_length. cbn [length]. lia. }
  rewrite Nat.min_id. lia.
Qed.
Lemma widths_raise : forall r, (length r < 2)%nat -> deltar r = Err IndexError.
Proof. intros [|a [|b r]] H; cbn in H; try reflexivity. lia. Qed.
Lemma widths_ok : forall r, (2 <= length r)%nat -> exists w, deltar r = Ok w.
Proof. intros [|a [|b r]] H; cbn in H; try lia. eexists. reflexivity. Qed.
Lemma diffs_pos : forall r, rising r -> Forall (fun d => 0 < d) (diffs r).
Proof.
  induction r as [|a r IH]; intros H; [constructor|]. destruct r as [|b r]; [constructor|].
  destruct H as [H1 H2]. change (diffs (a :: b :: r)) with ((b - a) :: diffs (b :: r)). constructor; [lra|auto].
Qed.
Lemma Forall_removelast : forall (P : R -> Prop) l, Forall P l -> Forall P (removelast l).
Proof. intros P l H. induction H as [|a l A H IH]; [constructor|]. destruct l; [constructor|]. constructor; assumption. Qed.
Lemma Forall_last : forall (P : R -> Prop) l d, Forall P l -> l <> [] -> P (last l d).
Proof. intros P l d H. induction H as [|a l A H IH]; intros N; [congruence|]. destruct l; [exact A|]. apply IH. discriminate. Qed.
Lemma Forall_map2_pos : forall a b, Forall (fun d => 0 < d) a -> Forall (fun d => 0 < d) b -> Forall (fun d => 0 < d) (map2 (fun a b => a / 2 + b / 2) a b).
Proof. intros a b H. revert b. induction H as [|x a X H IH]; intros b K; [constructor|]. destruct K as [|y b Y K]; constructor; auto. lra. Qed.
Lemma widths_pos : forall r w, deltar r = Ok w -> rising r -> Forall (fun d => 0 < d) w.
Proof.
  intros r w. unfold deltar. intros Q H. apply diffs_pos in H. destruct (diffs r) as [|d0 d'] eqn:D; [discriminate|].
  assert (w = d0 / 2 :: map2 (fun a b => a / 2 + b / 2) (removelast (d0 :: d')) d' ++ [last (d0 :: d') 0 / 2]) as -> by congruence.
  inversion H as [|? ? H1 H2]. subst. constructor; [lra|]. apply Forall_app. split.
  - apply Forall_map2_pos; [now apply Forall_removelast|assumption].
  - constructor; [|constructor]. assert (0 < last (d0 :: d') 0) as X. { apply (Forall_last (fun d => 0 < d)); [assumption|discriminate]. } lra.
Qed.

Lemma azimuths_length : forall na, length (azimuths na) = na.
Proof. intros. unfold azimuths. rewrite removelast_firstn_len, firstn_length, linspace_length. lia. Qed.
Lemma nth_removelast : forall (l : list R) i d, (i < length l - 1)%nat -> nth i (removelast l) d = nth i l d.
Proof.
  induction l as [|a l IH]; intros i d H; [cbn in H; lia|]. destruct l as [|b l]; [cbn in H; lia|].
  destruct i; [reflexivity|]. cbn [removelast]. cbn [nth]. apply IH. cbn [length] in *. lia.
Qed.
Lemma azimuths_nth : forall na k d, (k < na)%nat -> nth k (azimuths na) d = 2 * PI * INR k / INR na.
Proof.
  intros na k d H. unfold azimuths. rewrite nth_removelast by (rewrite linspace_length; lia).
  rewrite linspace_nth by lia. replace (S na - 1)%nat with na by lia. field. apply not_0_INR. lia.
Qed.
Lemma azimuths_eq : forall na, azimuths na = map (fun k => 2 * PI * INR k / INR na) (seq 0 na).
Proof.
  intros na. apply nth_ext with (d := 0) (d' := 2 * PI * INR 0 / INR na). { now rewrite azimuths_length, map_length, seq_length. }
  intros k H. rewrite azimuths_length in H. rewrite azimuths_nth by assumption. 
  rewrite (map_nth (fun k => 2 * PI * INR k / INR na)). now rewrite seq_nth.
Qed.
(** equally spaced angles *)
Lemma telescope : forall h p n, total (map (fun k => 2 * sin (h / 2) * sin (p + h * INR k)) (seq 0 n)) = cos (p - h / 2) - cos (p + h * INR n - h / 2).
Proof.
  intros h p n. induction n as [|n IH].
  - cbn. replace (p + h * 0 - h / 2) with (p - h / 2) by ring. ring.
  - rewrite seq_S, map_app. unfold total in *. rewrite fold_right_app. cbn [fold_right map Nat.add].
    assert (forall l z, fold_right Rplus z l = fold_right Rplus 0 l + z) as F. { induction l; intros; cbn; [ring|]. rewrite IHl. ring. }
    rewrite F, IH. rewrite S_INR.
    replace (p + h * (INR n + 1) - h / 2) with (p + h * INR n + h / 2) by field.
    rewrite (cos_minus (p + h * INR n)), (cos_plus (p + h * INR n)). ring.
Qed.
Lemma total_scale : forall (A : Type) k (f : A -> R) l, total (map (fun x => k * f x) l) = k * total (map f l).
Proof. intros A k f l. unfold total. induction l; cbn; [ring|]. rewrite IHl. ring. Qed.
Lemma total_plus : forall (A : Type) (f g : A -> R) l, total (map (fun x => f x + g x) l) = total (map f l) + total (map g l).
Proof. intros A f g l. unfold total. induction l; cbn; [ring|]. rewrite IHl. ring. Qed.
Lemma total_const : forall (A : Type) k (l : list A), total (map (fun _ => k) l) = INR (length l) * k.
Proof. intros A k l. unfold total. induction l; [cbn; ring|]. cbn [map fold_right]. rewrite IHl. cbn [length]. rewrite S_INR. ring. Qed.
Lemma sines : forall n p, (2 <= n)%nat -> total (map (fun psi => sin (p + psi)) (azimuths n)) = 0.
Proof.
  intros n p H. rewrite azimuths_eq, map_map.
  set (h := 2 * PI / INR n). assert (0 < INR n) as N by (apply lt_0_INR; lia).
  assert (0 < sin (h / 2)) as S. { apply sin_gt_0; unfold h.
    - replace (2 * PI / INR n / 2) with (PI / INR n) by (field; lra). apply Rdiv_lt_0_compat; [apply PI_RGT_0|assumption].
    - replace (2 * PI / INR n / 2) with (PI / INR n) by (field; lra). 
      assert (2 <= INR n) as N2. { apply le_INR in H. cbn in H. lra. }
      apply Rmult_lt_reg_r with (INR n); [assumption|]. unfold Rdiv. rewrite Rmult_assoc, Rinv_l by lra. pose proof PI_RGT_0. nra. }
  pose proof (telescope h p n) as T. rewrite (total_scale _ (2 * sin (h / 2)) (fun k => sin (p + h * INR k))) in T.
  replace (p + h * INR n - h / 2) with (p - h / 2 + 2 * PI) in T by (unfold h; field; lra).
  assert (cos (p - h / 2 + 2 * PI) = cos (p - h / 2)) as C. { rewrite cos_plus, cos_2PI, sin_2PI. ring. }
  rewrite ?C in T. 
  assert (total (map (fun k => sin (p + h * INR k)) (seq 0 n)) = 0) as Z. { apply Rmult_eq_reg_l with (2 * sin (h / 2)); [|lra]. rewrite T. ring. }
  rewrite <- Z. f_equal. apply map_ext. intros k. f_equal. unfold h. field. lra.
Qed.
Lemma mean_cycle : forall n a b p, (2 <= n)%nat -> mean (map (fun psi => a * sin (p + psi) + b * cos (p + psi)) (azimuths n)) = 0.
Proof.
  intros n a b p H. unfold mean. rewrite total_plus, !total_scale, sines by assumption.
  assert (total (map (fun psi => cos (p + psi)) (azimuths n)) = 0) as ->.
  { rewrite <- (sines n (PI / 2 + p) H). f_equal. apply map_ext. intros x. rewrite cos_sin. f_equal. ring. }
  unfold Rdiv. ring.
Qed.

(** ** sweep *)
Lemma swept_raises : forall sweep na, (1 <= na)%nat -> (exists s, In s sweep /\ s <> 0) -> swept sweep na = Err ValueError.
Proof.
  intros sweep na NA (s & I & N). unfold swept.
  assert (existsb (fun s => if Req_EM_T s 0 then false else true) sweep = true) as ->.
  { apply existsb_exists. exists s. split; [assumption|]. destruct (Req_EM_T s 0); [contradiction|reflexivity]. }
  unfold repeat_shape. destruct (Nat.eqb 2 1 || Nat.eqb 2 (length sweep)); [|reflexivity]. cbn [bind].
  unfold broadcast. replace (Nat.eqb (1 + na) na) with false by (symmetry; apply Nat.eqb_neq; lia).
  replace (Nat.eqb (1 + na) 1) with false by (symmetry; apply Nat.eqb_neq; lia).
  destruct (Nat.eqb_spec na 1) as [E|E]; [subst; reflexivity|reflexivity].
Qed.
Lemma swept_none : forall sweep na, (forall s, In s sweep -> s = 0) -> swept sweep na = Ok false.
Proof.
  intros sweep na H. unfold swept. destruct (existsb _ sweep) eqn:E; [|reflexivity].
  apply existsb_exists in E. destruct E as (s & I & Q). rewrite (H s I) in Q. destruct (Req_EM_T 0 0); [discriminate|congruence].
Qed.

(** ** tip loss *)
Lemma acos_less : forall x y, -1 <= x -> x < y -> y <= 1 -> acos y < acos x.
Proof.
  intros x y X L Y. pose proof (acos_bound x). pose proof (acos_bound y). apply cos_decreasing_0; try tauto; try lra.
  rewrite !cos_acos by lra. assumption.
Qed.
Lemma exp_neg_range : forall t, 0 <= t -> 0 < exp (- t) <= 1.
Proof.
  intros t H. split; [apply exp_pos|]. destruct H as [H|<-].
  - left. rewrite <- exp_0. apply exp_increasing. lra.
  - rewrite Ropp_0, exp_0. lra.
Qed.
Definition prandtl (t : R) : R := 2 * acos (exp (- t)) / PI.
Lemma prandtl_range : forall t, 0 <= t -> 0 <= prandtl t < 1.
Proof.
  intros t H. pose proof (exp_neg_range t H) as [E1 E2]. pose proof PI_RGT_0 as P. unfold prandtl.
  pose proof (acos_bound (exp (- t))) as B. assert (acos (exp (- t)) < acos 0) as L by (apply acos_less; lra). rewrite acos_0 in L.
  split; [apply Rmult_le_pos; [lra|left; now apply Rinv_0_lt_compat]|]. apply Rmult_lt_reg_r with PI; [assumption|]. unfold Rdiv. rewrite Rmult_assoc, Rinv_l by lra. lra.
Qed.
Lemma prandtl_0 : prandtl 0 = 0.
Proof. unfold prandtl. rewrite Ropp_0, exp_0, acos_1. field. apply PI_neq0. Qed.
Lemma prandtl_less : forall s t, 0 <= s -> s < t -> prandtl s < prandtl t.
Proof.
  intros s t S T. unfold prandtl. pose proof PI_RGT_0 as P. pose proof (exp_neg_range s S). assert (0 <= t) as T0 by lra. pose proof (exp_neg_range t T0).
  assert (exp (- t) < exp (- s)) as L by (apply exp_increasing; lra).
  apply acos_less in L; [|lra|lra]. apply Rmult_lt_compat_r; [now apply Rinv_0_lt_compat|lra].
Qed.
Lemma prandtl_pos : forall t, 0 < t -> 0 < prandtl t.
Proof. intros t H. rewrite <- prandtl_0. apply prandtl_less; lra. Qed.
Lemma inflow_pos : forall r Rt Wa Wt, 0 < inflow_ratio r Rt Wa Wt.
Proof. intros. unfold inflow_ratio. lcase 0 (r * Wa / (Rt * Wt)); [assumption|]. apply Rinv_0_lt_compat, pow_lt. lra. Qed.
Lemma tip_loss_prandtl : forall r Rt Wa Wt B, tip_loss r Rt Wa Wt B = prandtl (B / 2 * (Rt / r - 1) / inflow_ratio r Rt Wa Wt).
Proof. reflexivity. Qed.
Lemma tip_factor_nonneg : forall r Rt Wa Wt B, 0 < r <= Rt -> 0 < B -> 0 <= B / 2 * (Rt / r - 1) / inflow_ratio r Rt Wa Wt.
Proof.
  intros r Rt Wa Wt B [H1 H2] HB. pose proof (inflow_pos r Rt Wa Wt) as L.
  assert (1 <= Rt / r) as Q. { apply Rmult_le_reg_r with r; [assumption|]. unfold Rdiv. rewrite Rmult_assoc, Rinv_l by lra. lra. }
  apply Rmult_le_pos; [apply Rmult_le_pos; lra|]. left. now apply Rinv_0_lt_compat.
Qed.
Lemma tip_factor_pos : forall r Rt Wa Wt B, 0 < r < Rt -> 0 < B -> 0 < B / 2 * (Rt / r - 1) / inflow_ratio r Rt Wa Wt.
Proof.
  intros r Rt Wa Wt B [H1 H2] HB. pose proof (inflow_pos r Rt Wa Wt) as L.
  assert (1 < Rt / r) as Q. { apply Rmult_lt_reg_r with r; [assumption|]. unfold Rdiv. rewrite Rmult_assoc, Rinv_l by lra. lra. }
  apply Rmult_lt_0_compat; [apply Rmult_lt_0_compat; lra|]. now apply Rinv_0_lt_compat.
Qed.
Lemma tip_loss_range : forall r Rt Wa Wt B, 0 < r <= Rt -> 0 < B -> 0 <= tip_loss r Rt Wa Wt B < 1.
Proof. intros. rewrite tip_loss_prandtl. apply prandtl_range. now apply tip_factor_nonneg. Qed.
Lemma tip_loss_pos : forall r Rt Wa Wt B, 0 < r < Rt -> 0 < B -> 0 < tip_loss r Rt Wa Wt B.
Proof. intros. rewrite tip_loss_prandtl. apply prandtl_pos. now apply tip_factor_pos. Qed.
Lemma tip_loss_tip : forall Rt Wa Wt B, 0 < Rt -> tip_loss Rt Rt Wa Wt B = 0.
Proof.
  intros. rewrite tip_loss_prandtl. pose proof (inflow_pos Rt Rt Wa Wt). 
  replace (B / 2 * (Rt / Rt - 1) / inflow_ratio Rt Rt Wa Wt) with 0 by (field; lra). apply prandtl_0.
Qed.
Lemma inflow_forward : forall r Rt Wa Wt, 0 < r -> 0 < Rt -> 0 < Wa -> 0 < Wt -> inflow_ratio r Rt Wa Wt = r * Wa / (Rt * Wt).
Proof.
  intros. unfold inflow_ratio. lcase 0 (r * Wa / (Rt * Wt)); [reflexivity|].
  assert (0 < r * Wa / (Rt * Wt)) by (apply Rdiv_lt_0_compat; apply Rmult_lt_0_compat; assumption). lra.
Qed.
Lemma tip_loss_falls : forall r r' Rt Wa Wt B, 0 < r -> r < r' -> r' <= Rt -> 0 < Wa -> 0 < Wt -> 0 < B ->
  tip_loss r' Rt Wa Wt B < tip_loss r Rt Wa Wt B.
Proof.
  intros r r' Rt Wa Wt B H1 H2 H3 HA HT HB. rewrite !tip_loss_prandtl. apply prandtl_less; [apply tip_factor_nonneg; lra|].
  rewrite !inflow_forward by lra.
  replace (B / 2 * (Rt / r' - 1) / (r' * Wa / (Rt * Wt))) with (B / 2 * (Rt * Wt / Wa) * ((Rt - r') * (/ r' * / r'))) by (field; lra).
  replace (B / 2 * (Rt / r - 1) / (r * Wa / (Rt * Wt))) with (B / 2 * (Rt * Wt / Wa) * ((Rt - r) * (/ r * / r))) by (field; lra).
  assert (0 < Rt * Wt / Wa) as Q by (apply Rdiv_lt_0_compat; [apply Rmult_lt_0_compat; lra|assumption]).
  apply Rmult_lt_compat_l; [nra|]. assert (0 < / r') by (apply Rinv_0_lt_compat; lra). assert (/ r' < / r) by (apply Rinv_lt_contravar; [nra|lra]).
  assert (/ r' * / r' < / r * / r) by nra. assert (0 < / r' * / r') by nra. nra.
Qed.
Lemma tip_loss_blades : forall r Rt Wa Wt B B', 0 < r < Rt -> 0 < B -> B < B' -> tip_loss r Rt Wa Wt B < tip_loss r Rt Wa Wt B'.
Proof.
  intros r Rt Wa Wt B B' H HB L. rewrite !tip_loss_prandtl. apply prandtl_less; [apply tip_factor_nonneg; lra|].
  pose proof (tip_factor_pos r Rt Wa Wt 1 H Rlt_0_1). 
  replace (B / 2 * (Rt / r - 1) / inflow_ratio r Rt Wa Wt) with (B * (1 / 2 * (Rt / r - 1) / inflow_ratio r Rt Wa Wt)) by (pose proof (inflow_pos r Rt Wa Wt); field; lra).
  replace (B' / 2 * (Rt / r - 1) / inflow_ratio r Rt Wa Wt) with (B' * (1 / 2 * (Rt / r - 1) / inflow_ratio r Rt Wa Wt)) by (pose proof (inflow_pos r Rt Wa Wt); field; lra).
  nra.
Qed.
Lemma tip_loss_inflow : forall r Rt Wa Wa' Wt B, 0 < r < Rt -> 0 < B -> 0 < Wa -> Wa < Wa' -> 0 < Wt -> tip_loss r Rt Wa' Wt B < tip_loss r Rt Wa Wt B.
Proof.
  intros r Rt Wa Wa' Wt B H HB HA L HT. rewrite !tip_loss_prandtl. apply prandtl_less; [apply tip_factor_nonneg; lra|]. rewrite !inflow_forward by lra.
  replace (B / 2 * (Rt / r - 1) / (r * Wa' / (Rt * Wt))) with (B / 2 * (Rt * Wt) * ((Rt - r) * (/ r * / r)) * / Wa') by (field; lra).
  replace (B / 2 * (Rt / r - 1) / (r * Wa / (Rt * Wt))) with (B / 2 * (Rt * Wt) * ((Rt - r) * (/ r * / r)) * / Wa) by (field; lra).
  apply Rmult_lt_compat_l; [|apply Rinv_lt_contravar; [nra|lra]].
  assert (0 < / r) by (apply Rinv_0_lt_compat; lra). 
  apply Rmult_lt_0_compat; [apply Rmult_lt_0_compat; [lra|apply Rmult_lt_0_compat; lra]|apply Rmult_lt_0_compat; [lra|nra]].
Qed.

(** ** sections *)
Lemma nonzero_not : forall x, nonzero x <> 0.
Proof. intros x. unfold nonzero. destruct (Req_EM_T x 0); lra. Qed.
Lemma drag_poly_pos : forall x, 0 < drag_poly x.
Proof.
  intros x. unfold drag_poly.
  replace (108 / 1000 * (x * x * x * x) - 2612 / 10000 * (x * x * x) + 181 / 1000 * (x * x) - 139 / 10000 * x + 278 / 10000)
    with (108 / 1000 * ((x * (x - 1306 / 1080)) * (x * (x - 1306 / 1080))) + (181 / 1000 - 108 / 1000 * (1306 / 1080) * (1306 / 1080)) * (x * x) - 139 / 10000 * x + 278 / 10000) by field.
  assert (0 <= (x * (x - 1306 / 1080)) * (x * (x - 1306 / 1080))) by apply Rle_0_sqr.
  assert (0 <= (x - 3 / 10) * (x - 3 / 10)) by apply Rle_0_sqr. nra.
Qed.
Lemma formula_drag_pos : forall cl alpha Re, 0 < Re -> 0 < formula_drag cl alpha Re.
Proof.
  intros. unfold formula_drag. lcase alpha (PI / 2); [|lra]. apply Rmult_lt_0_compat; [apply drag_poly_pos|].
  apply pw_pos. apply Rdiv_lt_0_compat; lra.
Qed.
Lemma stall_pos : forall tc Re, 0 < Re -> 7 / 10 * pw (Re / (9 * 1000000)) (1 / 10) <= stall_lift tc Re /\ 0 < stall_lift tc Re.
Proof.
  intros tc Re H. unfold stall_lift. assert (0 < pw (Re / (9 * 1000000)) (1 / 10)) as P by (apply pw_pos; apply Rdiv_lt_0_compat; lra).
  set (m := _ + 7005 / 10000). set (p := pw _ _) in *. lcase m (7 / 10); split; nra.
Qed.
Lemma root_range : forall Ma, 0 <= Ma -> Ma < 1 -> 0 < sqrt (1 - Ma * Ma) <= 1 /\ Ma * Ma / (1 + sqrt (1 - Ma * Ma)) = 1 - sqrt (1 - Ma * Ma).
Proof.
  intros Ma H1 H2. assert (0 < 1 - Ma * Ma) as P by nra. pose proof (sqrt_lt_R0 _ P) as Q. 
  assert (sqrt (1 - Ma * Ma) * sqrt (1 - Ma * Ma) = 1 - Ma * Ma) as S by (apply sqrt_sqrt; lra).
  assert (sqrt (1 - Ma * Ma) <= 1) as U by (apply Rle_trans with (sqrt 1); [apply sqrt_le_1; nra|rewrite sqrt_1; lra]).
  split; [lra|]. apply Rmult_eq_reg_r with (1 + sqrt (1 - Ma * Ma)); [|lra]. unfold Rdiv. rewrite Rmult_assoc, Rinv_l by lra. nra.
Qed.
Lemma karman_eq : forall Ma cl, 0 <= Ma -> Ma < 1 -> 0 < cl ->
  let b := sqrt (1 - Ma * Ma) in karman_tsien Ma cl = cl / (b * 1 + (1 - b) * (cl / 2)) /\ 0 < b <= 1.
Proof.
  intros Ma cl H1 H2 C b. destruct (root_range Ma H1 H2) as [B E]. fold b in B, E. split; [|assumption].
  unfold karman_tsien. lcase Ma 1; [|lra]. lcase 0 cl; [|lra]. cbn [andb]. fold b. rewrite E. f_equal. field.
Qed.
Lemma karman_off : forall Ma cl, 1 <= Ma \/ cl <= 0 -> karman_tsien Ma cl = cl.
Proof. intros Ma cl H. unfold karman_tsien. lcase Ma 1; [|reflexivity]. lcase 0 cl; [lra|reflexivity]. Qed.
Lemma blend_range : forall b cl, 0 < b <= 1 -> 0 < cl -> 0 < b * 1 + (1 - b) * (cl / 2).
Proof. intros b cl [H1 H2] C. nra. Qed.
Lemma karman_pos : forall Ma cl, 0 <= Ma -> 0 < cl -> 0 < karman_tsien Ma cl.
Proof.
  intros Ma cl H C. destruct (Rlt_le_dec Ma 1) as [L|L]; [|rewrite karman_off; auto].
  destruct (karman_eq Ma cl H L C) as [-> B]. apply Rdiv_lt_0_compat; [assumption|]. now apply blend_range.
Qed.
Lemma frac_le : forall a b k, 0 < b -> a <= k * b -> a / b <= k.
Proof. intros. apply Rmult_le_reg_r with b; [assumption|]. unfold Rdiv. rewrite Rmult_assoc, Rinv_l by lra. lra. Qed.
Lemma frac_ge : forall a b k, 0 < b -> k * b <= a -> k <= a / b.
Proof. intros. apply Rmult_le_reg_r with b; [assumption|]. unfold Rdiv. rewrite Rmult_assoc, Rinv_l by lra. lra. Qed.
(** between the lift and 2 *)
Lemma karman_between : forall Ma cl, 0 <= Ma -> Ma < 1 -> 0 < cl -> (cl <= 2 -> cl <= karman_tsien Ma cl <= 2) /\ (2 <= cl -> 2 <= karman_tsien Ma cl <= cl).
Proof.
  intros Ma cl H L C. destruct (karman_eq Ma cl H L C) as [-> B]. pose proof (blend_range _ cl B C) as P. set (b := sqrt _) in *.
  set (D := b * 1 + (1 - b) * (cl / 2)) in *. assert (D - 1 = (1 - b) * (cl / 2 - 1)) as D1 by (unfold D; ring). assert (2 * D - cl = b * (2 - cl)) as D2 by (unfold D; field).
  split; intros K.
  - assert (D <= 1) by nra. assert (cl <= 2 * D) by nra. split; [apply frac_ge|apply frac_le]; nra.
  - assert (1 <= D) by nra. assert (2 * D <= cl) by nra. split; [apply frac_ge|apply frac_le]; nra.
Qed.
Lemma div_cross : forall a b c d, 0 < b -> 0 < d -> a * d < c * b -> a / b < c / d.
Proof.
  intros. apply Rmult_lt_reg_r with (b * d); [now apply Rmult_lt_0_compat|]. 
  replace (a / b * (b * d)) with (a * d) by (field; lra). replace (c / d * (b * d)) with (c * b) by (field; lra). assumption.
Qed.
Lemma karman_rises : forall Ma cl cl', 0 <= Ma -> Ma < 1 -> 0 < cl -> cl < cl' -> karman_tsien Ma cl < karman_tsien Ma cl'.
Proof.
  intros Ma cl cl' H L C K. assert (0 < cl') as C' by lra. destruct (karman_eq Ma cl H L C) as [-> B]. destruct (karman_eq Ma cl' H L C') as [-> _].
  pose proof (blend_range _ cl B C) as P. pose proof (blend_range _ cl' B C') as P'. set (b := sqrt _) in *.
  apply div_cross; try assumption. nra.
Qed.
Lemma heating_pos : forall Ma, 1 <= heating Ma.
Proof. intros. unfold heating. nra. Qed.
Lemma heating_rises : forall Ma Ma', 0 <= Ma -> Ma < Ma' -> heating Ma < heating Ma'.
Proof. intros. unfold heating. nra. Qed.
(** the factor on the drag *)
Definition drag_factor (t T : R) : R := 1 / t * pw (1 / (pw t (5 / 2) * (t * T + 1104 / 10) / (T + 1104 / 10))) (2 / 10).
Lemma compressible_factor : forall cd Ma T, compressible_drag cd Ma T = drag_factor (heating Ma) T * cd.
Proof. reflexivity. Qed.
Lemma viscosity_rises : forall t t' T, 0 < T -> 1 <= t -> t < t' -> 0 < pw t (5 / 2) * (t * T + 1104 / 10) / (T + 1104 / 10) < pw t' (5 / 2) * (t' * T + 1104 / 10) / (T + 1104 / 10).
Proof.
  intros t t' T HT H L. assert (pw t (5 / 2) < pw t' (5 / 2)) as P by (apply pw_less; lra). assert (0 < pw t (5 / 2)) as Q by (apply pw_pos; lra).
  assert (t * T < t' * T) by (apply Rmult_lt_compat_r; assumption). assert (0 < t * T) by (apply Rmult_lt_0_compat; lra).
  split; [apply Rdiv_lt_0_compat; [apply Rmult_lt_0_compat; lra|lra]|]. apply div_less; [lra|]. nra.
Qed.
Lemma drag_factor_falls : forall t t' T, 0 < T -> 1 <= t -> t < t' -> 0 < drag_factor t' T < drag_factor t T.
Proof.
  intros t t' T HT H L. unfold drag_factor. destruct (viscosity_rises t t' T HT H L) as [A B].
  set (x := pw t (5 / 2) * (t * T + 1104 / 10) / (T + 1104 / 10)) in *. set (y := pw t' (5 / 2) * (t' * T + 1104 / 10) / (T + 1104 / 10)) in *.
  assert (0 < y) as Y by lra.
  assert (0 < 1 / y) as A1 by (apply Rdiv_lt_0_compat; lra). assert (1 / y < 1 / x) as A2 by (apply div_cross; lra).
  assert (0 < pw (1 / y) (2 / 10)) as A3 by (now apply pw_pos). assert (pw (1 / y) (2 / 10) < pw (1 / x) (2 / 10)) as A4 by (apply pw_less; lra).
  assert (0 < 1 / t') as A5 by (apply Rdiv_lt_0_compat; lra). assert (1 / t' < 1 / t) as A6 by (apply div_cross; lra).
  split; [now apply Rmult_lt_0_compat|]. nra.
Qed.
Lemma drag_factor_1 : forall T, 0 < T -> drag_factor 1 T = 1.
Proof.
  intros T H. unfold drag_factor. rewrite (pw_eq 1 (5 / 2)) by lra. rewrite Rpower_one.
  replace (1 / (1 * (1 * T + 1104 / 10) / (T + 1104 / 10))) with 1 by (field; lra). rewrite pw_eq by lra. rewrite Rpower_one. lra.
Qed.
Lemma drag_factor_range : forall Ma T, 0 < T -> 0 < drag_factor (heating Ma) T <= 1.
Proof.
  intros Ma T H. pose proof (heating_pos Ma) as [L|<-].
  - pose proof (drag_factor_falls 1 (heating Ma) T H (Rle_refl 1) L) as [A B]. rewrite drag_factor_1 in B by assumption. lra.
  - rewrite drag_factor_1 by assumption. lra.
Qed.
Lemma compressible_nonneg : forall cd Ma T, 0 < T -> 0 <= cd -> 0 <= compressible_drag cd Ma T <= cd.
Proof. intros. rewrite compressible_factor. pose proof (drag_factor_range Ma T H). nra. Qed.

(** ** flow and energy *)
Lemma va_vt_flow : forall U Ua Ut psi, fst (va_vt U Ua Ut psi) + Ua = axial_flow U Ua psi /\ Ut - snd (va_vt U Ua Ut psi) = tangential_flow U Ut psi.
Proof. intros. unfold va_vt. cbn [fst snd]. split; ring. Qed.
Lemma flow_orthogonal : forall U Ua Ut psi, let Wa := axial_flow U Ua psi in let Wt := tangential_flow U Ut psi in
  (Wa - Ua) * Wa - (Ut - Wt) * Wt = / 4 * (U * U - (Ua * Ua + Ut * Ut)).
Proof.
  intros. unfold Wa, Wt, axial_flow, tangential_flow. pose proof (sin2_cos2 psi) as S. unfold Rsqr in S.
  assert (cos psi * cos psi = 1 - sin psi * sin psi) as C by lra.
  transitivity (/ 4 * (U * U * (sin psi * sin psi + cos psi * cos psi) - (Ua * Ua + Ut * Ut))); [field|]. rewrite S. field.
Qed.
Lemma flow_pythagoras : forall U Ua Ut psi, let Wa := axial_flow U Ua psi in let Wt := tangential_flow U Ut psi in
  U * U = Ua * Ua + Ut * Ut -> (Wa * Wa + Wt * Wt) + ((Wa - Ua) * (Wa - Ua) + (Ut - Wt) * (Ut - Wt)) = U * U.
Proof.
  intros U Ua Ut psi Wa Wt H. pose proof (flow_orthogonal U Ua Ut psi) as O. cbv zeta in O. fold Wa Wt in O.
  assert (Wa * Wa + Wt * Wt + ((Wa - Ua) * (Wa - Ua) + (Ut - Wt) * (Ut - Wt)) = Ua * Ua + Ut * Ut + 2 * ((Wa - Ua) * Wa - (Ut - Wt) * Wt)) as E by ring.
  rewrite E, O, H. field.
Qed.
Lemma hyp_square : forall V r, let U := sqrt (V * V + r * r) in U * U = V * V + r * r.
Proof. intros. apply sqrt_sqrt. nra. Qed.
Lemma zero_term : forall a b, sqrt (a + b + 0 * 0) = sqrt (a + b).
Proof. intros. f_equal. ring. Qed.
Lemma speed_square : forall a b, speed a b * speed a b = a * a + b * b.
Proof. intros. apply sqrt_sqrt. nra. Qed.
Lemma speed_pos : forall a b, 0 < a -> 0 < speed a b.
Proof. intros. apply sqrt_lt_R0. nra. Qed.
(** power of an element = thrust power + losses, for every wake angle *)
Lemma element_balance : forall k x pitch s dr V Ut psi, let U := sqrt (V * V + Ut * Ut) in
  fst (coefficients k s pitch (axial_flow U V psi) (tangential_flow U Ut psi)) <> 0 ->
  let e := blade_element k x pitch s dr V Ut (fst (va_vt U V Ut psi)) (snd (va_vt U V Ut psi)) in
  forall omega, Ut = omega * s_r s ->
  omega * e_torque e = V * e_thrust e + (induced_loss k dr V Ut e + friction_loss k (s_c s) dr e).
Proof.
  intros k x pitch s dr V Ut psi U NZ e omega Q.
  destruct (va_vt_flow U V Ut psi) as [F1 F2].
  unfold e, blade_element. cbv zeta. rewrite F1, F2. cbn [e_torque e_thrust]. unfold induced_loss, friction_loss. cbn [e_gamma e_Wa e_Wt e_cd].
  pose proof (flow_orthogonal U V Ut psi) as O. cbv zeta in O. 
  assert (U * U = V * V + Ut * Ut) as UU by (unfold U; apply hyp_square).
  set (Wa := axial_flow U V psi) in *. set (Wt := tangential_flow U Ut psi) in *. set (cl := fst (coefficients k s pitch Wa Wt)) in *.
  set (cd := compressible_drag _ _ _). set (W := speed Wa Wt).
  assert ((Wa - V) * Wa = (Ut - Wt) * Wt) as O' by (rewrite UU in O; lra).
  replace (omega * (a_rho k * (/ 2 * W * s_c s * cl * (Wa + cd / cl * Wt) * s_r s) * dr)) with (a_rho k * dr * (/ 2 * W * s_c s) * (cl * Wa + cd * Wt) * (omega * s_r s)) by (field; assumption).
  rewrite <- Q.
  replace (V * (a_rho k * (/ 2 * W * s_c s * cl * (Wt - cd / cl * Wa)) * dr)) with (a_rho k * dr * (/ 2 * W * s_c s) * (cl * Wt - cd * Wa) * V) by (field; assumption).
  assert ((cl * Wa + cd * Wt) * Ut = (cl * Wt - cd * Wa) * V + cl * ((Wa - V) * Wt + (Ut - Wt) * Wa) + cd * (Wa * Wa + Wt * Wt)) as M.
  { assert (cd * (Wa * V + Wt * Ut) = cd * (Wa * Wa + Wt * Wt)) as M1. { f_equal. lra. } 
    replace ((cl * Wa + cd * Wt) * Ut) with (cl * Wa * Ut + cd * (Wa * V + Wt * Ut) - cd * Wa * V) by ring. rewrite M1. ring. }
  replace (a_rho k * dr * (/ 2 * W * s_c s) * (cl * Wa + cd * Wt) * Ut) with (a_rho k * dr * (/ 2 * W * s_c s) * ((cl * Wa + cd * Wt) * Ut)) by ring.
  rewrite M. ring.
Qed.
