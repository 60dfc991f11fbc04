(** * Lifting line: C166 *)
From Coq Require Import Reals List Arith Bool Lia Lra Psatz.
From Verif Require Import PyBase M_Opt P_Opt M_Mission P_Mission P_Cheb M_Line S_Line P_Line Props_Line Props_Line2.
Import ListNotations.
Local Open Scope R_scope.

Lemma totals_sum sref l acc : sref <> 0 -> totals sref l acc = (fst acc + together sref (map (fun wo => (fst wo, fst (snd wo))) l), snd acc + together sref (map (fun wo => (fst wo, snd (snd wo))) l)).
Proof.
  intro N. unfold together. revert acc. induction l as [|[w [cl cd]] l IH]; intro acc; [cbn; destruct acc; cbn; f_equal; field; exact N|]. cbn [totals map fold_right fst snd]. rewrite IH. cbn [fst snd]. f_equal; field; exact N.
Qed.
(** lift and drag of the vehicle are those of the wings put together *)
Theorem C166_totals sref ws r alpha out : sref <> 0 -> vehicle sref ws r alpha out -> exists outs, Forall2 (fun w o => lifting_line w r alpha o) ws outs /\
  fst out = together sref (combine ws (map fst outs)) /\ snd out = together sref (combine ws (map snd outs)).
Proof.
  intros N (outs & F & ->). exists outs. split; [exact F|]. rewrite totals_sum by exact N. cbn [fst snd]. rewrite !Rplus_0_l.
  assert (E : forall f : R * R -> R, map (fun wo : lwing * (R * R) => (fst wo, f (snd wo))) (combine ws outs) = combine ws (map f outs)) by (intro f; clear; revert outs; induction ws as [|w ws IH]; intros [|o outs]; cbn; f_equal; apply IH).
  rewrite !E. split; reflexivity.
Qed.
Lemma vehicle_cons sref w ws r alpha out : sref <> 0 -> (vehicle sref (w :: ws) r alpha out <-> exists o out', lifting_line w r alpha o /\ vehicle sref ws r alpha out' /\ out = (fst o * lw_area w / sref + fst out', snd o * lw_area w / sref + snd out')).
Proof.
  intro N. split.
  - intros (outs & F & ->). inversion F as [|w' o ws' outs' H H' E1 E2]; subst. exists o, (totals sref (combine ws outs') (0, 0)). split; [exact H|]. split; [exists outs'; auto|]. destruct o as [cl cd]. cbn [combine totals fst snd]. rewrite !totals_sum by exact N. cbn [fst snd]. f_equal; ring.
  - intros (o & out' & H & (outs & F & ->) & ->). exists (o :: outs). split; [constructor; assumption|]. destruct o as [cl cd]. cbn [combine totals fst snd]. rewrite !totals_sum by exact N. cbn [fst snd]. f_equal; ring.
Qed.
(** a wing's lift as a straight line *)
Lemma wing_line w r : fair w r -> exists m k, forall alpha o, lifting_line w r alpha o -> fst o = k + m * alpha.
Proof.
  intro F. destruct (C162_one_answer w r 0 F) as (o0 & L0 & _). destruct (C162_one_answer w r 1 F) as (o1 & L1 & _). exists (fst o1 - fst o0), (fst o0). intros alpha o L.
  rewrite (C163_linear w r alpha 0 1 o0 o1 o F L0 L1); [ring|]. replace ((1 - alpha) * 0 + alpha * 1) with alpha by ring. exact L.
Qed.
Lemma vehicle_line sref ws r : sref <> 0 -> Forall (fun w => fair w r) ws -> exists m k, forall alpha out, vehicle sref ws r alpha out -> fst out = k + m * alpha.
Proof.
  intros N F. induction F as [|w ws Fw F IH].
  - exists 0, 0. intros alpha out (outs & H & ->). inversion H. cbn. ring.
  - destruct IH as (m & k & IH). destruct (wing_line w r Fw) as (m' & k' & W). exists (m' * lw_area w / sref + m), (k' * lw_area w / sref + k). intros alpha out V. apply vehicle_cons in V; [|exact N]. destruct V as (o & out' & L & V & ->). cbn [fst]. rewrite (W _ _ L), (IH _ _ V). field. exact N.
Qed.
Lemma squares_nonneg p l : 0 <= squares p l.
Proof. unfold squares. induction l as [|[x y] l IH]; cbn [fold_right]; [lra|]. pose proof (pow2_ge_0 (poly p (fst (x, y)) - snd (x, y))). lra. Qed.
Lemma squares_zero p l : squares p l <= 0 -> Forall (fun xy => poly p (fst xy) = snd xy) l.
Proof.
  induction l as [|[x y] l IH]; intro H; constructor.
  - cbn [squares fold_right fst snd] in *. pose proof (squares_nonneg p l) as S. unfold squares in *. nra.
  - apply IH. cbn [squares fold_right fst snd] in *. unfold squares in *. pose proof (pow2_ge_0 (poly p x - y)). lra.
Qed.
Lemma squares_fit p l : Forall (fun xy => poly p (fst xy) = snd xy) l -> squares p l = 0.
Proof. intro F. induction F as [|[x y] l E F IH]; [reflexivity|]. cbn [squares fold_right fst snd] in *. unfold squares in *. rewrite IH, E. ring. Qed.
Lemma five (P : R -> R -> Prop) ys : Forall2 P training ys -> let h := PI / 180 in exists y1 y2 y3 y4 y5, ys = [y1; y2; y3; y4; y5] /\ P (-10 * h) y1 /\ P (-5 * h) y2 /\ P (0 * h) y3 /\ P (5 * h) y4 /\ P (10 * h) y5.
Proof.
  intro F. unfold training in F. cbn [map] in F. assert (I : forall x xs zs, Forall2 P (x :: xs) zs -> exists y t, zs = y :: t /\ P x y /\ Forall2 P xs t) by (intros x xs zs G; inversion G; subst; eauto).
  destruct (I _ _ _ F) as (y1 & t1 & -> & P1 & F1). destruct (I _ _ _ F1) as (y2 & t2 & -> & P2 & F2). destruct (I _ _ _ F2) as (y3 & t3 & -> & P3 & F3). destruct (I _ _ _ F3) as (y4 & t4 & -> & P4 & F4). destruct (I _ _ _ F4) as (y5 & t5 & -> & P5 & F5).
  inversion F5. exists y1, y2, y3, y4, y5. auto 10.
Qed.
(** a fit of first or second degree to points of a straight line is the line *)
Lemma fit_line deg ys p m k : (1 <= deg <= 2)%nat -> Forall2 (fun x y => y = k + m * x) training ys -> polyfit deg (combine training ys) p -> forall x, poly p x = k + m * x.
Proof.
  intros D F (Lp & Min) x. pose proof PI_RGT_0. set (q := if Nat.eqb deg 1 then [k; m] else [k; m; 0]).
  assert (Eq : forall t, poly q t = k + m * t) by (intro t; unfold q; destruct (Nat.eqb deg 1); cbn; ring).
  assert (S : squares p (combine training ys) <= 0).
  { rewrite <- (squares_fit q (combine training ys)); [apply Min; unfold q; destruct (Nat.eqb_spec deg 1); cbn; lia|]. clear - F Eq. induction F as [|a b l l' E F IH]; cbn; constructor; [cbn; rewrite Eq; symmetry; exact E|exact IH]. }
  apply squares_zero in S.
  destruct (five _ ys F) as (y1 & y2 & y3 & y4 & y5 & -> & E1 & E2 & E3 & E4 & E5). unfold training in S. cbn [map combine] in S.
  inversion_clear S as [|? ? H1 S1]. inversion_clear S1 as [|? ? H2 S2]. inversion_clear S2 as [|? ? H3 S3]. inversion_clear S3 as [|? ? H4 S4]. cbn [fst snd] in *. subst. set (h := PI / 180) in *. assert (HP : 0 < h) by (unfold h; lra).
  destruct p as [|a [|b p]]; cbn in Lp; try lia. destruct p as [|c p]; cbn in Lp; [|destruct p; cbn in Lp; [|lia]]; cbn [poly] in *.
  - assert (a = k) by lra. subst. assert (b = m) by nra. subst. ring.
  - assert (a = k) by lra. subst. assert (X : h * (b - m) = 0 /\ h ^ 2 * c = 0) by (split; lra). destruct X as (X & Y). apply Rmult_integral in X. apply Rmult_integral in Y. assert (0 < h ^ 2) by (apply pow_lt, HP). assert (b = m) by lra. assert (c = 0) by lra. subst. ring.
Qed.
(** the lift model of the vehicle, fitted at five angles, is the lifting line at every angle *)
Theorem C166_lift sref ws r ys p : sref <> 0 -> Forall (fun w => fair w r) ws -> Forall2 (fun x y => exists cd, vehicle sref ws r x (y, cd)) training ys -> polyfit 1 (combine training ys) p ->
  forall alpha out, vehicle sref ws r alpha out -> poly p alpha = fst out.
Proof.
  intros N F D P alpha out V. destruct (vehicle_line sref ws r N F) as (m & k & E). rewrite (E _ _ V). apply (fit_line 1 ys p m k); [lia| |exact P].
  clear P. induction D as [|x y xs ys (cd & H) D IH]; constructor; [apply (E _ _ H)|exact IH].
Qed.
Lemma sq0 x : x ^ 2 <= 0 -> x = 0.
Proof. intro H. apply Rsqr_0_uniq. unfold Rsqr. nra. Qed.
Lemma vehicle_odd sref ws r alpha out out' : sref <> 0 -> Forall (fun w => fair w r /\ untwisted w r) ws -> vehicle sref ws r alpha out -> vehicle sref ws r (- alpha) out' -> snd out' = - snd out.
Proof.
  intros N F. revert out out'. induction F as [|w ws (Fw & U) F IH]; intros out out' V V'.
  - destruct V as (o & H & ->). destruct V' as (o' & H' & ->). inversion H. inversion H'. cbn. ring.
  - apply vehicle_cons in V; [|exact N]. apply vehicle_cons in V'; [|exact N]. destruct V as (o & q & L & V & ->). destruct V' as (o' & q' & L' & V' & ->). cbn [snd]. rewrite (IH _ _ V V'). rewrite (proj2 (C165_odd_refuted w r alpha o o' Fw U L L')). field. exact N.
Qed.
(** the drag model of a vehicle with untwisted wings is a straight line through zero: negative on one side *)
Theorem C166_drag_refuted sref ws r ys p : sref <> 0 -> Forall (fun w => fair w r /\ untwisted w r) ws -> Forall2 (fun x y => exists cl, vehicle sref ws r x (cl, y)) training ys -> polyfit 2 (combine training ys) p ->
  exists m, forall alpha, poly p alpha = m * alpha.
Proof.
  intros N F D (Lp & Min). pose proof PI_RGT_0. destruct (five _ ys D) as (y1 & y2 & y3 & y4 & y5 & -> & (c1 & V1) & (c2 & V2) & (c3 & V3) & (c4 & V4) & (c5 & V5)). unfold training in Min. cbn [map combine] in Min. set (h := PI / 180) in *. assert (HP : 0 < h) by (unfold h; lra).
  replace (-10 * h) with (- (10 * h)) in V1 by ring. replace (-5 * h) with (- (5 * h)) in V2 by ring.
  assert (E1 := vehicle_odd sref ws r _ _ _ N F V5 V1). assert (E2 := vehicle_odd sref ws r _ _ _ N F V4 V2). assert (V3' : vehicle sref ws r (- (0 * h)) (c3, y3)) by (replace (- (0 * h)) with (0 * h) by ring; exact V3). assert (E3 := vehicle_odd sref ws r _ _ _ N F V3 V3'). cbn [snd] in *. subst y1 y2. assert (y3 = 0) by lra. subst y3.
  destruct p as [|a [|b [|c [|d p]]]]; cbn in Lp; try lia. specialize (Min [0; b; 0] eq_refl). cbn [combine squares fold_right fst snd poly] in Min. exists b. intro alpha.
  assert (Q : a ^ 2 + 2 * (a + 25 * c * h ^ 2) ^ 2 + 2 * (a + 100 * c * h ^ 2) ^ 2 <= 0) by nra.
  pose proof (pow2_ge_0 (a + 25 * c * h ^ 2)). pose proof (pow2_ge_0 (a + 100 * c * h ^ 2)). assert (a = 0) by (apply sq0; lra). subst a. assert (X0 : 0 + 25 * c * h ^ 2 = 0) by (apply sq0; lra). assert (X : c * h ^ 2 = 0) by lra. apply Rmult_integral in X. assert (0 < h ^ 2) by (apply pow_lt, HP). assert (c = 0) by lra. subst c. cbn. ring.
Qed.
Lemma shared_last l v old : shared_after (l ++ [v]) old = v.
Proof. unfold shared_after. rewrite fold_left_app. reflexivity. Qed.
(** every wing's lift model is that of the last wing, and so is every wing's drag model *)
Theorem C166_wings_refuted ws w r lifts drags p deg tag : fair w r -> (1 <= deg <= 2)%nat ->
  Forall2 (fun x ls => exists outs, Forall2 (fun w o => lifting_line w r x o) (ws ++ [w]) outs /\ ls = map fst outs) training lifts ->
  (deg = 1%nat /\ polyfit deg (combine training (wing_lift_data tag lifts)) p) \/ (deg = 2%nat /\ polyfit deg (combine training (wing_drag_data tag lifts drags)) p) ->
  forall alpha o, lifting_line w r alpha o -> poly p alpha = fst o.
Proof.
  intros F D H P alpha o L. destruct (wing_line w r F) as (m & k & E). rewrite (E _ _ L). apply (fit_line deg (wing_lift_data tag lifts) p m k D).
  - unfold wing_lift_data. clear P. induction H as [|x ls xs lifts (outs & Fo & ->) H IH]; cbn [map]; constructor; [|exact IH].
    apply Forall2_app_inv_l in Fo. destruct Fo as (o1 & o2 & _ & F2 & ->). inversion F2 as [|? ov ? ? Lw F3]; subst. inversion F3; subst. rewrite map_app. cbn [map]. rewrite shared_last. apply (E _ _ Lw).
  - destruct P as [(_ & P)|(_ & P)]; exact P.
Qed.
Example C166_case : Forall (fun w => fair w 8 /\ untwisted w 8) [plain_wing] /\ exists out, vehicle 10 [plain_wing] 8 (1 / 10) out.
Proof.
  destruct C162_case as (F & U & _). split; [constructor; [split; assumption|constructor]|]. destruct (C162_one_answer plain_wing 8 (1 / 10) F) as (o & L & _). eexists. exists [o]. split; [constructor; [exact L|constructor]|reflexivity].
Qed.
Print Assumptions C166_totals.
Print Assumptions C166_lift.
Print Assumptions C166_drag_refuted.
Print Assumptions C166_wings_refuted.
