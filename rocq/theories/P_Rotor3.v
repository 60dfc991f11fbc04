(** * Rotors: contraction of the wake, slipstream on the wing, propeller design *)
From Coq Require Import Reals List Bool Arith Lra Lia Psatz.
From Verif Require Import PyBase M_Opt P_Opt M_Drag P_Friction M_Rot P_Rot S_Rot M_Noise P_Noise M_Evtol S_Elec S_Evtol P_Evtol P_Weight M_Rotor S_Rotor P_Rotor P_Rotor2.
Import ListNotations.
Local Open Scope R_scope.

(** ** contraction *)
Lemma contraction_pos : forall V Kd a b, 0 < V -> 0 < Kd -> 0 <= a -> 0 <= b -> 0 < contraction V Kd a b /\ 0 < 2 * V + Kd * (b + a).
Proof. intros V Kd a b HV HK HA HB. assert (0 <= Kd * (b + a)) by (apply Rmult_le_pos; lra). unfold contraction. split; [apply Rdiv_lt_0_compat; lra|lra]. Qed.
Lemma contraction_down : forall V Kd a b, 0 < V -> 1 <= Kd -> 0 <= a -> 0 <= b -> contraction V Kd a b <= 1.
Proof. intros V Kd a b HV HK HA HB. assert (0 < Kd) as K0 by lra. destruct (contraction_pos V Kd a b HV K0 HA HB) as [_ P]. unfold contraction. apply frac_le; [assumption|]. nra. Qed.
Lemma contraction_half : forall V Kd a b, 0 < V -> 0 < Kd < 2 -> 0 <= a -> 0 <= b -> / 2 <= contraction V Kd a b.
Proof. intros V Kd a b HV [K0 HK] HA HB. destruct (contraction_pos V Kd a b HV K0 HA HB) as [_ P]. unfold contraction. apply frac_ge; [assumption|]. nra. Qed.
Lemma contraction_up : forall V Kd a b, 0 < V -> 0 < Kd <= 1 -> 0 <= a -> 0 <= b -> 1 <= contraction V Kd a b.
Proof. intros V Kd a b HV [K0 HK] HA HB. destruct (contraction_pos V Kd a b HV K0 HA HB) as [_ P]. unfold contraction. apply frac_ge; [assumption|]. nra. Qed.
Lemma wake_radii_length : forall V Kd l rp, length (wake_radii V Kd rp l) = length l.
Proof. intros V Kd l. induction l as [|[r0 v0] l IH]; intros rp; [reflexivity|]. destruct l as [|[r1 v1] l]; [reflexivity|]. cbn [wake_radii length]. f_equal. exact (IH _). Qed.
Lemma wake_radii_cons : forall V Kd rp r0 v0 r1 v1 l, wake_radii V Kd rp ((r0, v0) :: (r1, v1) :: l) = rp :: wake_radii V Kd (sqrt (rp * rp + (r1 * r1 - r0 * r0) * contraction V Kd v0 v1)) ((r1, v1) :: l).
Proof. reflexivity. Qed.
Lemma wake_first : forall V Kd rp l, l <> [] -> nth 0 (wake_radii V Kd rp l) 0 = rp.
Proof. intros V Kd rp [|[a b] [|[c d] l]] H; [congruence|reflexivity|reflexivity]. Qed.
(** radii and squares *)
Lemma wake_squares : forall V Kd l rp, 0 < V -> 0 < Kd -> 0 <= rp -> Forall (fun p => 0 < fst p /\ 0 <= snd p) l -> rising (map fst l) ->
  forall j, (S j < length l)%nat ->
  nth (S j) (wake_radii V Kd rp l) 0 * nth (S j) (wake_radii V Kd rp l) 0 - nth j (wake_radii V Kd rp l) 0 * nth j (wake_radii V Kd rp l) 0
  = (fst (nth (S j) l (0, 0)) * fst (nth (S j) l (0, 0)) - fst (nth j l (0, 0)) * fst (nth j l (0, 0))) * contraction V Kd (snd (nth j l (0, 0))) (snd (nth (S j) l (0, 0)))
  /\ 0 <= nth j (wake_radii V Kd rp l) 0 < nth (S j) (wake_radii V Kd rp l) 0.
Proof.
  intros V Kd l. induction l as [|[r0 v0] l IH]; intros rp HV HK HP F RI j H; [cbn in H; lia|].
  destruct l as [|[r1 v1] l]; [cbn in H; lia|]. inversion F as [|? ? [F1 F2] F']. subst. inversion F' as [|? ? [F3 F4] F'']. subst. cbn [fst snd] in *.
  destruct RI as [R1 R2]. cbn [map fst] in R1, R2. rewrite wake_radii_cons.
  destruct (contraction_pos V Kd v0 v1 HV HK F2 F4) as [CP _].
  assert (0 < (r1 * r1 - r0 * r0) * contraction V Kd v0 v1) as D by (apply Rmult_lt_0_compat; [nra|assumption]).
  set (q := sqrt (rp * rp + (r1 * r1 - r0 * r0) * contraction V Kd v0 v1)).
  assert (q * q = rp * rp + (r1 * r1 - r0 * r0) * contraction V Kd v0 v1) as QQ by (apply sqrt_sqrt; assert (0 <= rp * rp) by nra; lra).
  assert (0 <= q) as Q0 by apply sqrt_pos.
  destruct j as [|j].
  - cbn [nth fst snd]. pose proof (wake_first V Kd q ((r1, v1) :: l)) as W. rewrite W by discriminate. rewrite QQ. split; [ring|]. split; [assumption|]. nra.
  - cbn [nth]. specialize (IH q HV HK Q0 F' R2 j). cbn [length] in *. specialize (IH ltac:(lia)). exact IH.
Qed.
Lemma Forall2_nth_R : forall (P : R -> R -> Prop) a b, Forall2 P a b -> forall j d e, (j < length a)%nat -> P (nth j a d) (nth j b e).
Proof. intros P a b H. induction H as [|x y a b X H IH]; intros j d e L; [cbn in L; lia|]. destruct j; [assumption|]. apply IH. cbn in L. lia. Qed.
Lemma wake_below : forall V Kd l rp, 0 < V -> 1 <= Kd -> Forall (fun p => 0 < fst p /\ 0 <= snd p) l -> rising (map fst l) -> 0 <= rp -> rp <= fst (hd (0, 0) l) ->
  Forall2 Rle (wake_radii V Kd rp l) (map fst l).
Proof.
  intros V Kd l. induction l as [|[r0 v0] l IH]; intros rp HV HK F RI H0 HL; [constructor|].
  destruct l as [|[r1 v1] l]; [constructor; [exact HL|constructor]|]. inversion F as [|? ? [F1 F2] F']. subst. inversion F' as [|? ? [F3 F4] F'']. subst. cbn [fst snd hd] in *.
  destruct RI as [R1 R2]. cbn [map fst] in R1, R2. rewrite wake_radii_cons. constructor; [exact HL|]. apply IH; try assumption; [apply sqrt_pos|]. cbn [hd fst].
  pose proof (contraction_down V Kd v0 v1 HV HK F2 F4) as C. assert (0 < Kd) as K0 by lra. destruct (contraction_pos V Kd v0 v1 HV K0 F2 F4) as [CP _].
  assert (rp * rp <= r0 * r0) by nra. assert (0 < r1 * r1 - r0 * r0) by nra. assert (0 <= rp * rp) by nra. assert (0 <= (r1 * r1 - r0 * r0) * contraction V Kd v0 v1) by (apply Rmult_le_pos; lra).
  apply Rle_trans with (sqrt (r1 * r1)); [|rewrite sqrt_square by lra; lra]. apply sqrt_le_1; [lra|nra|]. nra.
Qed.
Lemma wake_above : forall V Kd l rp, 0 < V -> 0 < Kd <= 1 -> Forall (fun p => 0 < fst p /\ 0 <= snd p) l -> rising (map fst l) -> fst (hd (0, 0) l) <= rp ->
  Forall2 Rle (map fst l) (wake_radii V Kd rp l).
Proof.
  intros V Kd l. induction l as [|[r0 v0] l IH]; intros rp HV HK F RI HL; [constructor|].
  destruct l as [|[r1 v1] l]; [constructor; [exact HL|constructor]|]. inversion F as [|? ? [F1 F2] F']. subst. inversion F' as [|? ? [F3 F4] F'']. subst. cbn [fst snd hd] in *.
  destruct RI as [R1 R2]. cbn [map fst] in R1, R2. rewrite wake_radii_cons. constructor; [exact HL|]. apply IH; try assumption. cbn [hd fst].
  pose proof (contraction_up V Kd v0 v1 HV HK F2 F4) as C.
  assert (r0 * r0 <= rp * rp) by nra. assert (0 < r1 * r1 - r0 * r0) by nra. assert (r1 * r1 - r0 * r0 <= (r1 * r1 - r0 * r0) * contraction V Kd v0 v1) by nra.
  apply Rle_trans with (sqrt (r1 * r1)); [rewrite sqrt_square by lra; lra|]. apply sqrt_le_1; [nra|nra|lra].
Qed.
Lemma wake_half : forall V Kd l rp, 0 < V -> 0 < Kd < 2 -> Forall (fun p => 0 < fst p /\ 0 <= snd p) l -> rising (map fst l) -> 0 <= rp -> fst (hd (0, 0) l) * fst (hd (0, 0) l) <= 2 * (rp * rp) ->
  Forall2 (fun r rp => r * r <= 2 * (rp * rp)) (map fst l) (wake_radii V Kd rp l).
Proof.
  intros V Kd l. induction l as [|[r0 v0] l IH]; intros rp HV HK F RI H0 HL; [constructor|].
  destruct l as [|[r1 v1] l]; [constructor; [exact HL|constructor]|]. inversion F as [|? ? [F1 F2] F']. subst. inversion F' as [|? ? [F3 F4] F'']. subst. cbn [fst snd hd] in *.
  destruct RI as [R1 R2]. cbn [map fst] in R1, R2. rewrite wake_radii_cons. constructor; [exact HL|]. apply IH; try assumption; [apply sqrt_pos|]. cbn [hd fst].
  pose proof (contraction_half V Kd v0 v1 HV HK F2 F4) as C. assert (0 < r1 * r1 - r0 * r0) by nra. assert (0 <= rp * rp) by nra. assert (/ 2 * (r1 * r1 - r0 * r0) <= (r1 * r1 - r0 * r0) * contraction V Kd v0 v1) by nra. rewrite sqrt_sqrt by lra. lra.
Qed.

(** ** slipstream *)
Lemma interp_cons : forall y0 v0 y1 v1 l y, interp ((y0, v0) :: (y1, v1) :: l) y = if Rltb y1 y then interp ((y1, v1) :: l) y else v0 + (v1 - v0) / (y1 - y0) * (y - y0).
Proof. reflexivity. Qed.
Lemma rising_nth : forall l i j, rising l -> (i < j < length l)%nat -> nth i l 0 < nth j l 0.
Proof.
  induction l as [|a l IH]; intros i j H [L1 L2]; [cbn in L2; lia|]. destruct l as [|b l]; [cbn in L2; lia|]. destruct H as [H1 H2].
  destruct j as [|j]; [lia|]. destruct i as [|i].
  - cbn [nth]. destruct j as [|j]; [assumption|]. apply Rlt_trans with b; [assumption|]. apply (IH 0%nat (S j)); [assumption|]. cbn [length] in *. lia.
  - apply (IH i j); [assumption|]. cbn [length] in *. lia.
Qed.
Lemma interp_knot : forall l j, rising (map fst l) -> (j < length l)%nat -> interp l (fst (nth j l (0, 0))) = snd (nth j l (0, 0)).
Proof.
  induction l as [|[y0 v0] l IH]; intros j H L; [cbn in L; lia|]. destruct l as [|[y1 v1] l].
  - destruct j; [reflexivity|cbn in L; lia].
  - rewrite interp_cons. pose proof H as [H1 H2]. cbn [map fst] in H1, H2. destruct j as [|[|j]].
    + cbn [nth fst snd]. lcase y1 y0; [lra|]. ring.
    + cbn [nth fst snd]. lcase y1 y1; [lra|]. field. lra.
    + pose proof (rising_nth (map fst ((y1, v1) :: l)) 0 (S j) H2) as Q. rewrite map_length in Q. cbn [length] in L, Q. specialize (Q ltac:(lia)).
      change 0 with (fst (0, 0)) in Q at 2. change 0 with (fst (0, 0)) in Q at 1. rewrite !map_nth in Q. cbn [nth fst] in Q. cbn [nth].
      match goal with |- context [Rltb ?a ?b] => lcase a b end; [|lra]. apply (IH (S j)); [assumption|cbn [length]; lia].
Qed.
Lemma rising_map_plus : forall y l, rising l -> rising (map (fun r => y + r) l).
Proof. intros y l. induction l as [|a l IH]; intros H; [exact I|]. destruct l as [|b l]; [exact I|]. destruct H. split; [lra|auto]. Qed.
Lemma rising_app : forall a b, rising a -> rising b -> (a <> [] -> b <> [] -> last a 0 < hd 0 b) -> rising (a ++ b).
Proof.
  induction a as [|x a IH]; intros b A B L; [exact B|]. destruct a as [|y a].
  - destruct b as [|z b]; [exact I|]. cbn. split; [|exact B]. apply L; discriminate.
  - destruct A as [A1 A2]. change ((x :: y :: a) ++ b) with (x :: (y :: a) ++ b). cbn [app]. split; [assumption|]. apply (IH b); [assumption|assumption|]. intros _ NB. apply L; [discriminate|assumption].
Qed.
Lemma rising_rev : forall y l, rising l -> rising (rev (map (fun r => y - r) l)).
Proof.
  intros y l. induction l as [|a l IH]; intros H; [exact I|]. cbn [map rev]. apply rising_app; [apply IH; destruct l; [exact I|apply H]|exact I|].
  intros NE _. cbn [hd]. destruct l as [|b l]; [cbn in NE; congruence|]. destruct H as [H _]. cbn [map rev]. rewrite last_last. lra.
Qed.
Lemma map_fst_combine : forall (a b : list R), length a = length b -> map fst (combine a b) = a.
Proof. induction a as [|x a IH]; intros [|y b] H; cbn in *; try congruence. f_equal. apply IH. congruence. Qed.
Lemma spanwise_fst : forall y r v, length r = length v -> map fst (spanwise y r v) = rev (map (fun r => y - r) r) ++ map (fun r => y + r) r.
Proof. intros y r v H. unfold spanwise. rewrite map_app, map_rev, !map_fst_combine by (rewrite map_length; assumption). reflexivity. Qed.
Lemma spanwise_rising : forall y r v, length r = length v -> rising r -> 0 < hd 0 r -> rising (map fst (spanwise y r v)).
Proof.
  intros y r v H R P. rewrite spanwise_fst by assumption. apply rising_app; [now apply rising_rev|now apply rising_map_plus|].
  intros _ _. destruct r as [|a r]; [cbn in P; lra|]. cbn [map rev hd] in *. rewrite last_last. lra.
Qed.
Lemma spanwise_right : forall y r v j, length r = length v -> (j < length r)%nat ->
  nth (length r + j) (spanwise y r v) (0, 0) = (y + nth j r 0, nth j v 0).
Proof.
  intros y r v j H L. unfold spanwise. rewrite app_nth2; rewrite rev_length, combine_length, map_length, <- H, Nat.min_id; [|lia].
  replace (length r + j - length r)%nat with j by lia. rewrite (nth_indep _ _ (y + 0, 0)) by (rewrite combine_length, map_length; lia).
  rewrite combine_nth by (rewrite map_length; assumption). f_equal. apply (map_nth (fun r => y + r)).
Qed.
Lemma spanwise_left : forall y r v j, length r = length v -> (j < length r)%nat ->
  nth (length r - S j) (spanwise y r v) (0, 0) = (y - nth j r 0, nth j v 0).
Proof.
  intros y r v j H L. unfold spanwise. rewrite app_nth1; [|rewrite rev_length, combine_length, map_length; lia].
  rewrite rev_nth; rewrite combine_length, map_length, <- H, Nat.min_id; [|lia].
  replace (length r - S (length r - S j))%nat with j by lia. rewrite (nth_indep _ _ (y - 0, 0)) by (rewrite combine_length, map_length; lia).
  rewrite combine_nth by (rewrite map_length; assumption). f_equal. apply (map_nth (fun r => y - r)).
Qed.
Lemma interp_right : forall y r v j, length r = length v -> rising r -> 0 < hd 0 r -> (j < length r)%nat -> interp (spanwise y r v) (y + nth j r 0) = nth j v 0.
Proof.
  intros y r v j H R P L. pose proof (interp_knot (spanwise y r v) (length r + j) (spanwise_rising y r v H R P)) as K.
  rewrite spanwise_right in K by assumption. apply K. unfold spanwise. rewrite app_length, rev_length, !combine_length, !map_length. lia.
Qed.
Lemma interp_left : forall y r v j, length r = length v -> rising r -> 0 < hd 0 r -> (j < length r)%nat -> interp (spanwise y r v) (y - nth j r 0) = nth j v 0.
Proof.
  intros y r v j H R P L. pose proof (interp_knot (spanwise y r v) (length r - S j) (spanwise_rising y r v H R P)) as K.
  rewrite spanwise_left in K by assumption. apply K. unfold spanwise. rewrite app_length, rev_length, !combine_length, !map_length. lia.
Qed.

(** ** propeller design *)
Lemma chis_length : forall d, length (chis d) = d_n d.
Proof. intros. unfold chis. rewrite firstn_length, linspace_length. lia. Qed.
Lemma nth_firstn_R : forall (l : list R) n i d, (i < n)%nat -> nth i (firstn n l) d = nth i l d.
Proof. intros l n. revert l. induction n as [|n IH]; intros l i d H; [lia|]. destruct l; [destruct i; reflexivity|]. destruct i; [reflexivity|]. cbn. apply IH. lia. Qed.
Lemma chis_nth : forall d i, (i < d_n d)%nat -> nth i (chis d) 0 = d_hub d / d_tip d + (1 - d_hub d / d_tip d) * (INR i / INR (d_n d)).
Proof.
  intros d i H. unfold chis. rewrite nth_firstn_R by assumption. rewrite linspace_nth by lia. replace (S (d_n d) - 1)%nat with (d_n d) by lia. reflexivity.
Qed.
Lemma hub_ratio : forall d, sound_brief d -> 0 < d_hub d / d_tip d < 1.
Proof.
  intros d H. destruct H. split; [apply Rdiv_lt_0_compat; lra|]. apply Rmult_lt_reg_r with (d_tip d); [lra|]. unfold Rdiv. rewrite Rmult_assoc, Rinv_l by lra. lra.
Qed.
Lemma chis_range : forall d, sound_brief d -> Forall (fun chi => 0 < chi < 1) (chis d).
Proof.
  intros d H. pose proof (hub_ratio d H) as Q. apply Forall_forall. intros chi I. apply (In_nth _ _ 0) in I. destruct I as (i & L & <-). rewrite chis_length in L.
  rewrite chis_nth by assumption. assert (0 <= INR i / INR (d_n d) < 1) as F.
  { assert (0 < INR (d_n d)) as N by (apply lt_0_INR; lia). split; [apply Rmult_le_pos; [apply pos_INR|left; now apply Rinv_0_lt_compat]|].
    apply Rmult_lt_reg_r with (INR (d_n d)); [assumption|]. unfold Rdiv. rewrite Rmult_assoc, Rinv_l by lra. apply lt_INR in L. lra. }
  nra.
Qed.
Lemma d_V_pos : forall d, sound_brief d -> d_V d = d_speed d /\ 0 < d_V d.
Proof. intros d H. destruct H. unfold d_V. destruct (Req_EM_T (d_speed d) 0); lra. Qed.
Lemma lamda_pos : forall d, sound_brief d -> 0 < lamda d.
Proof. intros d H. destruct (d_V_pos d H) as [_ V]. destruct H. unfold lamda. apply Rdiv_lt_0_compat; [assumption|]. apply Rmult_lt_0_compat; lra. Qed.
Lemma atan_pos_sc : forall t, 0 < t -> 0 < sin (atan t) /\ 0 < cos (atan t) /\ tan (atan t) = t.
Proof.
  intros t H. destruct (atan_cs t) as [C S]. assert (0 < sqrt (1 + t * t)) as P by (apply sqrt_lt_R0; nra). rewrite C, S. split; [|split].
  - now apply Rdiv_lt_0_compat.
  - now apply Rinv_0_lt_compat.
  - apply tan_atan.
Qed.
(** the circulation function, and drag over lift times the tangent *)
Record point_facts (d : brief) (zeta chi : R) : Prop := {
  pf_i1 : 0 < p_i1 (design_point d zeta chi); pf_i2 : 0 < p_i2 (design_point d zeta chi); pf_j2 : 0 < p_j2 (design_point d zeta chi);
  pf_j1 : p_i1 (design_point d zeta chi) <= p_j1 (design_point d zeta chi); pf_chord : 0 < p_chord (design_point d zeta chi) }.
Lemma point_sound : forall d zeta chi, sound_brief d -> 0 < zeta -> 0 < chi < 1 -> glide d zeta chi < 1 -> point_facts d zeta chi.
Proof.
  intros d zeta chi SB HZ HX HG. destruct (d_V_pos d SB) as [_ V]. pose proof (lamda_pos d SB) as L. pose proof SB as [N B HB HT HO HS HC SA HD _].
  assert (0 < d_tip d) as T0 by lra.
  unfold glide in HG. cbv zeta in HG.
  set (tp := lamda d * (1 + zeta / 2)) in *. assert (0 < tp) as TP by (apply Rmult_lt_0_compat; lra).
  set (t := tp / chi) in *. assert (0 < t) as TT by (apply Rdiv_lt_0_compat; lra).
  destruct (atan_pos_sc tp TP) as (S1 & _ & _). destruct (atan_pos_sc t TT) as (S2 & C2 & T2).
  set (f := d_blades d / 2 * (1 - chi) / sin (atan tp)) in *. 
  assert (0 < f) as FP by (apply Rdiv_lt_0_compat; [apply Rmult_lt_0_compat; lra|assumption]).
  set (F := 2 / PI * acos (exp (- f))) in *. 
  assert (0 < F) as F0. { pose proof (prandtl_pos f FP) as Q. unfold prandtl in Q. unfold F. replace (2 / PI * acos (exp (- f))) with (2 * acos (exp (- f)) / PI); [assumption|]. field. apply PI_neq0. }
  set (x := d_omega d * (chi * d_tip d) / d_V d) in *. assert (0 < x) as X0 by (apply Rdiv_lt_0_compat; [apply Rmult_lt_0_compat; [lra|apply Rmult_lt_0_compat; lra]|assumption]).
  set (G := F * x * cos (atan t) * sin (atan t)) in *.
  assert (0 < G) as G0 by (apply Rmult_lt_0_compat; [apply Rmult_lt_0_compat; [now apply Rmult_lt_0_compat|assumption]|assumption]).
  set (Wc := 4 * PI * lamda d * G * d_V d * d_tip d * zeta / (d_cl d * d_blades d)) in *.
  assert (0 < Wc) as W0. { pose proof PI_RGT_0. apply Rdiv_lt_0_compat; [|now apply Rmult_lt_0_compat].
    apply Rmult_lt_0_compat; [|assumption]. apply Rmult_lt_0_compat; [|assumption]. apply Rmult_lt_0_compat; [|assumption]. apply Rmult_lt_0_compat; [|assumption]. apply Rmult_lt_0_compat; lra. }
  set (cd := compressible_drag _ _ _) in *. set (eps := cd / d_cl d) in *. destruct SA as [R1 R2 R3 R4].
  assert (0 <= eps) as E0. { assert (0 < Wc / a_nu (d_air d)) as RE by (now apply Rdiv_lt_0_compat). pose proof (compressible_nonneg _ (Wc / a_sound (d_air d)) _ R4 (HD _ RE)) as [Q _].
    apply Rmult_le_pos; [exact Q|]. left. now apply Rinv_0_lt_compat. }
  assert (0 < 1 - eps * t) as E1 by lra. assert (0 <= eps / t) as E2 by (apply Rmult_le_pos; [assumption|left; now apply Rinv_0_lt_compat]).
  assert (0 <= eps * t) as E3 by (apply Rmult_le_pos; lra).
  assert (0 < 4 * chi * G) as K by (apply Rmult_lt_0_compat; lra).
  constructor; unfold design_point; cbv zeta; cbn [p_i1 p_i2 p_j1 p_j2 p_chord]; fold tp; fold t; fold f; fold F; fold x; fold G; fold Wc; fold cd; fold eps; rewrite ?T2.
  - now apply Rmult_lt_0_compat.
  - apply Rmult_lt_0_compat; [apply Rmult_lt_0_compat; [apply Rmult_lt_0_compat; [apply Rmult_lt_0_compat; [assumption|apply Rdiv_lt_0_compat; [now apply Rmult_lt_0_compat|lra]]|lra]|assumption]|assumption].
  - apply Rmult_lt_0_compat; [apply Rmult_lt_0_compat; [apply Rdiv_lt_0_compat; [apply Rmult_lt_0_compat; lra|lra]|assumption]|now apply Rmult_lt_0_compat].
  - apply Rmult_le_compat_l; lra.
  - apply Rdiv_lt_0_compat; [assumption|]. apply Rdiv_lt_0_compat; [|assumption]. apply Rmult_lt_0_compat; [assumption|].
    assert (0 < zeta / 2 * (cos (atan t) * cos (atan t)) * (1 - eps * t)) by (apply Rmult_lt_0_compat; [apply Rmult_lt_0_compat; [lra|now apply Rmult_lt_0_compat]|assumption]). lra.
Qed.
Lemma total_positive : forall (A : Type) (f : A -> R) l, l <> [] -> Forall (fun x => 0 < f x) l -> 0 < total (map f l).
Proof.
  intros A f l N H. unfold total. destruct H as [|a l A0 H]; [congruence|]. clear N. revert a A0. induction H as [|b l B0 H IH]; intros a A0; cbn; [lra|].
  specialize (IH b B0). cbn in IH. lra.
Qed.
Lemma total_leq : forall (A : Type) (f g : A -> R) l, Forall (fun x => f x <= g x) l -> total (map f l) <= total (map g l).
Proof. intros A f g l H. unfold total. induction H as [|a l A0 H IH]; cbn; lra. Qed.
Lemma integrals_sound : forall d zeta, sound_brief d -> 0 < zeta ->
  0 < q_i1 (integrals d zeta) /\ 0 < q_i2 (integrals d zeta) /\ 0 < q_j2 (integrals d zeta) /\ q_i1 (integrals d zeta) <= q_j1 (integrals d zeta).
Proof.
  intros d zeta SB HZ. pose proof (sb_n d SB) as N.
  assert (Forall (point_facts d zeta) (chis d)) as F.
  { pose proof (chis_range d SB) as R. pose proof (sb_glide d SB zeta HZ) as G. rewrite Forall_forall in *. intros chi I. apply point_sound; auto. }
  assert (0 < nth 1 (chis d) 0 - nth 0 (chis d) 0) as DC.
  { rewrite !chis_nth by lia. pose proof (hub_ratio d SB). assert (0 < / INR (d_n d)) by (apply Rinv_0_lt_compat, lt_0_INR; lia). unfold Rdiv at 3 6. cbn [INR]. nra. }
  assert (chis d <> []) as NE. { intros E. pose proof (chis_length d) as L. rewrite E in L. cbn in L. lia. }
  unfold integrals. cbv zeta. cbn [q_i1 q_i2 q_j1 q_j2]. set (dc := _ - _) in *. rewrite !map_map.
  repeat split.
  - apply (total_positive _ (fun chi => p_i1 (design_point d zeta chi) * dc)); [assumption|]. eapply Forall_impl; [|exact F]. intros chi P. apply Rmult_lt_0_compat; [apply P|assumption].
  - apply (total_positive _ (fun chi => p_i2 (design_point d zeta chi) * dc)); [assumption|]. eapply Forall_impl; [|exact F]. intros chi P. apply Rmult_lt_0_compat; [apply P|assumption].
  - apply (total_positive _ (fun chi => p_j2 (design_point d zeta chi) * dc)); [assumption|]. eapply Forall_impl; [|exact F]. intros chi P. apply Rmult_lt_0_compat; [apply P|assumption].
  - apply total_leq. eapply Forall_impl; [|exact F]. intros chi P. apply Rmult_le_compat_r; [lra|apply P].
Qed.
(** the two quadratic equations *)
Lemma thrust_root : forall q Tc, 0 < q_i1 q -> 0 < q_i2 q -> 0 < Tc ->
  let z := next_zeta (ForThrust Tc) q in q_i1 q * z - q_i2 q * (z * z) = capped q Tc /\ 0 < z /\ 0 < capped q Tc <= Tc /\
  (4 * q_i2 q * Tc < q_i1 q * q_i1 q -> capped q Tc = Tc) /\ (q_i1 q * q_i1 q <= 4 * q_i2 q * Tc -> capped q Tc = q_i1 q * q_i1 q / (4 * q_i2 q)).
Proof.
  intros q Tc H1 H2 HT z. unfold next_zeta in z. cbv zeta in z. set (h := q_i1 q / (2 * q_i2 q)) in z.
  assert (0 < h) as H0 by (apply Rdiv_lt_0_compat; lra). assert (q_i1 q = 2 * h * q_i2 q) as E by (unfold h; field; lra).
  assert (q_i2 q * (h * h) = q_i1 q * q_i1 q / (4 * q_i2 q)) as M by (unfold h; field; lra).
  assert (0 < q_i2 q * (h * h)) as M0 by (apply Rmult_lt_0_compat; [assumption|nra]).
  assert (capped q Tc = if Rltb Tc (q_i2 q * (h * h)) then Tc else q_i2 q * (h * h)) as C by reflexivity.
  assert (0 < capped q Tc <= Tc /\ capped q Tc <= q_i2 q * (h * h)) as (C1 & C2). { rewrite C. lcase Tc (q_i2 q * (h * h)); lra. }
  assert (0 <= h * h - capped q Tc / q_i2 q < h * h) as S.
  { assert (0 < capped q Tc / q_i2 q) by (apply Rdiv_lt_0_compat; lra). assert (capped q Tc / q_i2 q <= h * h) by (apply frac_le; [assumption|lra]). lra. }
  set (s := sqrt (h * h - capped q Tc / q_i2 q)) in z. assert (s * s = h * h - capped q Tc / q_i2 q) as SS by (apply sqrt_sqrt; lra).
  assert (0 <= s) as S0 by apply sqrt_pos. assert (s < h) as SH by nra.
  split; [|split; [unfold z; lra|split; [assumption|]]].
  - unfold z. rewrite E. replace (2 * h * q_i2 q * (h - s) - q_i2 q * ((h - s) * (h - s))) with (q_i2 q * (h * h - s * s)) by ring. rewrite SS. field. lra.
  - assert (q_i1 q * q_i1 q = 4 * q_i2 q * (q_i2 q * (h * h))) as Q by (rewrite E; ring). rewrite Q. split; intros K; rewrite C; lcase Tc (q_i2 q * (h * h)); try reflexivity; try nra.
Qed.
Lemma power_root : forall q Pc, 0 < q_j1 q -> 0 < q_j2 q -> 0 < Pc ->
  let z := next_zeta (ForPower Pc) q in q_j1 q * z + q_j2 q * (z * z) = Pc /\ 0 < z.
Proof.
  intros q Pc H1 H2 HP z. unfold next_zeta in z. cbv zeta in z. set (h := q_j1 q / (q_j2 q * 2)) in z.
  assert (0 < h) as H0 by (apply Rdiv_lt_0_compat; lra). assert (q_j1 q = 2 * h * q_j2 q) as E by (unfold h; field; lra).
  assert (0 < Pc / q_j2 q) as P0 by (now apply Rdiv_lt_0_compat). assert (0 < h * h) as HH by nra.
  set (s := sqrt (h * h + Pc / q_j2 q)) in z. assert (s * s = h * h + Pc / q_j2 q) as SS by (apply sqrt_sqrt; lra).
  assert (0 <= s) as S0 by apply sqrt_pos. assert (h < s) as SH by nra.
  split; [|unfold z; lra]. unfold z. rewrite E. replace (2 * h * q_j2 q * (- h + s) + q_j2 q * ((- h + s) * (- h + s))) with (q_j2 q * (s * s - h * h)) by ring. rewrite SS. field. lra.
Qed.
(** the loop keeps the displacement ratio positive *)
Definition wanted (g : goal) : R := match g with ForThrust t => t | ForPower p => p end.
Lemma next_pos : forall d g zeta, sound_brief d -> 0 < wanted g -> 0 < zeta -> 0 < next_zeta g (integrals d zeta).
Proof.
  intros d [Tc|Pc] zeta SB W Z; destruct (integrals_sound d zeta SB Z) as (A & B & C & D); cbn [wanted] in W.
  - apply (thrust_root (integrals d zeta) Tc A B W).
  - assert (0 < q_j1 (integrals d zeta)) as E by lra. apply (power_root (integrals d zeta) Pc E C W).
Qed.
Lemma loop_pos : forall d g, sound_brief d -> 0 < wanted g -> forall k zeta zl, 0 < zeta -> design_loop k d g zeta = Some zl ->
  0 < zl /\ Rabs (zl - next_zeta g (integrals d zl)) <= / 10 ^ 10.
Proof.
  intros d g SB W k. induction k as [|k IH]; intros zeta zl Z H; [discriminate|]. cbn [design_loop] in H. cbv zeta in H.
  destruct (ltbP (/ 10 ^ 10) (Rabs (zeta - next_zeta g (integrals d zeta)))) as [[E L]|[E L]]; rewrite E in H.
  - apply (IH _ _ (next_pos d g zeta SB W Z) H).
  - inversion H. subst. split; assumption.
Qed.
