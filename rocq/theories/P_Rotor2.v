(** * Rotors: totals, reports and frames *)
From Coq Require Import Reals List Bool Arith Lra Lia Psatz.
From Verif Require Import PyBase M_Opt P_Opt M_Drag P_Friction M_Rot P_Rot S_Rot M_Noise P_Noise M_Evtol S_Elec S_Evtol P_Evtol P_Weight M_Rotor S_Rotor P_Rotor.
Import ListNotations.
Local Open Scope R_scope.

Lemma coefficients_nonzero : forall k s pitch Wa Wt, fst (coefficients k s pitch Wa Wt) <> 0.
Proof.
  intros. unfold coefficients, section_coefficients. destruct (s_section s) as [tc|l loc]; cbn [fst]; [apply nonzero_not|].
  destruct (nth_error l loc) as [[f g]|]; apply nonzero_not.
Qed.
Lemma axial_balance : forall c x V l wake,
  c_omega c * total (map (fun t => e_torque (snd t)) (axial_elements c x V l wake)) =
  V * total (map (fun t => e_thrust (snd t)) (axial_elements c x V l wake)) + losses c V (axial_elements c x V l wake).
Proof.
  intros c x V l. unfold losses. induction l as [|[s dr] l IH]; intros wake; [cbn; ring|].
  destruct wake as [|psi wake]; [cbn; ring|]. cbn [axial_elements]. cbv zeta. rewrite zero_term.
  set (e := blade_element _ _ _ _ _ _ _ _ _). cbn [map fold_right total sum_over fst snd].
  unfold total in *. cbn [fold_right]. specialize (IH wake).
  pose proof (element_balance (c_air c) x (c_pitch c) s dr V (c_omega c * s_r s) psi (coefficients_nonzero _ _ _ _ _) (c_omega c) eq_refl) as E.
  cbv zeta in E. fold e in E. rewrite Rmult_plus_distr_l, IH, E. ring.
Qed.
(** at a settled element both losses are non-negative *)
Lemma settled_losses : forall c x V s dr psi, sound_air (c_air c) -> 0 < x_blades x -> 0 < s_r s <= x_tip x -> 0 <= s_c s -> 0 <= dr -> drags (s_section s) ->
  settled_at c x V s psi ->
  let U := sqrt (V * V + (c_omega c * s_r s) * (c_omega c * s_r s)) in
  let e := blade_element (c_air c) x (c_pitch c) s dr V (c_omega c * s_r s) (fst (va_vt U V (c_omega c * s_r s) psi)) (snd (va_vt U V (c_omega c * s_r s) psi)) in
  0 <= induced_loss (c_air c) dr V (c_omega c * s_r s) e /\ 0 <= friction_loss (c_air c) (s_c s) dr e.
Proof.
  intros c x V s dr psi SA HB HR HC HD DR (RES & PA & PT) U e. fold U in RES. unfold flow_of in PA, PT. cbv zeta in PA, PT. fold U in PA, PT. cbn [fst snd] in PA, PT.
  destruct (va_vt_flow U V (c_omega c * s_r s) psi) as [F1 F2]. set (Ut := c_omega c * s_r s) in *.
  unfold e, blade_element. cbv zeta. rewrite F1, F2. unfold induced_loss, friction_loss. cbn [e_gamma e_Wa e_Wt e_cd].
  unfold residual in RES. cbv zeta in RES.
  pose proof (flow_orthogonal U V Ut psi) as O. cbv zeta in O. 
  assert (U * U = V * V + Ut * Ut) as UU by (unfold U; apply hyp_square).
  set (Wa := axial_flow U V psi) in *. set (Wt := tangential_flow U Ut psi) in *. 
  assert ((Wa - V) * Wa = (Ut - Wt) * Wt) as O' by (rewrite UU in O; lra).
  set (G := / 2 * speed Wa Wt * s_c s * fst (coefficients (c_air c) s (c_pitch c) Wa Wt)) in *.
  pose proof (tip_loss_range (s_r s) (x_tip x) Wa Wt (x_blades x) HR HB) as FR. set (F := tip_loss _ _ _ _ _) in *.
  set (S := sqrt _) in RES. assert (0 <= S) as HS by apply sqrt_pos.
  assert (0 < 4 * PI * s_r s / x_blades x) as HK. { apply Rdiv_lt_0_compat; [|assumption]. pose proof PI_RGT_0. apply Rmult_lt_0_compat; lra. }
  set (K := 4 * PI * s_r s / x_blades x) in *.
  assert (G = (Ut - Wt) * (K * F * S)) as GE by lra.
  assert (0 <= K * F * S) as KFS by (apply Rmult_le_pos; [apply Rmult_le_pos; lra|assumption]).
  assert (0 <= G * (Ut - Wt)) as G1. { rewrite GE. replace ((Ut - Wt) * (K * F * S) * (Ut - Wt)) with ((Ut - Wt) * (Ut - Wt) * (K * F * S)) by ring. apply Rmult_le_pos; [apply Rle_0_sqr|assumption]. }
  assert (0 <= G * (Wa - V)) as G2.
  { replace (Wa - V) with ((Ut - Wt) * Wt / Wa) by (rewrite <- O'; field; lra).
    replace (G * ((Ut - Wt) * Wt / Wa)) with (G * (Ut - Wt) * (Wt / Wa)) by (field; lra). apply Rmult_le_pos; [assumption|]. left. now apply Rdiv_lt_0_compat. }
  destruct SA as [R1 R2 R3 R4]. split.
  - replace (a_rho (c_air c) * dr * G * ((Wa - V) * Wt + (Ut - Wt) * Wa)) with (a_rho (c_air c) * dr * (G * (Wa - V) * Wt + G * (Ut - Wt) * Wa)) by ring.
    apply Rmult_le_pos; [apply Rmult_le_pos; lra|]. apply Rplus_le_le_0_compat; apply Rmult_le_pos; lra.
  - destruct HC as [HC|HC]; [|rewrite <- HC; right; ring].
    assert (0 <= snd (coefficients (c_air c) s (c_pitch c) Wa Wt)) as CD.
    { unfold coefficients. cbv zeta. apply DR. apply Rdiv_lt_0_compat; [|assumption]. apply Rmult_lt_0_compat; [now apply speed_pos|assumption]. }
    pose proof (compressible_nonneg _ (speed Wa Wt / a_sound (c_air c)) _ R4 CD) as [Q _].
    pose proof (speed_pos Wa Wt PA) as SP. assert (0 <= Wa * Wa + Wt * Wt) by nra.
    apply Rmult_le_pos; [apply Rmult_le_pos; lra|]. apply Rmult_le_pos; [apply Rmult_le_pos; [lra|assumption]|]. apply Rmult_le_pos; lra.
Qed.
Lemma settled_total : forall c x V l wake, sound_air (c_air c) -> 0 < x_blades x ->
  Forall (fun s => (0 < s_r (fst s) <= x_tip x /\ 0 <= s_c (fst s)) /\ 0 < snd s /\ drags (s_section (fst s))) l -> Forall2 (settled_at c x V) (map fst l) wake ->
  0 <= losses c V (axial_elements c x V l wake).
Proof.
  intros c x V l wake SA HB. revert wake. unfold losses. induction l as [|[s dr] l IH]; intros wake H W; [cbn; lra|].
  inversion H as [|? ? [[H1 H2] [H3 H4]] H5]. subst. cbn [map fst] in W. inversion W as [|? psi ? wake' W1 W2]. subst. cbn [fst snd] in *.
  cbn [axial_elements]. cbv zeta. rewrite zero_term. cbn [sum_over fst snd].
  assert (0 <= dr) as D by lra.
  destruct (settled_losses c x V s dr psi SA HB H1 H2 D H4 W1) as [L1 L2]. specialize (IH wake' H5 W2).
  apply Rplus_le_le_0_compat; [apply Rplus_le_le_0_compat; assumption|assumption].
Qed.
Lemma combine_fst : forall (A : Type) (l : list A) (w : list R), length w = length l -> map fst (combine l w) = l.
Proof. intros A l. induction l as [|a l IH]; intros [|b w] H; cbn in *; try congruence. f_equal. apply IH. congruence. Qed.
Lemma combine_Forall : forall (A : Type) (P : A -> Prop) (Q : R -> Prop) l w, Forall P l -> Forall Q w -> Forall (fun t => P (fst t) /\ Q (snd t)) (combine l w).
Proof. intros A P Q l w H. revert w. induction H as [|a l A0 H IH]; intros w K; [constructor|]. destruct K; constructor; auto. Qed.
Lemma spin_losses : forall c x V wake, sound_air (c_air c) -> sound_rotor x -> Forall (fun s => drags (s_section s)) (x_stations x) -> settled c x V wake ->
  0 <= losses c V (elements_of c x V wake).
Proof.
  intros c x V wake SA [SB ST SI SR] DR W. unfold elements_of. destruct (deltar (map s_r (x_stations x))) as [dr|er] eqn:D; [|unfold losses; cbn; lra].
  destruct (widths_length _ _ D) as [L _]. rewrite map_length in L. pose proof (widths_pos _ _ D SR) as P.
  apply settled_total; [assumption|assumption| |rewrite combine_fst by assumption; exact W].
  assert (Forall (fun s => (0 < s_r s <= x_tip x /\ 0 <= s_c s) /\ drags (s_section s)) (x_stations x)) as F.
  { apply Forall_and; assumption. }
  pose proof (combine_Forall _ _ _ _ _ F P) as G. eapply Forall_impl; [|exact G]. intros t ((A & B) & C). tauto.
Qed.

(** ** reports *)
Lemma quot_fin : forall a b, b <> 0 -> quot a b = Fin (a / b).
Proof. intros. unfold quot. destruct (Req_EM_T b 0); [contradiction|reflexivity]. Qed.
Lemma quot_zero : forall a, quot a 0 = if Rltb 0 a then PInf else if Rltb a 0 then NInf else NaN.
Proof. intros. unfold quot. destruct (Req_EM_T 0 0); [reflexivity|congruence]. Qed.
Lemma spin_report : forall c x v wake rep, spin_axial c x v wake = Ok rep ->
  rep = report_of c x (axial_speed (vx v)) (axial_loads c x (elements_of c x (axial_speed (vx v)) wake)).
Proof.
  intros c x v wake rep H. unfold spin_axial, elements_of in *. destruct (deltar (map s_r (x_stations x))); cbn [bind] in H; [|discriminate]. congruence.
Qed.
Lemma axial_speed_nonzero : forall v, axial_speed v <> 0.
Proof. intros. unfold axial_speed. destruct (Req_EM_T v 0); lra. Qed.
Lemma in_plane_cycle : forall na k s omega dr e, (2 <= na)%nat -> mean (map (fun psi => in_plane k s omega dr psi e) (azimuths na)) = 0.
Proof.
  intros na k s omega dr e H. unfold in_plane. cbv zeta. set (w := / 2 * a_rho k * s_c s). set (q := omega * s_r s * (omega * s_r s)).
  rewrite <- (mean_cycle na (w * e_cd e * q * dr) (w * e_cl e * q * dr) 0 H). f_equal. apply map_ext. intros psi. rewrite Rplus_0_l. reflexivity.
Qed.
Lemma total_zero : forall (A : Type) (f : A -> R) l, (forall x, In x l -> f x = 0) -> total (map f l) = 0.
Proof. intros A f l H. unfold total. induction l as [|a l IH]; cbn; [reflexivity|]. rewrite (H a (or_introl eq_refl)), IH; [ring|]. intros. apply H. now right. Qed.
Lemma axial_drag : forall c x es, (2 <= x_na x)%nat -> l_drag (axial_loads c x es) = 0.
Proof. intros c x es H. unfold axial_loads. cbn [l_drag]. apply total_zero. intros t _. now apply in_plane_cycle. Qed.
Lemma mean_const : forall (A : Type) (l : list A) k, l <> [] -> mean (map (fun _ => k) l) = k.
Proof.
  intros A l k H. unfold mean. rewrite total_const, map_length. field. apply not_0_INR. destruct l; [congruence|discriminate].
Qed.
Lemma mean_same : forall (A : Type) (f : A -> R) l k, l <> [] -> (forall x, In x l -> f x = k) -> mean (map f l) = k.
Proof. intros A f l k H E. rewrite <- (mean_const A l k H). f_equal. apply map_ext_in. exact E. Qed.
Lemma combine_repeat : forall (l : list R) (psi : R), combine l (repeat psi (length l)) = map (fun p => (p, psi)) l.
Proof. induction l; intros; cbn; [reflexivity|]. now rewrite IHl. Qed.
Lemma azimuths_some : forall na, (1 <= na)%nat -> azimuths na <> [].
Proof. intros na H E. pose proof (azimuths_length na) as L. rewrite E in L. cbn in L. lia. Qed.
Lemma disc_axial : forall c x w l wake, (1 <= x_na x)%nat -> Rabs (vy w) <= 1 / 1000 -> Rabs (vz w) <= 1 / 1000 ->
  disc_loads c (disc_elements c x w l (map (fun psi => repeat psi (x_na x)) wake)) = axial_loads c x (axial_elements c x (vx w) l wake).
Proof.
  intros c x w l wake NA HY HZ. 
  assert (forall psi, crosswind w psi = (0, 0)) as CW.
  { intros psi. unfold crosswind. lcase (1 / 1000) (Rabs (vy w)); [lra|]. lcase (1 / 1000) (Rabs (vz w)); [lra|]. reflexivity. }
  assert (forall s dr psi p, disc_element c x w s dr (p, psi) =
    blade_element (c_air c) x (c_pitch c) s dr (vx w) (c_omega c * s_r s)
      (fst (va_vt (sqrt (vx w * vx w + c_omega c * s_r s * (c_omega c * s_r s) + 0 * 0)) (vx w) (c_omega c * s_r s) psi))
      (snd (va_vt (sqrt (vx w * vx w + c_omega c * s_r s * (c_omega c * s_r s) + 0 * 0)) (vx w) (c_omega c * s_r s) psi))) as DE.
  { intros. unfold disc_element. cbn [fst snd]. rewrite CW. cbn [fst snd]. rewrite Rminus_0_r. reflexivity. }
  assert (forall l wake f, total (map (fun t => mean (map (fun pe => f (fst (fst t)) (snd (fst t)) (fst pe) (snd pe)) (snd t))) (disc_elements c x w l (map (fun psi => repeat psi (x_na x)) wake)))
    = total (map (fun t => mean (map (fun p => f (fst (fst t)) (snd (fst t)) p (snd t)) (azimuths (x_na x)))) (axial_elements c x (vx w) l wake))) as KEY.
  { clear l wake. induction l as [|[s dr] l IH]; intros wake f; [reflexivity|]. destruct wake as [|psi wake]; [reflexivity|].
    cbn [map disc_elements axial_elements]. cbv zeta. unfold total in *. cbn [map fold_right fst snd]. rewrite IH. f_equal. f_equal.
    replace (repeat psi (x_na x)) with (repeat psi (length (azimuths (x_na x)))) by (now rewrite azimuths_length).
    rewrite combine_repeat, !map_map. apply map_ext. intros p. cbn [fst snd]. rewrite DE. reflexivity. }
  unfold disc_loads, axial_loads. f_equal.
  - rewrite (KEY l wake (fun _ _ _ e => e_thrust e)). f_equal. apply map_ext. intros t. apply mean_const. now apply azimuths_some.
  - rewrite (KEY l wake (fun _ _ _ e => e_torque e)). f_equal. apply map_ext. intros t. apply mean_const. now apply azimuths_some.
  - exact (KEY l wake (fun s dr p e => in_plane (c_air c) s (c_omega c) dr p e)).
Qed.
Lemma spin_disc_axial : forall c x v wake, (1 <= x_na x)%nat -> Rabs (vy v) <= 1 / 1000 -> Rabs (vz v) <= 1 / 1000 ->
  spin_disc c x v (map (fun psi => repeat psi (x_na x)) wake) = spin_axial c x v wake.
Proof.
  intros c x v wake NA HY HZ. unfold spin_disc, spin_axial. destruct (deltar _); cbn [bind]; [|reflexivity].
  f_equal. cbn [vx]. f_equal. rewrite disc_axial; [reflexivity|assumption|assumption|assumption].
Qed.
Lemma crosswind_mean : forall na w, (2 <= na)%nat -> mean (map (fun psi => fst (crosswind w psi)) (azimuths na)) = 0 /\ mean (map (fun psi => snd (crosswind w psi)) (azimuths na)) = 0.
Proof.
  intros na w H. assert (azimuths na <> []) as NE by (apply azimuths_some; lia). unfold crosswind.
  destruct (Rltb (1 / 1000) (Rabs (vy w)) || Rltb (1 / 1000) (Rabs (vz w))); cbn [fst snd]; [|split; now apply mean_const].
  split.
  - rewrite <- (mean_cycle na (- vz w) (- vy w) 0 H). f_equal. apply map_ext. intros. rewrite Rplus_0_l. reflexivity.
  - rewrite <- (mean_cycle na (vy w) (vz w) 0 H). f_equal. apply map_ext. intros. rewrite Rplus_0_l. ring.
Qed.
(** same section coefficients around the disc *)
Lemma disc_drag_same : forall c x w s dr row cl cd, (2 <= x_na x)%nat -> length row = x_na x ->
  (forall p, In p (combine (azimuths (x_na x)) row) -> e_cl (disc_element c x w s dr p) = cl /\ e_cd (disc_element c x w s dr p) = cd) ->
  mean (map (fun pe => in_plane (c_air c) s (c_omega c) dr (fst pe) (snd pe)) (map (fun p => (fst p, disc_element c x w s dr p)) (combine (azimuths (x_na x)) row))) = 0.
Proof.
  intros c x w s dr row cl cd H L E. rewrite map_map. cbn [fst snd].
  set (k := / 2 * a_rho (c_air c) * s_c s). set (q := c_omega c * s_r s * (c_omega c * s_r s)).
  rewrite (map_ext_in _ (fun p => k * cd * q * dr * sin (fst p) + k * cl * q * dr * cos (fst p))).
  2: { intros p I. destruct (E p I) as [E1 E2]. unfold in_plane. cbv zeta. rewrite E1, E2. reflexivity. }
  rewrite <- (map_map fst (fun p => k * cd * q * dr * sin p + k * cl * q * dr * cos p)). rewrite combine_fst by (rewrite azimuths_length; assumption).
  rewrite <- (mean_cycle (x_na x) (k * cd * q * dr) (k * cl * q * dr) 0 H). f_equal. apply map_ext. intros. rewrite Rplus_0_l. reflexivity.
Qed.

(** ** frames *)
Lemma rotvec_proper : forall v, proper (rotvec v).
Proof.
  intros [a b d]. unfold rotvec. cbv zeta. cbn [vx vy vz]. set (t := sqrt _). destruct (Req_EM_T t 0) as [Z|NZ]; [apply proper_eye|].
  assert (t * t = a * a + b * b + d * d) as TT. { unfold t, vdot. cbn [vx vy vz]. apply sqrt_sqrt. nra. }
  set (x := a / t). set (y := b / t). set (z := d / t).
  assert (x * x + y * y + z * z = 1) as N. { unfold x, y, z. replace (a / t * (a / t) + b / t * (b / t) + d / t * (d / t)) with ((a * a + b * b + d * d) / (t * t)) by (field; assumption). rewrite <- TT. field. assumption. }
  pose proof (sc t) as SC. set (s := sin t) in *. set (c := cos t) in *. clearbody x y z s c. clear TT NZ t a b d.
  assert (z * z = 1 - x * x - y * y) as ZZ by lra. assert (s * s = 1 - c * c) as SS by lra.
  split; [|split].
  - apply m3_ext; apply v3_ext; repeat (progress (cbn; unfold vdot)); ring [ZZ SS].
  - apply m3_ext; apply v3_ext; repeat (progress (cbn; unfold vdot)); ring [ZZ SS].
  - unfold det3; repeat (progress (cbn; unfold vdot)). ring [ZZ SS].
Qed.
Lemma rotvec_zero : rotvec (V3 0 0 0) = eye3.
Proof. unfold rotvec, vdot. cbn [vx vy vz]. replace (0 * 0 + 0 * 0 + 0 * 0) with 0 by ring. rewrite sqrt_0. destruct (Req_EM_T 0 0); [reflexivity|congruence]. Qed.
(** about the second axis *)
Definition about_y (a : R) : m3 := M3 (V3 (cos a) 0 (sin a)) (V3 0 1 0) (V3 (- sin a) 0 (cos a)).
Lemma rotvec_y : forall a, rotvec (V3 0 a 0) = about_y a.
Proof.
  intros a. unfold rotvec, vdot. cbn [vx vy vz]. replace (0 * 0 + a * a + 0 * 0) with (Rsqr a) by (unfold Rsqr; ring). rewrite sqrt_Rsqr_abs.
  destruct (Req_EM_T (Rabs a) 0) as [Z|NZ].
  - assert (a = 0) as -> by (destruct (Req_dec a 0); [assumption|exfalso; now apply (Rabs_no_R0 a)]). unfold about_y, eye3. rewrite cos_0, sin_0.
    apply m3_ext; apply v3_ext; cbn; ring.
  - unfold about_y. destruct (Rcase_abs a) as [N|P].
    + rewrite Rabs_left by assumption. rewrite cos_neg, sin_neg. apply m3_ext; apply v3_ext; cbn; field; lra.
    + assert (a <> 0) as A0 by (intros ->; apply NZ; apply Rabs_R0). rewrite Rabs_right by assumption. apply m3_ext; apply v3_ext; cbn; field; assumption.
Qed.
Lemma body_to_prop_y : forall a, body_to_prop_vel (V3 0 0 0) a = about_y a.
Proof.
  intros a. unfold body_to_prop_vel. cbn [vx vy vz]. rewrite Rplus_0_l, !rotvec_y. unfold about_y. rewrite cos_PI, sin_PI.
  apply m3_ext; apply v3_ext; repeat (progress (cbn; unfold vdot)); ring.
Qed.
Lemma body_to_prop_proper : forall angles y, proper (body_to_prop_vel angles y).
Proof. intros. unfold body_to_prop_vel. apply proper_mprod; [apply proper_mprod|]; apply rotvec_proper. Qed.

(** ** wake *)
Lemma development_root : forall s Rt, 0 < Rt -> Rabs s < sqrt (s * s + Rt * Rt).
Proof.
  intros s Rt H. rewrite <- (sqrt_Rsqr_abs s). apply sqrt_lt_1; unfold Rsqr; nra.
Qed.
Lemma development_range : forall s Rt, 0 < Rt -> 0 < development s Rt < 2.
Proof.
  intros s Rt H. pose proof (development_root s Rt H) as A. assert (0 < sqrt (s * s + Rt * Rt)) as P by (apply sqrt_lt_R0; nra). unfold development.
  set (q := sqrt _) in *. pose proof (Rle_abs s) as L1. pose proof (Rle_abs (- s)) as L2. rewrite Rabs_Ropp in L2.
  assert (-1 < s / q < 1) as [B1 B2]; [|lra].
  split; apply Rmult_lt_reg_r with q; try assumption; unfold Rdiv; rewrite Rmult_assoc, Rinv_l by lra; lra.
Qed.
Lemma development_disc : forall Rt, development 0 Rt = 1.
Proof. intros. unfold development, Rdiv. rewrite Rmult_0_l. ring. Qed.
Lemma development_mirror : forall s Rt, 0 < Rt -> development s Rt + development (- s) Rt = 2.
Proof. intros s Rt H. unfold development. replace (- s * - s) with (s * s) by ring. assert (0 < sqrt (s * s + Rt * Rt)) as P by (apply sqrt_lt_R0; nra). field. lra. Qed.
Lemma development_pos_rises : forall s s' Rt, 0 < Rt -> 0 <= s -> s < s' -> development s Rt < development s' Rt.
Proof.
  intros s s' Rt H S L. unfold development. assert (0 < sqrt (s * s + Rt * Rt)) as P by (apply sqrt_lt_R0; nra). assert (0 < sqrt (s' * s' + Rt * Rt)) as P' by (apply sqrt_lt_R0; nra).
  apply Rplus_lt_compat_l. apply div_cross; try assumption.
  assert (s * sqrt (s' * s' + Rt * Rt) = sqrt (s * s * (s' * s' + Rt * Rt))) as ->.
  { rewrite sqrt_mult by nra. rewrite sqrt_square by assumption. reflexivity. }
  assert (s' * sqrt (s * s + Rt * Rt) = sqrt (s' * s' * (s * s + Rt * Rt))) as ->.
  { rewrite sqrt_mult by nra. rewrite sqrt_square by lra. reflexivity. }
  apply sqrt_lt_1; [nra|nra|]. assert (s * s < s' * s') by nra. assert (0 < Rt * Rt) by nra. nra.
Qed.
Lemma development_rises : forall s s' Rt, 0 < Rt -> s < s' -> development s Rt < development s' Rt.
Proof.
  intros s s' Rt H L. destruct (Rle_dec 0 s) as [S|S]; [now apply development_pos_rises|].
  destruct (Rle_dec s' 0) as [S'|S'].
  - pose proof (development_mirror s Rt H). pose proof (development_mirror s' Rt H).
    assert (development (- s') Rt < development (- s) Rt) by (apply development_pos_rises; lra). lra.
  - assert (development 0 Rt < development s' Rt) by (apply development_pos_rises; lra).
    assert (development 0 Rt < development (- s) Rt) by (apply development_pos_rises; lra).
    pose proof (development_mirror s Rt H). rewrite development_disc in *. lra.
Qed.
