(** * Shock waves: what the gas-dynamics helpers guarantee *)
From Coq Require Import Reals List Lra Psatz.
From Verif Require Import M_Opt M_Engine S_Engine P_Engine P_Shock.
Import ListNotations.
Local Open Scope R_scope.

(** ** C64: a normal shock conserves mass, momentum and energy, and loses stagnation pressure *)
Theorem C64_normal : forall M g r T P, 1 < g -> 1 < M -> 0 < r -> 0 < T -> 0 < P ->
  let k := oblique M g 0 (PI / 2) in
  let T2 := T * k_T k in let P2 := P * k_P k in
  let u := speed g r T M in let u2 := speed g r T2 (k_M k) in
  k_M k = normal_shock M g /\
  flux g r T2 P2 (k_M k) = flux g r T P M /\
  P2 + density r T2 P2 * u2 ^ 2 = P + density r T P * u ^ 2 /\
  T2 * (1 + (g - 1) / 2 * k_M k ^ 2) = T * (1 + (g - 1) / 2 * M ^ 2) /\
  0 < k_M k < 1 /\ P < P2 /\ T < T2 /\
  0 < k_Pt k < 1 /\
  P2 * isentropic_P g (1 + (g - 1) / 2 * k_M k ^ 2) = k_Pt k * (P * isentropic_P g (1 + (g - 1) / 2 * M ^ 2)).
Proof.
  intros M g r T P Hg HM Hr HT HP. cbv zeta. rewrite oblique_eq. cbv zeta. cbn [k_M k_P k_T k_Pt].
  rewrite Rminus_0_r, sin_PI2, !Rmult_1_r. unfold Rdiv at 1. rewrite Rinv_1, Rmult_1_r.
  set (m := M * M). assert (m1 : 1 < m) by (unfold m; nra).
  replace (shock_M g m / 1) with (shock_M g m) by field.
  pose proof (sN_pos g m Hg ltac:(lra)) as NP. pose proof (sD_pos g m Hg ltac:(lra)) as DP.
  pose proof (shock_M_sq g m Hg ltac:(lra)) as SQ.
  pose proof (shock_M_range g m Hg m1) as MR. pose proof (shock_P_gt g m Hg m1) as PG. pose proof (shock_T_gt g m Hg m1) as TG.
  pose proof (shock_energy g m Hg ltac:(lra)) as EN. pose proof (shock_momentum g m Hg ltac:(lra)) as MO.
  pose proof (shock_mass g m Hg ltac:(lra)) as MA. pose proof (shock_Pt_range g m Hg m1) as PT.
  pose proof (shock_Pt_static g m Hg ltac:(lra)) as PS.
  assert (SP : forall t, 0 < t -> sqrt (g * r * t) * sqrt (g * r * t) = g * r * t) by (intros; apply sqrt_sqrt; assert (0 < g * r) by nra; nra).
  assert (SPP : forall t, 0 < t -> 0 < sqrt (g * r * t)) by (intros; apply sqrt_lt_R0; assert (0 < g * r) by nra; nra).
  assert (T2P : 0 < T * shock_T g m) by nra.
  replace (shock_M g m ^ 2) with (sD g m / sN g m) by (rewrite <- SQ; ring).
  replace (M ^ 2) with m by (unfold m; ring).
  split. { unfold normal_shock, shock_M, sD, sN, m. f_equal. f_equal; ring. }
  split.
  { unfold flux, density, speed, sound.
    assert (NN : forall p t n, 0 < p -> 0 < t -> 0 < n -> 0 <= p / (r * t) * (n * sqrt (g * r * t))).
    { intros p t n Q1 Q2 Q3. apply Rmult_le_pos; [left; apply Rdiv_lt_0_compat; nra |].
      apply Rmult_le_pos; [lra | apply sqrt_pos]. }
    apply Rsqr_inj; [apply NN; nra | apply NN; lra |].
    { unfold Rsqr.
      transitivity ((P * shock_P g m / (r * (T * shock_T g m))) ^ 2 * (shock_M g m * shock_M g m) * (sqrt (g * r * (T * shock_T g m)) * sqrt (g * r * (T * shock_T g m)))); [ring |].
      transitivity ((P / (r * T)) ^ 2 * m * (sqrt (g * r * T) * sqrt (g * r * T))); [| unfold m; ring].
      rewrite !SP, SQ by auto.
      transitivity (P ^ 2 * g / (r * T * shock_T g m) * (shock_P g m * shock_P g m * (sD g m / sN g m))); [field; nra |].
      rewrite MA. field. nra. } }
  split.
  { unfold density, speed, sound.
    assert (SS : forall a b : R, (a * b) ^ 2 = a * a * (b * b)) by (intros; ring).
    rewrite !SS, !SP, SQ by auto. fold m.
    transitivity (P * (shock_P g m * (1 + g * (sD g m / sN g m)))).
    - field. nra.
    - rewrite MO. field. nra. }
  split. { rewrite Rmult_assoc, EN. reflexivity. }
  split; [exact MR |]. split; [nra |]. split; [nra |]. split; [exact PT |].
  unfold isentropic_P. rewrite Rmult_assoc, <- PS. ring.
Qed.

(** ** C64: the wave angle solves the oblique-shock relation, and is the weak one *)
Theorem C64_angle : forall M g th n, 1 < M -> 1 < g -> 0 < th < PI / 2 -> attached M g th ->
  - (PI / 2) < wave_angle M g th n < PI / 2 /\ theta_beta_M M g th (wave_angle M g th n).
Proof.
  intros M g th n HM Hg Ht A. split; [| apply wave_angle_relation; auto].
  rewrite wave_angle_eq by auto. pose proof (atan_bound (wave_x M g th n)). lra.
Qed.

Theorem C64_weak : forall M g th, 1 < M -> 1 < g -> 0 < th < PI / 2 -> attached M g th ->
  let be := wave_angle M g th 0 in
  0 < be < PI / 2 /\ theta_beta_M M g th be /\ 1 < M * sin be /\
  forall be', 0 < be' < PI / 2 -> theta_beta_M M g th be' -> be <= be'.
Proof.
  intros M g th HM Hg Ht A be. destruct (wave_angle_weak M g th HM Hg Ht A) as [B W].
  pose proof (wave_angle_relation M g th 0 HM Hg Ht A) as R.
  repeat split; auto; try apply B. apply (wave_strong M g th); auto; lra.
Qed.

(** ** C64: an oblique shock is a normal shock seen from the side: it turns the stream by the
    angle asked for, keeps the velocity along the wave and the stagnation temperature, conserves
    mass and momentum through the wave, and loses stagnation pressure *)
Theorem C64_oblique : forall M g r th be T P, 1 < g -> 0 < M -> 0 < r -> 0 < T -> 0 < P ->
  0 < th < PI / 2 -> 0 < be < PI / 2 -> theta_beta_M M g th be ->
  let k := oblique M g th be in let T2 := T * k_T k in let P2 := P * k_P k in
  let u := speed g r T M in let u2 := speed g r T2 (k_M k) in
  th < be /\ 0 < k_M k /\
  u2 * cos (be - th) = u * cos be /\
  density r T2 P2 * (u2 * sin (be - th)) = density r T P * (u * sin be) /\
  P2 + density r T2 P2 * (u2 * sin (be - th)) ^ 2 = P + density r T P * (u * sin be) ^ 2 /\
  T2 * (1 + (g - 1) / 2 * k_M k ^ 2) = T * (1 + (g - 1) / 2 * M ^ 2) /\
  P < P2 /\ T < T2 /\ 0 < k_Pt k < 1.
Proof.
  intros M g r th be T P Hg HM Hr HT HP Ht Hb R. cbv zeta.
  pose proof (wave_strong M g th be Hg HM Ht Hb R) as W.
  destruct (turned M g th be Hg HM Ht Hb R) as [S C].
  destruct (oblique_energy M g th be Hg HM Ht Hb R) as [EN TG]. cbv zeta in EN, TG.
  assert (SB : 0 < sin be) by (apply sin_gt_0; lra). assert (CB : 0 < cos be) by (apply cos_gt_0; lra).
  (* the normal shock at the normal Mach number *)
  pose proof (C64_normal (M * sin be) g r T P Hg W Hr HT HP) as N. cbv zeta in N.
  rewrite !oblique_eq in *. cbv zeta in *. cbn [k_M k_P k_T k_Pt] in *.
  rewrite sin_PI2, !Rmult_1_r, Rminus_0_r, sin_PI2 in N.
  set (m := M * sin be * (M * sin be)) in *. replace (shock_M g m / 1) with (shock_M g m) in N by field.
  destruct N as (_ & N1 & N2 & _ & N3 & N4 & N5 & N6 & _).
  assert (SPP : forall t, 0 < t -> sqrt (g * r * t) * sqrt (g * r * t) = g * r * t) by (intros; apply sqrt_sqrt; assert (0 < g * r) by nra; nra).
  assert (T2P : 0 < T * shock_T g m) by nra.
  assert (U2 : speed g r (T * shock_T g m) (shock_M g m / sin (be - th)) * sin (be - th) = speed g r (T * shock_T g m) (shock_M g m)).
  { unfold speed. field. lra. }
  assert (U1 : speed g r T M * sin be = speed g r T (M * sin be)) by (unfold speed; ring).
  split. { destruct (Rlt_le_dec th be); auto. exfalso. assert (sin (be - th) <= 0); [| lra].
    replace (be - th) with (- (th - be)) by ring. rewrite sin_neg. pose proof (sin_ge_0 (th - be)). pose proof PI_RGT_0. lra. }
  split. { apply Rdiv_lt_0_compat; lra. }
  split.
  { apply Rsqr_inj.
    - apply Rmult_le_pos; [| lra]. unfold speed. apply Rmult_le_pos; [left; apply Rdiv_lt_0_compat; lra | apply sqrt_pos].
    - apply Rmult_le_pos; [| lra]. unfold speed. apply Rmult_le_pos; [lra | apply sqrt_pos].
    - unfold Rsqr, speed, sound.
      transitivity ((shock_M g m / sin (be - th) * cos (be - th)) ^ 2 * (sqrt (g * r * (T * shock_T g m)) * sqrt (g * r * (T * shock_T g m)))); [ring |].
      transitivity ((M * cos be) ^ 2 * (sqrt (g * r * T) * sqrt (g * r * T))); [| ring].
      rewrite !SPP by auto. rewrite <- TG. ring. }
  rewrite U1, U2. split; [exact N1 |]. split; [exact N2 |].
  split. { rewrite Rmult_assoc, EN. reflexivity. }
  auto.
Qed.

(** ** C64: a train of oblique shocks (the inlet of a scramjet): the stagnation temperature is
    kept, the static temperature rises and stagnation pressure is lost at every shock *)
Theorem C64_train : forall thetas M g, 1 < g -> train_attached M g thetas ->
  let r := shock_train M g thetas in
  fst r * (1 + (g - 1) / 2 * train_M M g thetas ^ 2) = 1 + (g - 1) / 2 * M ^ 2 /\
  1 <= fst r /\ 0 < snd r <= 1 /\ (thetas <> [] -> 1 < fst r /\ snd r < 1).
Proof. exact train_laws. Qed.
(** the ratios of a train are products: a train can be cut anywhere *)
Theorem C64_train_cut : forall one two M g, 1 < g ->
  let a := shock_train M g one in let b := shock_train (train_M M g one) g two in
  shock_train M g (one ++ two) = (fst a * fst b, snd a * snd b).
Proof.
  assert (G : forall one two M g T P, shock_train_from M g (one ++ two) T P
     = shock_train_from (train_M M g one) g two (fst (shock_train_from M g one T P)) (snd (shock_train_from M g one T P))).
  { induction one as [|th one IH]; intros two M g T P; [reflexivity |]. cbn [app shock_train_from train_M]. cbv zeta. apply IH. }
  intros one two M g Hg. cbv zeta. unfold shock_train at 1. rewrite G. fold (shock_train M g one). apply train_acc.
Qed.

(** ** A case: Mach 2 air turned by the angle with tangent one tenth *)
Lemma case_attached : attached 2 (7 / 5) (atan (1 / 10)).
Proof.
  unfold attached, cubic_a, cubic_b. rewrite tan_atan. cbv zeta. split; nra.
Qed.
Lemma case_angle : 0 < atan (1 / 10) < PI / 2.
Proof. split; [rewrite <- atan_0; apply atan_increasing; lra | apply atan_bound]. Qed.
Example C64_weak_case : 0 < wave_angle 2 (7 / 5) (atan (1 / 10)) 0 < PI / 2.
Proof. apply C64_weak; try lra; [apply case_angle | apply case_attached]. Qed.
Example C64_oblique_case : exists be, 0 < be < PI / 2 /\ theta_beta_M 2 (7 / 5) (atan (1 / 10)) be.
Proof.
  exists (wave_angle 2 (7 / 5) (atan (1 / 10)) 0).
  destruct (C64_weak 2 (7 / 5) (atan (1 / 10))) as (A & B & _); try lra; [apply case_angle | apply case_attached | auto].
Qed.
Example C64_train_case : train_attached 2 (7 / 5) [atan (1 / 10)] /\ 1 < fst (shock_train 2 (7 / 5) [atan (1 / 10)]).
Proof.
  assert (A : train_attached 2 (7 / 5) [atan (1 / 10)]).
  { cbn [train_attached]. split; [lra |]. split; [apply case_angle |]. split; [apply case_attached | exact I]. }
  split; auto. apply (C64_train [atan (1 / 10)] 2 (7 / 5)); auto; try lra. discriminate.
Qed.
Print Assumptions C64_normal.
Print Assumptions C64_angle.
Print Assumptions C64_weak.
Print Assumptions C64_oblique.
Print Assumptions C64_train.
Print Assumptions C64_train_cut.
