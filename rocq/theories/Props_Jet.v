(** * Jet noise: properties C207 and C208 *)
From Coq Require Import Reals Lra Lia Bool Arith List.
From Verif Require Import PyBase M_Opt P_Opt M_Noise P_Noise M_Drag P_Super P_Panel M_Jet.
Import ListNotations.
Local Open Scope R_scope.

(** ** C207: the streams and the levels *)
Lemma mean_between p s x y : 0 < p -> 0 < s -> Rmin x y <= (p * x + s * y) / (p + s) <= Rmax x y.
Proof.
  intros P S. pose proof (Rmin_l x y). pose proof (Rmin_r x y). pose proof (Rmax_l x y). pose proof (Rmax_r x y).
  split; apply Rmult_le_reg_r with (p + s); try lra; unfold Rdiv; rewrite Rmult_assoc, Rinv_l by lra; nra.
Qed.
(** mixing keeps mass, momentum and total enthalpy; speed and temperature of the mixed jet lie between those of its streams *)
Theorem C207_mixing : forall j, 0 < flow_p j -> 0 < flow_s j -> 0 < density_m j -> 0 < V_mixed j ->
  (flow_p j + flow_s j) * V_mixed j = flow_p j * j_Vp j + flow_s j * j_Vs j /\ (flow_p j + flow_s j) * T_mixed j = flow_p j * j_Tp j + flow_s j * j_Ts j /\
  density_m j * A_mixed j * V_mixed j = flow_p j + flow_s j /\ disc (D_mixed j) = A_mixed j /\
  Rmin (j_Vp j) (j_Vs j) <= V_mixed j <= Rmax (j_Vp j) (j_Vs j) /\ Rmin (j_Tp j) (j_Ts j) <= T_mixed j <= Rmax (j_Tp j) (j_Ts j).
Proof.
  intros j P S D V. assert (A : density_m j * A_mixed j * V_mixed j = flow_p j + flow_s j).
  { unfold A_mixed. replace (disc (j_Dp j) * density_p j * j_Vp j) with (flow_p j) by (unfold flow_p; ring). field. repeat split; lra. }
  split; [unfold V_mixed; field; lra|]. split; [unfold T_mixed; field; lra|]. split; [exact A|]. split; [|split; [exact (mean_between _ _ _ _ P S)|exact (mean_between _ _ _ _ P S)]].
  assert (AP : 0 < A_mixed j). { apply Rmult_lt_reg_l with (density_m j * V_mixed j); [apply Rmult_lt_0_compat; assumption|]. rewrite Rmult_0_r. lra. }
  unfold disc, D_mixed. pose proof PI_RGT_0 as PP. replace (PI * (sqrt (4 * A_mixed j / PI) / 2) ^ 2) with (PI / 4 * (sqrt (4 * A_mixed j / PI) * sqrt (4 * A_mixed j / PI))) by field.
  rewrite sqrt_sqrt; [field; lra|]. apply Rmult_le_pos; [lra|]. left. apply Rinv_0_lt_compat. exact PP.
Qed.
(** the bypass correction runs from 0 to 4 and the shear speed is at least 0.3 m/s *)
Theorem C207_limits : (forall j, 0 <= bypass j <= 4) /\ (forall Vp Vs As Va Ap, 3 / 10 <= shear Vp Vs As Va Ap).
Proof.
  split.
  - intro j. unfold bypass. cbv zeta. destruct (Rltb _ 0) eqn:A; [lra|]. destruct (Rltb 4 _) eqn:B; [lra|]. apply Rltb_false in A. apply Rltb_false in B. lra.
  - intros. unfold shear. cbv zeta. destruct (Rltb _ (3 / 10)) eqn:A; [lra|]. apply Rltb_false in A. exact A.
Qed.
Lemma excitation_nonneg st : 0 <= excitation st.
Proof.
  unfold excitation. destruct (Rltb (1 / 4) st) eqn:A; destruct (Rltb st (1 / 2)) eqn:B; cbn [andb]; try lra; try apply Rltb_true in A; try apply Rltb_false in A; try apply Rltb_true in B; try apply Rltb_false in B; try nra.
Qed.
Lemma exp06 : exp (6 / 10) < 25 / 10.
Proof.
  apply Rnot_le_lt. intro H. assert (E : exp (6 / 10) ^ 5 = exp 1 ^ 3) by (cbn [pow]; rewrite !Rmult_1_r, <- !exp_plus; f_equal; lra).
  pose proof exp_le_3 as T. pose proof (exp_pos 1) as P. assert ((25 / 10) ^ 5 <= exp (6 / 10) ^ 5) by (apply pow_incr; lra). assert (exp 1 ^ 3 <= 3 ^ 3) by (apply pow_incr; lra). lra.
Qed.
(** the scale of source distances stays between 0 and 1, whatever the fan does *)
Theorem C207_scale : forall st exa, 0 < zk_of st exa <= 1.
Proof.
  intros st exa. unfold zk_of. pose proof exp06. pose proof (exp_pos (6 / 10 - sqrt exa)) as A. pose proof (exp_pos (- excitation st)) as B.
  assert (A' : exp (6 / 10 - sqrt exa) <= exp (6 / 10)). { pose proof (sqrt_pos exa). destruct (Req_dec (sqrt exa) 0) as [->|N]; [right; f_equal; lra|left; apply exp_increasing; lra]. }
  assert (B' : exp (- excitation st) <= 1). { pose proof (excitation_nonneg st). rewrite <- exp_0. destruct (Req_dec (excitation st) 0) as [->|N]; [right; f_equal; lra|left; apply exp_increasing; lra]. }
  split; [|nra]. assert (exp (6 / 10 - sqrt exa) * exp (- excitation st) <= exp (6 / 10) * 1) by (apply Rmult_le_compat; lra). lra.
Qed.
(** the excitation has no jumps: it is 0 at the ends of the resonant band *)
Theorem C207_excitation : forall st, excitation st = Rmax 0 (50 * (st - 1 / 4) * (st - 1 / 2)).
Proof.
  intro st. unfold excitation. destruct (Rltb (1 / 4) st) eqn:A; destruct (Rltb st (1 / 2)) eqn:B; cbn [andb]; try apply Rltb_true in A; try apply Rltb_false in A; try apply Rltb_true in B; try apply Rltb_false in B;
  [rewrite Rmax_left by nra; reflexivity|rewrite Rmax_right by nra; reflexivity|rewrite Rmax_right by nra; reflexivity|lra].
Qed.
(** nor has the share of the mixed jet *)
Theorem C207_share : forall ca Vm theta, 0 < Vm -> 0 < ca -> exc ca Vm theta = ca / Vm * (1 - 18 / 10 / PI * Rmax 0 (theta - 14 / 10)).
Proof.
  intros ca Vm t V C. unfold exc. destruct (Rltb (14 / 10) t) eqn:A; [apply Rltb_true in A; rewrite Rmax_right by lra; reflexivity|apply Rltb_false in A; rewrite Rmax_left by lra; ring].
Qed.
(** twice as far is 20 log10 2, about 6 dB, quieter, besides the attenuation of the air *)
Theorem C207_distance : forall pa r1 r2 ra D d att k, 0 < D -> 0 < d -> 0 < k -> corrections pa r1 r2 ra D (k * d) att = corrections pa r1 r2 ra D d att - 20 * log10 k.
Proof.
  intros pa r1 r2 ra D d att k HD Hd Hk. unfold corrections. replace (D / (k * d)) with (/ k * (D / d)) by (field; lra).
  rewrite log10_mult by (try (apply Rinv_0_lt_compat; lra); apply Rdiv_lt_0_compat; lra). rewrite log10_inv by lra. ring.
Qed.
Lemma p10_pos x : 0 < p10 x.
Proof. unfold p10, Rpower. apply exp_pos. Qed.
(** the total adds the powers of the three jets: it is no lower than the loudest and at most 10 log10 3 above it *)
Theorem C207_total : forall p s m, p10 (level_total p s m / 10) = p10 (p / 10) + p10 (s / 10) + p10 (m / 10) /\
  Rmax p (Rmax s m) <= level_total p s m <= Rmax p (Rmax s m) + 10 * log10 3.
Proof.
  intros p s m. unfold level_total. replace (1 / 10 * p) with (p / 10) by field. replace (1 / 10 * s) with (s / 10) by field. replace (1 / 10 * m) with (m / 10) by field.
  pose proof (p10_pos (p / 10)) as P. pose proof (p10_pos (s / 10)) as S. pose proof (p10_pos (m / 10)) as M. set (x := Rmax p (Rmax s m)).
  assert (XP : p <= x) by apply Rmax_l. assert (XS : s <= x) by (eapply Rle_trans; [apply Rmax_l|apply Rmax_r]). assert (XM : m <= x) by (eapply Rle_trans; [apply Rmax_r|apply Rmax_r]).
  assert (MO : forall a b, a <= b -> p10 (a / 10) <= p10 (b / 10)). { intros a b L. unfold p10. apply Rle_Rpower; lra. }
  assert (L10 : forall a, log10 (p10 (a / 10)) = a / 10) by (intro; apply log10_p10).
  split; [|split].
  - replace (10 * log10 (p10 (p / 10) + p10 (s / 10) + p10 (m / 10)) / 10) with (log10 (p10 (p / 10) + p10 (s / 10) + p10 (m / 10))) by field. apply p10_log10. lra.
  - assert (G : forall a, p10 (a / 10) <= p10 (p / 10) + p10 (s / 10) + p10 (m / 10) -> a <= 10 * log10 (p10 (p / 10) + p10 (s / 10) + p10 (m / 10))).
    { intros a H. pose proof (log10_le _ _ (p10_pos (a / 10)) H) as Q. rewrite L10 in Q. lra. }
    unfold x. apply Rmax_lub; [apply G; lra|apply Rmax_lub; apply G; lra].
  - pose proof (MO p x XP). pose proof (MO s x XS). pose proof (MO m x XM). pose proof (p10_pos (x / 10)) as X.
    apply Rle_trans with (10 * log10 (3 * p10 (x / 10))); [apply Rmult_le_compat_l; [lra|]; apply log10_le; lra|]. rewrite log10_mult, L10 by lra. lra.
Qed.

(** installation raises a level by 0 to 2.5 dB in each of 24 bands; ground by 0 to 5 times the Mach number of the jet; an angle of attack that is not negative does not lower it *)
Lemma cap_first_in : forall n l x, (length l <= n)%nat -> In x (cap_first n l) -> x <= 25 / 10 /\ ((x = 25 / 10) \/ In x l).
Proof.
  induction n as [|n IH]; intros [|a l] x L I; cbn in *; try lia; try (destruct I; fail). destruct I as [I|I].
  - destruct (Rltb (25 / 10) a) eqn:A; subst x; [split; [lra|left; reflexivity]|]. apply Rltb_false in A. split; [exact A|right; left; reflexivity].
  - destruct (IH l x ltac:(lia) I) as [Q [R|R]]; split; try exact Q; [left; exact R|right; right; exact R].
Qed.
Theorem C207_installation : forall Xe Ye Ce Dm thetas x, 0 < Ce -> 0 < Dm -> (length thetas <= 24)%nat -> In x (installations Xe Ye Ce Dm thetas) -> 0 <= x <= 25 / 10.
Proof.
  intros Xe Ye Ce Dm thetas x C D L I. unfold installations in I. apply cap_first_in in I; [|rewrite map_length; exact L]. destruct I as [U [->|I]]; [lra|]. split; [|exact U].
  apply in_map_iff in I. destruct I as [t [<- _]]. unfold installation. apply Rmult_le_pos; [|apply pow2_ge_0]. apply Rmult_le_pos; [lra|]. apply Rmult_le_pos; [apply pow2_ge_0|]. left. apply Rinv_0_lt_compat. apply Rmult_lt_0_compat; assumption.
Qed.
Theorem C207_ground : forall Vm ca theta h Dm f, 0 < Vm -> 0 < ca -> 0 <= ground_effect Vm ca theta h Dm f <= 5 * (Vm / ca).
Proof.
  intros Vm ca theta h Dm f V C. unfold ground_effect. set (e := exp _). set (s := sin _). set (d := Rabs _).
  assert (E : 0 < e <= 1). { unfold e. split; [apply exp_pos|]. rewrite <- exp_0. pose proof (pow2_ge_0 (9 * (theta / PI) - 675 / 100)). pose proof (pow2_ge_0 (h / Dm - 25 / 10)).
    destruct (Rle_lt_or_eq_dec (- (9 * (theta / PI) - 675 / 100) ^ 2 - (h / Dm - 25 / 10) ^ 2) 0) as [Q|Q]; [lra|left; apply exp_increasing; exact Q|right; rewrite Q; reflexivity]. }
  assert (S : s ^ 2 <= 1). { pose proof (SIN_bound (PI * h * f / ca - PI / 2)). fold s in H. nra. } pose proof (pow2_ge_0 s). assert (D : 0 <= d) by apply Rabs_pos. assert (G : 0 < Vm / ca) by (apply Rdiv_lt_0_compat; assumption).
  replace (5 * Vm / ca) with (5 * (Vm / ca)) by (field; lra). clearbody e s d. set (g := Vm / ca) in *. clearbody g.
  assert (P : 0 <= e * (1 + s ^ 2)) by nra. assert (P2 : e * (1 + s ^ 2) <= 2) by nra.
  split.
  - apply Rmult_le_pos; [nra|left; apply Rinv_0_lt_compat; lra].
  - apply Rmult_le_reg_r with (2 + d); [lra|]. unfold Rdiv. rewrite Rmult_assoc, Rinv_l by lra. rewrite Rmult_1_r. replace (5 * g * e * (1 + s ^ 2)) with (5 * g * (e * (1 + s ^ 2))) by ring. apply Rmult_le_compat_l; [lra|lra].
Qed.
Theorem C207_attack : forall aoa mach theta, 0 <= aoa -> 0 <= mach -> 0 <= attack_effect aoa mach theta.
Proof. intros. unfold attack_effect. apply Rmult_le_pos; [apply Rmult_le_pos; lra|apply pow2_ge_0]. Qed.

(** in the first 23 bands the level of the primary jet at each step is that of the step alone *)
Lemma overwrite_nth : forall n new old i, (i < n)%nat -> (i < length new)%nat -> (i < length old)%nat -> nth_error (overwrite n new old) i = nth_error new i.
Proof. induction n as [|n IH]; intros [|x new] [|y old] [|i] N A B; cbn in *; try lia; try reflexivity. apply IH; lia. Qed.
Lemma overwrite_rest : forall n new old i, (n <= i)%nat -> nth_error (overwrite n new old) i = nth_error old i.
Proof. induction n as [|n IH]; intros [|x new] [|y old] [|i] N; cbn in *; try lia; try reflexivity. apply IH. lia. Qed.
Lemma overwrite_length : forall n new old, length (overwrite n new old) = length old.
Proof. induction n as [|n IH]; intros [|x new] [|y old]; cbn; try reflexivity. f_equal. apply IH. Qed.
Lemma map2_plus_nth : forall l m i x y, nth_error l i = Some x -> nth_error m i = Some y -> nth_error (map2 Rplus l m) i = Some (x + y).
Proof. induction l as [|a l IH]; intros [|b m] [|i] x y A B; cbn in *; try discriminate; [congruence|exact (IH m i x y A B)]. Qed.
Lemma map2_len : forall (l m : list R), length l = length m -> length (map2 Rplus l m) = length l.
Proof. induction l as [|a l IH]; intros [|b m] H; cbn in *; try discriminate; try reflexivity. f_equal. apply IH. congruence. Qed.
Lemma some_inj {A} (x y : A) : Some x = Some y -> x = y.
Proof. intro H. injection H. trivial. Qed.
Definition full (s : pstep) : Prop := length (snd (fst s)) = 24%nat /\ length (snd s) = 24%nat.
Lemma history_lengths : forall steps old, Forall full steps -> length old = 24%nat -> forall k l, nth_error (primary_history steps old) k = Some l -> length l = 24%nat.
Proof.
  induction steps as [|[[q b] p] r IH]; intros old F O k l H; [destruct k; discriminate|]. inversion F as [|? ? [B P] F']; subst. cbn [fst snd] in *.
  assert (N : length (map2 Rplus (primary_levels q b old) p) = 24%nat). { rewrite map2_len; unfold primary_levels; rewrite ?overwrite_length; lia. }
  destruct k as [|k]; cbn [primary_history nth_error] in H; [apply some_inj in H; subst l; exact N|]. exact (IH _ F' N k l H).
Qed.
Theorem C207_bands : forall steps k i q bands plug th st ds pg, Forall full steps -> nth_error steps k = Some (q, bands, plug) -> (i < 23)%nat -> nth_error bands i = Some (th, st, ds) -> nth_error plug i = Some pg ->
  exists l, nth_error (primary_run steps) k = Some l /\ nth_error l i = Some (p_level q th st ds + pg).
Proof.
  unfold primary_run. intros steps k i q bands plug th st ds pg F. assert (O : length (repeat 0 24) = 24%nat) by reflexivity. revert F k O. generalize (repeat 0 24) as old. induction steps as [|[[q' b'] p'] r IH]; intros old F k O K I B P; [destruct k; discriminate|].
  inversion F as [|? ? [FB FP] F']; subst. cbn [fst snd] in FB, FP. destruct k as [|k]; cbn [nth_error primary_history] in *.
  - assert (E1 : q' = q) by congruence. assert (E2 : b' = bands) by congruence. assert (E3 : p' = plug) by congruence. subst. eexists. split; [reflexivity|]. apply map2_plus_nth; [|exact P]. unfold primary_levels.
    rewrite overwrite_nth by (try rewrite map_length; lia). rewrite nth_error_map, B. reflexivity.
  - apply (IH (map2 Rplus (primary_levels q' b' old) p') F' k); try assumption. rewrite map2_len; unfold primary_levels; rewrite ?overwrite_length; lia.
Qed.
(** finding: in the last band it is no level at all, but the sum of the plug effects of all steps so far: 0 without a plug *)
Theorem C207_last_band_refuted : forall steps k l, Forall full steps -> nth_error (primary_run steps) k = Some l ->
  nth_error l 23 = Some (fold_right Rplus 0 (map (fun s => nth 23 (snd s) 0) (rev (firstn (S k) steps)))).
Proof.
  assert (G : forall steps k l old x, Forall full steps -> length old = 24%nat -> nth_error old 23 = Some x -> nth_error (primary_history steps old) k = Some l ->
    nth_error l 23 = Some (fold_right Rplus x (map (fun s => nth 23 (snd s) 0) (rev (firstn (S k) steps))))).
  { induction steps as [|[[q b] p] r IH]; intros k l old x F O X H; [destruct k; discriminate|]. inversion F as [|? ? [FB FP] F']; subst. cbn [fst snd] in FB, FP.
    assert (N : nth_error (map2 Rplus (primary_levels q b old) p) 23 = Some (nth 23 p 0 + x)).
    { rewrite Rplus_comm. apply map2_plus_nth; [unfold primary_levels; rewrite overwrite_rest by lia; exact X|]. apply nth_error_nth'. lia. }
    assert (N24 : length (map2 Rplus (primary_levels q b old) p) = 24%nat) by (rewrite map2_len; unfold primary_levels; rewrite ?overwrite_length; lia).
    cbn [primary_history] in H. cbv zeta in H. revert N N24 H. generalize (map2 Rplus (primary_levels q b old) p) as L. remember (nth 23 p 0 + x) as y eqn:Y. intros L N N24 H.
    destruct k as [|k].
    - cbn [nth_error] in H. apply some_inj in H. rewrite <- H. rewrite N, Y. reflexivity.
    - cbn [nth_error] in H. rewrite (IH k l L y F' N24 N H). change (firstn (S (S k)) ((q, b, p) :: r)) with ((q, b, p) :: firstn (S k) r). cbn [rev]. rewrite map_app, fold_right_app, Y. reflexivity. }
  intros steps k l F H. exact (G steps k l (repeat 0 24) 0 F eq_refl eq_refl H).
Qed.

(** ** C208: where the sources are *)
Lemma angle_atan b : angle_of b = PI / 2 - atan b.
Proof.
  unfold angle_of. assert (C : forall x, / sqrt (x ^ 2 + 1) = sin (PI / 2 - atan x)).
  { intro x. rewrite sin_shift, cos_atan. unfold Rdiv. rewrite Rmult_1_l. f_equal. f_equal. unfold Rsqr. ring. }
  pose proof (atan_bound b) as B. destruct (Rltb b 0) eqn:L.
  - apply Rltb_true in L. rewrite C. rewrite <- (sin_PI_x (PI / 2 - atan b)). rewrite asin_sin; [ring|]. assert (atan b < 0) by (rewrite <- atan_0; apply atan_increasing; exact L). lra.
  - apply Rltb_false in L. rewrite C. apply asin_sin. assert (0 <= atan b) by (rewrite <- atan_0; destruct L as [L|L]; [left; apply atan_increasing; exact L|rewrite L; lra]). lra.
Qed.
(** the angle that is computed is the direction in which the microphone is seen from the source, a distance X ahead of where it is seen at distance r and angle theta *)
Theorem C208_direction : forall theta r X, 0 < r -> 0 < sin theta -> let t := angle_of (slant theta r X) in
  0 < t < PI /\ exists d, 0 < d /\ d * sin t = r * sin theta /\ d * cos t = X + r * cos theta.
Proof.
  intros theta r X R0 S t. unfold t. rewrite angle_atan. set (b := slant theta r X). pose proof (atan_bound b) as B. split; [lra|].
  assert (BE : b * (r * sin theta) = X + r * cos theta) by (unfold b, slant; field; lra).
  rewrite sin_shift, cos_shift. assert (CP : 0 < cos (atan b)) by (apply cos_gt_0; lra). exists (r * sin theta / cos (atan b)). split; [apply Rdiv_lt_0_compat; [apply Rmult_lt_0_compat; assumption|exact CP]|].
  split; [field; lra|]. rewrite <- BE. assert (TB : sin (atan b) = b * cos (atan b)) by (rewrite <- (tan_atan b) at 2; unfold tan; field; lra). rewrite TB. field. lra.
Qed.

Lemma atan_lip x y : x <= y -> 0 <= atan y - atan x <= y - x.
Proof.
  intros [L| ->]; [|lra]. split; [pose proof (atan_increasing x y L); lra|].
  destruct (MVT_cor2 atan (fun z => / (1 + z ^ 2)) x y L) as [c [E _]]; [intros c _; apply derivable_pt_lim_atan|].
  rewrite E. assert (/ (1 + c ^ 2) <= 1). { rewrite <- Rinv_1. apply Rinv_le_contravar; [lra|]. pose proof (pow2_ge_0 c). lra. } nra.
Qed.
(** rises at most as steeply as [K] and never falls *)
Definition rises (K : R) (f : R -> R) : Prop := forall x y, x <= y -> 0 <= f y - f x <= K * (y - x).
Definition turn (place : R -> R) (theta r t : R) : R := (t + angle_of (slant theta r (place t))) / 2.
Lemma turn_half place K theta r x y : rises K place -> 0 < r -> 0 < sin theta -> K <= 2 * (r * sin theta) -> Rabs (turn place theta r x - turn place theta r y) <= Rabs (x - y) / 2.
Proof.
  intros H R0 S L. assert (G : forall x y, x <= y -> Rabs (turn place theta r x - turn place theta r y) <= (y - x) / 2).
  { clear x y. intros x y XY. unfold turn. rewrite !angle_atan. set (u := slant theta r (place x)). set (v := slant theta r (place y)).
    assert (RS : 0 < r * sin theta) by (apply Rmult_lt_0_compat; assumption). pose proof (H x y XY) as HH.
    assert (E : v - u = (place y - place x) / (r * sin theta)) by (unfold u, v, slant; field; lra).
    assert (Q : 0 <= v - u <= 2 * (y - x)).
    { rewrite E. split; [apply Rmult_le_pos; [lra|left; apply Rinv_0_lt_compat; exact RS]|]. apply Rmult_le_reg_r with (r * sin theta); [exact RS|]. unfold Rdiv. rewrite Rmult_assoc, Rinv_l by lra. nra. }
    pose proof (atan_lip u v ltac:(lra)) as A. apply Rabs_le. lra. }
  destruct (Rle_dec x y) as [Q|Q]; [rewrite (Rabs_minus_sym x y), (Rabs_right (y - x)) by lra; apply G; exact Q|].
  rewrite Rabs_minus_sym, (Rabs_right (x - y)) by lra. apply G. lra.
Qed.
Lemma rises_abs K f x y : rises K f -> Rabs (f x - f y) <= K * Rabs (x - y).
Proof.
  intro H. destruct (Rle_dec x y) as [Q|Q].
  - pose proof (H x y Q). rewrite (Rabs_minus_sym x y), Rabs_minus_sym, !Rabs_right by lra. lra.
  - pose proof (H y x ltac:(lra)). rewrite !Rabs_right by lra. lra.
Qed.
Lemma settle_unfold place theta r tol n t res : settle place theta r tol n t res = if Rltb tol res then match n with O => None | S n => settle place theta r tol n (turn place theta r t) (Rabs (place t - place (turn place theta r t))) end else Some t.
Proof. destruct n; reflexivity. Qed.
Lemma settle_ends place K theta r tol : rises K place -> 0 <= K -> 0 < r -> 0 < sin theta -> K <= 2 * (r * sin theta) -> forall n t res, K * Rabs (t - turn place theta r t) <= tol * 2 ^ n -> exists s, settle place theta r tol (S n) t res = Some s.
Proof.
  intros H K0 R0 S L. induction n as [|n IH]; intros t res Q; rewrite settle_unfold; destruct (Rltb tol res) eqn:E; try (exists t; reflexivity).
  - rewrite settle_unfold. rewrite (proj2 (Rltb_false _ _)); [eexists; reflexivity|]. pose proof (rises_abs K place t (turn place theta r t) H). lra.
  - apply IH. pose proof (turn_half place K theta r t (turn place theta r t) H R0 S L) as T. cbn [pow] in Q.
    assert (K * Rabs (turn place theta r t - turn place theta r (turn place theta r t)) <= K * (Rabs (t - turn place theta r t) / 2)) by (apply Rmult_le_compat_l; assumption). lra.
Qed.
Lemma pow2_big : forall x, exists n, x <= 2 ^ n.
Proof.
  intro x. assert (B : forall n, INR n <= 2 ^ n). { induction n as [|n IH]; [cbn; lra|]. rewrite S_INR. cbn [pow]. assert (1 <= 2 ^ n) by (apply pow_R1_Rle; lra). lra. }
  destruct (Rle_dec x 0) as [N|N]; [exists O; cbn; lra|]. destruct (archimed x) as [A _]. exists (Z.to_nat (up x)). apply Rle_trans with (INR (Z.to_nat (up x))); [|apply B].
  rewrite INR_IZR_INZ, Z2Nat.id; [lra|]. apply le_IZR. lra.
Qed.
Lemma settle_result place theta r tol : forall n t res s, settle place theta r tol n t res = Some s -> (s = t /\ res <= tol) \/ exists t1, s = turn place theta r t1 /\ Rabs (place t1 - place s) <= tol.
Proof.
  induction n as [|n IH]; intros t res s H; rewrite settle_unfold in H; destruct (Rltb tol res) eqn:E; try discriminate; try (left; apply Rltb_false in E; split; [congruence|exact E]).
  destruct (IH _ _ _ H) as [[-> Q]|Q]; [right; exists t; split; [reflexivity|exact Q]|right; exact Q].
Qed.
Lemma settle_range place theta r tol : forall n t res s, 0 < t < PI -> settle place theta r tol n t res = Some s -> 0 < s < PI.
Proof.
  induction n as [|n IH]; intros t res s T H; rewrite settle_unfold in H; destruct (Rltb tol res); try discriminate; try (assert (s = t) by congruence; lra).
  refine (IH _ _ s _ H). unfold turn. rewrite angle_atan. pose proof (atan_bound (slant theta r (place t))). lra.
Qed.
Lemma settle_more place theta r tol : forall n m t res s, settle place theta r tol n t res = Some s -> settle place theta r tol (n + m) t res = Some s.
Proof.
  induction n as [|n IH]; intros m t res s H; rewrite settle_unfold in *; destruct (Rltb tol res); try discriminate; try exact H. cbn [Nat.add]. apply IH. exact H.
Qed.
(** if the place of the source rises with its angle, at most as steeply as twice the distance of the microphone from the axis, then the search ends, whatever it starts
    from, with an angle between 0 and a half turn; the last round has moved the source by no more than the tolerance; and the angle is the mean of that of the round before
    and of the direction seen from there *)
Theorem C208_settles : forall place0 place K theta r D tol t0, rises K place -> 0 <= K -> 0 < r -> 0 < sin theta -> K <= 2 * (r * sin theta) -> 0 < tol < D ->
  exists n s, (forall m, locate place0 place theta r D tol (n + m) t0 = Some s) /\ 0 < s < PI /\
  exists t1, s = (t1 + angle_of (slant theta r (place t1))) / 2 /\ Rabs (place t1 - place s) <= tol.
Proof.
  intros place0 place K theta r D tol t0 H K0 R0 S L T. unfold locate. set (t := angle_of (slant theta r (place0 t0))).
  destruct (pow2_big (K * Rabs (t - turn place theta r t) / tol)) as [n N].
  assert (Q : K * Rabs (t - turn place theta r t) <= tol * 2 ^ n). { apply Rmult_le_reg_r with (/ tol); [apply Rinv_0_lt_compat; lra|]. replace (tol * 2 ^ n * / tol) with (2 ^ n) by (field; lra). exact N. }
  destruct (settle_ends place K theta r tol H K0 R0 S L n t D Q) as [s E]. exists (Datatypes.S n), s. split; [intro m; apply settle_more; exact E|]. split.
  - apply (settle_range place theta r tol (Datatypes.S n) t D s); [|exact E]. unfold t. rewrite angle_atan. pose proof (atan_bound (slant theta r (place0 t0))). lra.
  - destruct (settle_result _ _ _ _ _ _ _ _ E) as [[_ Q']|Q']; [lra|exact Q'].
Qed.
(** the three jets *)
Lemma rises_atan c k o a b : 0 <= c -> 0 <= k -> rises (c * (k / PI)) (fun t => a + c * atan (k * t / PI - o) + b).
Proof.
  intros C K x y L. pose proof PI_RGT_0 as P. assert (M : k * x / PI - o <= k * y / PI - o). { assert (k * x / PI <= k * y / PI); [|lra]. unfold Rdiv. apply Rmult_le_compat_r; [left; apply Rinv_0_lt_compat; exact P|]. apply Rmult_le_compat_l; assumption. }
  pose proof (atan_lip _ _ M) as A. replace (k * y / PI - o - (k * x / PI - o)) with (k / PI * (y - x)) in A by (field; lra). split; nra.
Qed.
Lemma rises_scale K f s : 0 <= s -> rises K f -> rises (s * K) (fun t => s * f t).
Proof. intros S H x y L. pose proof (H x y L). split; nra. Qed.
Lemma rises_ext K K' f g : (forall t, f t = g t) -> K = K' -> rises K f -> rises K' g.
Proof. intros E <- H x y L. rewrite <- !E. apply H. exact L. Qed.
Theorem C208_places : (forall zk D ratio, 0 <= zk -> 0 <= D -> rises (72 / PI * (zk * D)) (place_p zk D ratio)) /\
  (forall zk D str Vs ca Va, 0 <= zk -> 0 <= D -> 0 < str -> 0 <= Va < Vs -> 0 < ca -> rises (72 / 10 / PI * (zk * D) * (1 + 1 / 2 / sqrt str) * sqrt (1 + 7 / 10 * Vs / ca) * (Vs / (Vs - Va))) (place_s zk D str Vs ca Va)) /\
  (forall zk D str Vm ca Va, 0 <= zk -> 0 <= D -> 0 < str -> 0 <= Va < Vm -> 0 < ca -> rises (198 / 10 / PI * (zk * D) * sqrt (1 / 2 + 1 / 2 * Vm / ca) * (Vm / (Vm - Va))) (place_m zk D str Vm ca Va)).
Proof.
  pose proof PI_RGT_0 as PP. split; [|split].
  - intros zk D ratio Z HD. refine (rises_ext _ _ _ _ _ _ (rises_scale _ _ (zk * D) (Rmult_le_pos _ _ Z HD) (rises_atan 4 18 9 4 ratio ltac:(lra) ltac:(lra)))); [intro t; unfold place_p; ring|field; lra].
  - intros zk D str Vs ca Va Z HD St V C. assert (SQ : 0 < sqrt str) by (apply sqrt_lt_R0; exact St).
    assert (F1 : 0 <= 1 + 1 / 2 / sqrt str) by (assert (0 < 1 / 2 / sqrt str) by (apply Rdiv_lt_0_compat; lra); lra). assert (F2 : 0 <= Vs / (Vs - Va)) by (apply Rmult_le_pos; [lra|left; apply Rinv_0_lt_compat; lra]).
    pose proof (sqrt_pos (1 + 7 / 10 * Vs / ca)) as F3.
    assert (ZD : 0 <= zk * D) by (apply Rmult_le_pos; assumption).
    assert (F : 0 <= zk * D * (1 + 1 / 2 / sqrt str) * sqrt (1 + 7 / 10 * Vs / ca) * (Vs / (Vs - Va))) by (apply Rmult_le_pos; [apply Rmult_le_pos; [apply Rmult_le_pos|]|]; assumption).
    refine (rises_ext _ _ _ _ _ _ (rises_scale _ _ _ F (rises_atan (16 / 10) (45 / 10) (225 / 100) 2 0 ltac:(lra) ltac:(lra)))); [intro t; unfold place_s; ring|].
    set (u := 1 + 1 / 2 / sqrt str). set (v := sqrt (1 + 7 / 10 * Vs / ca)). set (w := Vs / (Vs - Va)). field. lra.
  - intros zk D str Vm ca Va Z HD St V C. assert (F2 : 0 <= Vm / (Vm - Va)) by (apply Rmult_le_pos; [lra|left; apply Rinv_0_lt_compat; lra]).
    pose proof (sqrt_pos (1 / 2 + 1 / 2 * Vm / ca)) as F3. assert (ZD : 0 <= zk * D) by (apply Rmult_le_pos; assumption).
    assert (F : 0 <= zk * D * sqrt (1 / 2 + 1 / 2 * Vm / ca) * (Vm / (Vm - Va))) by (apply Rmult_le_pos; [apply Rmult_le_pos|]; assumption).
    refine (rises_ext _ _ _ _ _ _ (rises_scale _ _ _ F (rises_atan (11 / 10) 18 13 (3 + exp (- str) + 2) (1 + 1 / 2 / sqrt str) ltac:(lra) ltac:(lra)))); [intro t; unfold place_m; ring|].
    set (v := sqrt (1 / 2 + 1 / 2 * Vm / ca)). set (w := Vm / (Vm - Va)). field. lra.
Qed.
(** so the search for the source of the primary jet ends for every microphone that is 36/pi, about 11.5, diameters off the axis, for every fan *)
Theorem C208_primary : forall st exa D ratio theta r t0, 0 < D -> 0 < r -> 0 < sin theta -> 36 / PI * D <= r * sin theta ->
  exists n s, (forall m, locate (place_p (zk_of st exa) D ratio) (place_p (zk_of st exa) D ratio) theta r D (D / 200) (n + m) t0 = Some s) /\ 0 < s < PI.
Proof.
  intros st exa D ratio theta r t0 HD R0 S L. pose proof (C207_scale st exa) as Z. pose proof PI_RGT_0 as PP. destruct C208_places as [PL _].
  assert (I : 0 < / PI) by (apply Rinv_0_lt_compat; exact PP).
  assert (ZD : 0 <= zk_of st exa * D <= D) by nra.
  destruct (C208_settles (place_p (zk_of st exa) D ratio) (place_p (zk_of st exa) D ratio) (72 / PI * (zk_of st exa * D)) theta r D (D / 200) t0) as (n & s & E & B & _); try assumption; try lra.
  - apply PL; lra.
  - apply Rmult_le_pos; [|lra]. unfold Rdiv. nra.
  - apply Rle_trans with (72 / PI * D); [apply Rmult_le_compat_l; [unfold Rdiv; nra|lra]|]. unfold Rdiv in *. lra.
  - exists n, s. split; assumption.
Qed.

Example C207_case : exists j, 0 < flow_p j /\ 0 < flow_s j /\ 0 < density_m j /\ 0 < V_mixed j.
Proof.
  exists (Jets 1 2 400 300 800 350 200000 150000 100000). assert (PP := PI_RGT_0).
  assert (FP : 0 < flow_p (Jets 1 2 400 300 800 350 200000 150000 100000)). { unfold flow_p, density_p, jet_density, cp_of, R_gas, disc. cbn [j_Dp j_Ds j_Vp j_Vs j_Tp j_Ts j_Pp j_Ps]. apply Rmult_lt_0_compat; [apply Rmult_lt_0_compat; [apply Rmult_lt_0_compat; [exact PP|]|]|apply Rdiv_lt_0_compat]; lra. }
  assert (FS : 0 < flow_s (Jets 1 2 400 300 800 350 200000 150000 100000)). { unfold flow_s, density_s, jet_density, cp_of, R_gas, disc. cbn [j_Dp j_Ds j_Vp j_Vs j_Tp j_Ts j_Pp j_Ps]. apply Rmult_lt_0_compat; [apply Rmult_lt_0_compat; [apply Rmult_lt_0_compat; [exact PP|]|]|apply Rdiv_lt_0_compat]; lra. }
  set (j := Jets 1 2 400 300 800 350 200000 150000 100000) in *.
  pose proof (mean_between _ _ (j_Vp j) (j_Vs j) FP FS) as V. fold (V_mixed j) in V. pose proof (mean_between _ _ (j_Tp j) (j_Ts j) FP FS) as T. fold (T_mixed j) in T.
  cbn [j j_Vp j_Vs j_Tp j_Ts] in V, T. rewrite Rmin_right, Rmax_left in V, T by lra. split; [exact FP|]. split; [exact FS|]. split; [|lra].
  unfold density_m, jet_density. cbn [j j_amb]. apply Rdiv_lt_0_compat; [lra|]. set (v := V_mixed j) in *. set (t := T_mixed j) in *. clearbody v t. unfold cp_of, R_gas.
  assert (v ^ 2 <= 160000) by nra. nra.
Qed.
Example C207_last_band_case : forall q, let s : pstep := (q, repeat (1, 1, 0) 24, repeat 3 24) in
  exists a b, primary_run [s; s] = [a; b] /\ nth_error a 23 = Some 3 /\ nth_error b 23 = Some 6.
Proof.
  intros q s. assert (F : Forall full [s; s]) by (repeat constructor). exists (map2 Rplus (primary_levels q (repeat (1, 1, 0) 24) (repeat 0 24)) (repeat 3 24)).
  eexists. split; [reflexivity|]. split.
  - rewrite (C207_last_band_refuted [s; s] 0 _ F eq_refl). cbn. f_equal. ring.
  - rewrite (C207_last_band_refuted [s; s] 1 _ F eq_refl). cbn. f_equal. ring.
Qed.
Example C208_case : exists n s, (forall m, locate (place_p (zk_of 1 1) 1 5) (place_p (zk_of 1 1) 1 5) (PI / 2) 100 1 (1 / 200) (n + m) (PI / 2) = Some s) /\ 0 < s < PI.
Proof.
  apply (C208_primary 1 1 1 5 (PI / 2) 100 (PI / 2)); rewrite ?sin_PI2; try lra. pose proof PI2_3_2. apply Rmult_le_reg_r with PI; [lra|]. replace (36 / PI * 1 * PI) with 36 by (field; lra). lra.
Qed.
Print Assumptions C207_mixing.
Print Assumptions C207_limits.
Print Assumptions C207_scale.
Print Assumptions C207_excitation.
Print Assumptions C207_share.
Print Assumptions C207_distance.
Print Assumptions C207_total.
Print Assumptions C207_installation.
Print Assumptions C207_ground.
Print Assumptions C207_attack.
Print Assumptions C207_bands.
Print Assumptions C207_last_band_refuted.
Print Assumptions C208_direction.
Print Assumptions C208_settles.
Print Assumptions C208_places.
Print Assumptions C208_primary.
