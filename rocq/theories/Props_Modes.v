(** * C83-C86: modes of motion *)
From Coq Require Import Reals List Bool Lra Psatz Permutation Arith Lia.
From Verif Require Import PyBase M_Opt P_Opt S_Wing P_Wing M_Stab P_Stab M_Modes S_Modes P_Modes.
Import ListNotations.
Local Open Scope R_scope.
Local Open Scope list_scope.

(** ** C83: rate derivatives and one-line approximations *)
(** roll damping is the strip-theory integral over a wing with straight edges *)
Theorem C83_roll_damping cla cr ct h area second : 0 < h -> 0 < cr -> 0 <= ct ->
  integral (straight cr ct h) 0 h area -> integral (fun y => straight cr ct h y * y ^ 2) 0 h second ->
  cl_p cla (ct / cr) * (2 * area) * (2 * h) ^ 2 = - 4 * cla * second.
Proof.
  intros H R0 T IA IS. rewrite (integral_unique _ _ _ _ _ IA (straight_integral cr ct h (Rgt_not_eq _ _ H))).
  rewrite (integral_unique _ _ _ _ _ IS (second_moment cr ct h (Rgt_not_eq _ _ H))). unfold cl_p. field. repeat split; lra.
Qed.
(** "the dihedral effect is the strip-theory integral" is false: it is half of it *)
Theorem C83_dihedral_refuted cla cr ct h area first dihedral : 0 < h -> 0 < cr -> 0 <= ct ->
  integral (straight cr ct h) 0 h area -> integral (fun y => straight cr ct h y * y) 0 h first ->
  cl_beta dihedral (ct / cr) (cl_p cla (ct / cr)) * (2 * area) * (2 * h) = 1 / 2 * (- 2 * cla * dihedral * first).
Proof.
  intros H R0 T IA IS. rewrite (integral_unique _ _ _ _ _ IA (straight_integral cr ct h (Rgt_not_eq _ _ H))).
  rewrite (integral_unique _ _ _ _ _ IS (first_moment cr ct h (Rgt_not_eq _ _ H))). unfold cl_beta, cl_p. field. repeat split; lra.
Qed.
(** downwash slope: with the span from aspect ratio and area it is twice the lift slope over pi times the aspect ratio *)
Theorem C83_downwash cla ar sref : 0 < ar -> 0 < sref -> ep_alpha cla sref (sqrt (ar * sref)) = 2 * cla / (PI * ar).
Proof.
  intros A S. pose proof PI_RGT_0. unfold ep_alpha. rewrite pow2_sqrt by nra. field. repeat split; lra.
Qed.
(** phugoid in level flight: exchange of speed and height with the drag as damping *)
Theorem C83_phugoid g V CD CL m S rho w zeta : 0 < g -> 0 < V -> 0 < CL -> 0 < m -> 0 < S -> 0 < rho ->
  1 / 2 * rho * V ^ 2 * S * CL = m * g -> phugoid g V CD CL = (w, zeta) ->
  second_order m (rho * V * S * CD) (m * (2 * g ^ 2 / V ^ 2)) w zeta.
Proof.
  intros G V0 L M S0 D E H. unfold phugoid in H. injection H as <- <-. assert (Q : sqrt 2 * sqrt 2 = 2) by (apply sqrt_sqrt; lra). pose proof (sqrt_lt_R0 2 ltac:(lra)) as P.
  apply second_order_of; [lra | apply Rmult_lt_0_compat; [apply Rdiv_lt_0_compat; lra | assumption] | |].
  - replace (m * (2 * (CD / (CL * sqrt 2)) * (g / V * sqrt 2))) with (2 * CD * (m * g) / (CL * V)) by (field; repeat split; lra). rewrite <- E. field. lra.
  - replace ((g / V * sqrt 2) ^ 2) with ((g / V) ^ 2 * (sqrt 2 * sqrt 2)) by ring. rewrite Q. field. lra.
Qed.
(** dutch roll: turning about the vertical axis against stiffness and damping in yaw *)
Theorem C83_dutch V cnb S rho b Iz cnr : 0 < V -> 0 < S -> 0 < rho -> 0 < b -> 0 < Iz ->
  (cnb < 0 -> dutch_roll V cnb S rho b Iz cnr = (None, None)) /\
  (0 < cnb -> exists w zeta, dutch_roll V cnb S rho b Iz cnr = (Some w, Some zeta) /\
     second_order Iz (- (1 / 4 * rho * V * S * b ^ 2 * cnr)) (1 / 2 * rho * V ^ 2 * S * b * cnb) w zeta).
Proof.
  intros V0 S0 D B I. assert (P3 : 0 < b ^ 3) by (apply pow_lt; assumption). assert (Q : 0 < S * rho * b) by (repeat apply Rmult_lt_0_compat; assumption).
  assert (IP : 0 < / Iz) by (now apply Rinv_0_lt_compat). assert (Q3 : 0 < 2 * S * rho * b ^ 3) by (repeat apply Rmult_lt_0_compat; lra). split; intro C.
  - unfold dutch_roll. rewrite !half_power_neg; [reflexivity | |].
    + apply Ropp_lt_cancel. rewrite Ropp_0. replace (- (2 * S * rho * b ^ 3 / Iz / cnb)) with (2 * S * rho * b ^ 3 / Iz / - cnb) by (field; split; lra).
      apply Rdiv_lt_0_compat; [apply Rdiv_lt_0_compat; lra | lra].
    + replace (cnb * S * rho * b / 2 / Iz) with (- ((- cnb) * (S * rho * b) * (1 / 2) * / Iz)) by (field; lra). assert (0 < - cnb * (S * rho * b) * (1 / 2) * / Iz); [|lra].
      repeat apply Rmult_lt_0_compat; lra.
  - assert (A1 : 0 < cnb * S * rho * b / 2 / Iz) by (replace (cnb * S * rho * b / 2 / Iz) with (cnb * (S * rho * b) * (1 / 2) * / Iz) by (field; lra); repeat apply Rmult_lt_0_compat; lra).
    assert (A2 : 0 < 2 * S * rho * b ^ 3 / Iz / cnb) by (apply Rdiv_lt_0_compat; [apply Rdiv_lt_0_compat; lra | lra]).
    unfold dutch_roll. rewrite !half_power_pos by lra. cbn [omap2]. do 2 eexists. split; [reflexivity|].
    pose proof (sqrt_lt_R0 _ A1) as S1. apply second_order_of; [lra | nra | |].
    + pose proof (sqrt_prod_sq (cnb * S * rho * b / 2 / Iz) (2 * S * rho * b ^ 3 / Iz / cnb) (S * rho * b ^ 2 / Iz)) as E.
      set (s1 := sqrt (cnb * S * rho * b / 2 / Iz)) in *. set (s2 := sqrt (2 * S * rho * b ^ 3 / Iz / cnb)) in *.
      replace (Iz * (2 * (- cnr / 8 * s2) * (V * s1))) with (- (1 / 4) * Iz * cnr * V * (s1 * s2)) by field. rewrite E; [field; lra | lra | lra | |field; split; lra].
      apply Rlt_le, Rdiv_lt_0_compat; [|assumption]. apply Rmult_lt_0_compat; [nra | apply pow_lt; assumption].
    + rewrite Rpow_mult_distr, pow2_sqrt by lra. field. lra.
Qed.
(** roll: the number is the inverse of the exponent of a rolling motion *)
Theorem C83_roll Ix S rho V b clp : 0 < Ix -> 0 < S -> 0 < rho -> 0 < V -> 0 < b -> clp <> 0 ->
  Ix * (1 / roll Ix S rho V b clp) = 1 / 4 * rho * V * S * b ^ 2 * clp /\ (clp < 0 -> roll Ix S rho V b clp < 0).
Proof.
  intros I S0 D V0 B C. split; [unfold roll; field; repeat split; lra|]. intro N. unfold roll.
  assert (0 < S * rho * V * b ^ 2) by (repeat apply Rmult_lt_0_compat; try lra; apply pow_lt; assumption). assert (Z : S * rho * V * b ^ 2 * clp < 0) by nra. pose proof (Rinv_lt_0_compat _ Z). unfold Rdiv. nra.
Qed.
(** "the analysis reports the roll mode of the aircraft" is false: it uses the inertia in yaw *)
Theorem C83_roll_refuted ixx iyy izz S rho V b clp : 0 < ixx -> ixx < izz -> 0 < S -> 0 < rho -> 0 < V -> 0 < b -> clp < 0 ->
  roll_call ixx iyy izz S rho V b clp = izz / ixx * roll ixx S rho V b clp /\ roll_call ixx iyy izz S rho V b clp < roll ixx S rho V b clp.
Proof.
  intros I J S0 D V0 B C. assert (E : roll_call ixx iyy izz S rho V b clp = izz / ixx * roll ixx S rho V b clp) by (unfold roll_call, roll; field; repeat split; lra).
  split; [exact E|]. rewrite E. destruct (C83_roll ixx S rho V b clp) as [_ N]; try assumption; [lra|]. specialize (N C).
  assert (1 < izz / ixx) by (apply Rmult_lt_reg_r with ixx; [assumption|]; replace (izz / ixx * ixx) with izz by (field; lra); lra). nra.
Qed.
(** short period: incidence and pitch rate at constant speed *)
Theorem C83_short_period V rho S c cmq cza m cma Iy cmad : 0 < V -> 0 < rho -> 0 < S -> 0 < c -> 0 < m -> 0 < Iy ->
  let mu := 2 * m / (rho * V * S) in
  let k := c / (2 * V) in
  let i := 2 * Iy / (rho * V ^ 2 * S * c) in
  0 < k * cza * cmq - mu * cma ->
  exists w zeta, short_period V rho S c cmq cza m cma Iy cmad = (Some w, Some zeta) /\ 0 < w /\
    forall s, (mu * s - cza) * (i * s ^ 2 - k * cmq * s) - (- mu * s) * (- k * cmad * s - cma) = s * (mu * i) * (s ^ 2 + 2 * zeta * w * s + w ^ 2).
Proof.
  intros V0 D S0 C M I mu k i H.
  set (x := 1 / 2 * cmq * cza - 2 * m / rho / S / c * cma).
  assert (X : k * cza * cmq - mu * cma = c / V * x) by (unfold k, mu, x; field; repeat split; lra).
  assert (CV : 0 < c / V) by (apply Rdiv_lt_0_compat; lra). assert (XP : 0 < x) by nra.
  assert (A1 : 0 < x / Iy / m) by (apply Rdiv_lt_0_compat; [apply Rdiv_lt_0_compat; lra | lra]).
  assert (X2 : cmq * cza * (1 / 2) - 2 * m * cma / rho / S / c = x) by (unfold x; field; repeat split; lra).
  assert (A2 : 0 < m * c ^ 2 / Iy / x) by (apply Rdiv_lt_0_compat; [apply Rdiv_lt_0_compat; [apply Rmult_lt_0_compat; [lra | apply pow_lt; lra] | lra] | lra]).
  unfold short_period. fold x. rewrite X2. rewrite !half_power_pos by lra. cbn [omap2]. do 2 eexists. split; [reflexivity|].
  pose proof (sqrt_lt_R0 _ A1) as P1. assert (VP : 0 < V * rho * S * c) by (repeat apply Rmult_lt_0_compat; lra). split; [nra|].
  pose proof (sqrt_prod_sq (x / Iy / m) (m * c ^ 2 / Iy / x) (c / Iy)) as E. assert (W2 : sqrt (x / Iy / m) ^ 2 = x / Iy / m) by (apply pow2_sqrt; lra).
  set (s1 := sqrt (x / Iy / m)) in *. set (s2 := sqrt (m * c ^ 2 / Iy / x)) in *.
  assert (E' : s1 * s2 = c / Iy). { apply E; [lra | lra | apply Rlt_le, Rdiv_lt_0_compat; lra | field; repeat split; lra]. }
  intro s. replace ((V * rho * S * c / 2 * s1) ^ 2) with ((V * rho * S * c / 2) ^ 2 * (x / Iy / m)) by (rewrite <- W2; ring).
  set (dz := cmq + cmad + 2 * Iy * cza / m / c ^ 2). replace (2 * (- (1 / 4) * dz * s2) * (V * rho * S * c / 2 * s1) * s) with (- (1 / 4) * dz * V * rho * S * c * (s1 * s2) * s) by field.
  rewrite E'. unfold dz, mu, k, i, x. field. repeat split; lra.
Qed.
(** spiral: the inverse of the exponent at which the stiffness of the lateral motion balances its roll damping against yaw stiffness; stable
    exactly when dihedral effect and yaw damping outweigh yaw stiffness and roll due to yawing *)
Theorem C83_spiral i : t_V i <> 0 -> t_S i <> 0 -> t_rho i <> 0 -> t_b i <> 0 -> t_cypsi i = 0 -> t_clp i * t_cnb i <> 0 -> spiral_balance i <> 0 ->
  let tau := spiral (t_m i) (t_V i) (t_rho i) (t_S i) (t_clp i) (t_cnb i) (t_cyphi i) (t_clb i) (t_cnr i) (t_clr i) in
  let mu := t_m i * t_V i / (1 / 2 * t_rho i * t_V i ^ 2 * t_S i) in
  let k := t_b i / (2 * t_V i) in
  nth 1 (lateral_total i) 0 * tau = k * mu * t_clp i * t_cnb i /\
  (0 < t_m i -> 0 < t_V i -> 0 < t_S i -> 0 < t_rho i -> t_clp i < 0 -> 0 < t_cnb i -> 0 < t_cyphi i -> (tau < 0 <-> t_cnb i * t_clr i < t_clb i * t_cnr i)).
Proof.
  intros V S0 D B Y P N tau mu k. change (nth 1 (lateral_total i) 0) with (co (lateral_total i) 1). rewrite lateral_co. cbn zeta. unfold spiral_balance in *. rewrite Y in *.
  assert (N1 : t_cyphi i * (t_clb i * t_cnr i - t_cnb i * t_clr i) <> 0) by lra.
  assert (NP : t_cyphi i <> 0) by (intro Z; apply N1; rewrite Z; ring). assert (NB : t_clb i * t_cnr i - t_cnb i * t_clr i <> 0) by (intro Z; apply N1; rewrite Z; ring).
  split; [unfold tau, mu, k, spiral; field; repeat split; assumption|]. intros M V0 SP DP CP CB CY.
  assert (E : tau = mu * (t_clp i * t_cnb i) / (t_cyphi i * (t_clb i * t_cnr i - t_cnb i * t_clr i))) by (unfold tau, mu, spiral; field; repeat split; assumption).
  assert (MU : 0 < mu) by (unfold mu; apply Rdiv_lt_0_compat; [nra|]; apply Rmult_lt_0_compat; [|assumption]; apply Rmult_lt_0_compat; [lra | apply pow_lt; assumption]).
  assert (Q : mu * (t_clp i * t_cnb i) < 0) by (assert (t_clp i * t_cnb i < 0) by nra; nra). rewrite E. split; intro H.
  - destruct (Rlt_dec (t_cnb i * t_clr i) (t_clb i * t_cnr i)) as [L|L]; [exact L|]. exfalso.
    assert (Z : t_cyphi i * (t_clb i * t_cnr i - t_cnb i * t_clr i) < 0) by nra. pose proof (Rinv_lt_0_compat _ Z) as ZI. unfold Rdiv in H. nra.
  - assert (Z : 0 < t_cyphi i * (t_clb i * t_cnr i - t_cnb i * t_clr i)) by nra. pose proof (Rinv_0_lt_compat _ Z) as ZI. unfold Rdiv. nra.
Qed.
(** yawing: a fin of area sv at distance lv meets the air at the extra angle r lv / V; its side force times lv is the damping moment *)
Theorem C83_yaw_damping cd sv sref lv span eta cla q V r : 0 < sref -> 0 < span -> 0 < V ->
  q * sref * span * (cn_r cd sv sref lv span eta cla * (r * span / (2 * V))) =
    - (q * eta * sv * (cla * (r * lv / V))) * lv - q * sref * span * (cd / 4) * (r * span / (2 * V)) /\
  (0 <= cd -> 0 < sv -> lv <> 0 -> 0 < eta -> 0 < cla -> cn_r cd sv sref lv span eta cla < 0).
Proof.
  intros S0 B0 V0. unfold cn_r. split; [field; lra|]. intros H1 H2 H3 H4 H5.
  assert (0 < lv ^ 2) by (destruct (Rtotal_order lv 0) as [X|[X|X]]; [nra|contradiction|nra]).
  assert (0 < 2 * sv / sref * (lv / span) ^ 2 * cla * eta).
  { replace (2 * sv / sref * (lv / span) ^ 2 * cla * eta) with (2 * sv * lv ^ 2 * cla * eta / (sref * span ^ 2)) by (field; lra).
    apply Rdiv_lt_0_compat; [|apply Rmult_lt_0_compat; [assumption|apply pow_lt; assumption]]. apply Rmult_lt_0_compat; [|assumption]. apply Rmult_lt_0_compat; [|assumption]. apply Rmult_lt_0_compat; [|assumption]. lra. }
  lra.
Qed.
(** pitching: the tail of area st at distance lt, with volume coefficient st lt / (sref mac), and a tenth more for the rest of the aircraft *)
Theorem C83_pitch_damping cla st sref lt mac q V w : 0 < sref -> 0 < mac -> 0 < V ->
  q * sref * mac * (cm_q cla (st * lt / (sref * mac)) lt mac * (w * mac / (2 * V))) = - (11 / 10 * (q * st * (cla * (w * lt / V))) * lt) /\
  (0 < st -> lt <> 0 -> 0 < cla -> cm_q cla (st * lt / (sref * mac)) lt mac < 0).
Proof.
  intros S0 C0 V0. unfold cm_q. split; [field; lra|]. intros H1 H2 H3.
  assert (0 < lt ^ 2) by (destruct (Rtotal_order lt 0) as [X|[X|X]]; [nra|contradiction|nra]).
  replace (- 2 * lt / mac * (st * lt / (sref * mac)) * cla * (11 / 10)) with (- (22 / 10 * (st * lt ^ 2 * cla / (sref * mac ^ 2)))) by (field; lra).
  assert (0 < st * lt ^ 2 * cla / (sref * mac ^ 2)); [|lra]. apply Rdiv_lt_0_compat; [|apply Rmult_lt_0_compat; [assumption|apply pow_lt; assumption]]. apply Rmult_lt_0_compat; [|assumption]. apply Rmult_lt_0_compat; assumption.
Qed.
(** plunging: the downwash reaches the tail a time lt / V late *)
Theorem C83_lag cm ep lt mac V adot : 0 < mac -> 0 < V ->
  cm_alphadot cm ep lt mac * (adot * mac / (2 * V)) = cm * (ep * (adot * (lt / V))) /\ cm_alphadot cm ep lt mac = cz_alphadot cm ep * (lt / mac).
Proof. intros C0 V0. unfold cm_alphadot, cz_alphadot. split; field; lra. Qed.
Example C83_case : exists w zeta, dutch_roll 100 (1 / 10) 100 1 30 1000000 (- (1 / 10)) = (Some w, Some zeta).
Proof. destruct (C83_dutch 100 (1 / 10) 100 1 30 1000000 (- (1 / 10))) as [_ H]; try lra. destruct H as (w & z & E & _); [lra | eauto]. Qed.

(** ** C84: lateral modes from the full equations *)
(** the polynomial is the determinant of the equations of motion, at every complex exponent; heading does not matter to it *)
Theorem C84_determinant i z : t_V i <> 0 -> t_S i <> 0 -> t_rho i <> 0 -> t_b i <> 0 ->
  at_ (lateral_total i) z = lateral_det i z /\ lateral_det i c0 = c0.
Proof.
  intros V S0 D B. split; [now apply lateral_at|]. rewrite <- lateral_at by assumption. rewrite at_zero_first, lateral_co. reflexivity.
Qed.
(** refused exactly when inertia or mass vanish, or when the spiral is neutral *)
Theorem C84_refused np i : exact_roots np -> t_V i <> 0 -> t_S i <> 0 -> t_rho i <> 0 -> t_b i <> 0 ->
  lateral_directional np i = Err IndexError <-> (t_Ix i * t_Iz i - t_J i ^ 2) * t_m i = 0 \/ spiral_balance i = 0.
Proof.
  intros X V S0 D B. assert (K1 : co (lateral_total i) 1 = t_b i * (1 / 2) / t_V i * spiral_balance i) by (rewrite lateral_co; reflexivity).
  assert (K5 : co (lateral_total i) 5 = (t_Ix i * t_Iz i - t_J i ^ 2) * t_m i * (t_V i / (t_S i * (1 / 2 * t_rho i * t_V i ^ 2)) ^ 3 / t_b i ^ 2)) by (rewrite lateral_co; cbn zeta; field; repeat split; assumption).
  assert (KN : t_V i / (t_S i * (1 / 2 * t_rho i * t_V i ^ 2)) ^ 3 / t_b i ^ 2 <> 0).
  { nz. }
  assert (KB : t_b i * (1 / 2) / t_V i <> 0) by nz.
  unfold lateral_directional. rewrite lateral_lead. unfold zero. destruct (Req_EM_T (co (lateral_total i) 5) 0) as [Z|Z].
  - split; [intros _; left | reflexivity]. rewrite K5 in Z. apply Rmult_integral in Z as [Z|Z]; [exact Z | contradiction].
  - assert (NZ : (t_Ix i * t_Iz i - t_J i ^ 2) * t_m i <> 0) by (intro Q; apply Z; rewrite K5, Q; ring).
    destruct (Req_dec (spiral_balance i) 0) as [W|W].
    + split; [intros _; now right | intros _]. pose proof (lateral_neutral np i X Z) as L. rewrite K1, W in L. specialize (L ltac:(ring)).
      set (rs := np _) in *. rewrite <- (sort_length rs) in L. destruct (sort_down rs) as [|a [|b [|c [|d r]]]]; cbn in L; try lia; reflexivity.
    + split; [|intros [Q|Q]; contradiction]. destruct (lateral_roots np i X Z) as [L _]; [rewrite K1; apply Rmult_integral_contrapositive; split; assumption|].
      set (rs := np _) in *. rewrite <- (sort_length rs) in L. destruct (four _ L) as (a & b & c & d & E). rewrite E. discriminate.
Qed.
(** otherwise the dutch-roll frequency is that of a true mode; "the damping ratio too" is false: it is twice it over the square of the frequency *)
Theorem C84_modes np i w zeta spi rol : exact_roots np -> t_V i <> 0 -> t_S i <> 0 -> t_rho i <> 0 -> t_b i <> 0 ->
  lateral_directional np i = Ok (w, zeta, spi, rol) ->
  exists dutch sp ro, lateral_det i dutch = c0 /\ lateral_det i (cinv sp) = c0 /\ lateral_det i (cinv ro) = c0 /\
    0 < w /\ w = cabs dutch /\ zeta = 2 * (- re dutch / cabs dutch) / w ^ 2 /\ spi = re sp /\ rol = re ro /\ sp <> c0 /\ ro <> c0.
Proof.
  intros X V S0 D B H. assert (NE : lateral_directional np i <> Err IndexError) by (rewrite H; discriminate).
  rewrite (C84_refused np i X V S0 D B) in NE.
  assert (N5 : co (lateral_total i) 5 <> 0).
  { intro Z. unfold lateral_directional in H. rewrite lateral_lead in H. rewrite (zero_yes _ Z) in H. discriminate. }
  assert (N1 : co (lateral_total i) 1 <> 0).
  { rewrite lateral_co. cbn zeta. assert (spiral_balance i <> 0) by (intro Q; apply NE; now right). nz. }
  destruct (lateral_roots np i X N5 N1) as [L R0]. unfold lateral_directional in H. rewrite lateral_lead, zero_no in H by assumption. set (rs := np _) in *.
  rewrite <- (sort_length rs) in L. destruct (four _ L) as (a & b & c & d & E). rewrite E in H. cbn [nth_error] in H. injection H as <- <- <- <-.
  assert (IN : forall x, In x [a; b; c; d] -> x <> c0 /\ lateral_det i (cinv x) = c0).
  { intros x I. rewrite <- (lateral_at i) by assumption. apply R0. apply (Permutation_in x (Permutation_sym (sort_perm rs))). now rewrite E. }
  destruct (IN a) as [A0 A1]; [cbn; auto|]. destruct (IN b) as [B0 B1]; [cbn; auto|]. destruct (IN d) as [D0 D1]; [cbn; auto|].
  exists (cinv b), a, d. pose proof (c_norm b B0) as NB. pose proof (cabs_inv b B0) as CI.
  assert (SP : 0 < sqrt (im b ^ 2 + re b ^ 2)) by (apply sqrt_lt_R0; unfold re, im; lra).
  refine (conj B1 (conj A1 (conj D1 (conj _ (conj (eq_sym CI) (conj _ (conj _ (conj _ (conj A0 D0))))))))); [now apply Rinv_0_lt_compat | | lra | lra].
  rewrite CI. assert (Q : sqrt (im b ^ 2 + re b ^ 2) ^ 2 = fst b ^ 2 + snd b ^ 2) by (rewrite pow2_sqrt; unfold re, im; lra). set (s := sqrt _) in *.
  unfold cinv. cbn [re fst]. change (fst (fst b / (fst b ^ 2 + snd b ^ 2), - snd b / (fst b ^ 2 + snd b ^ 2))) with (fst b / (fst b ^ 2 + snd b ^ 2)).
  unfold re. cbn [fst]. rewrite <- Q. field. lra.
Qed.
(** the labels: right when the spiral diverges *)
Theorem C84_unstable_spiral np i spi rol p q w : exact_roots np -> t_V i <> 0 -> t_S i <> 0 -> t_rho i <> 0 -> t_b i <> 0 ->
  0 < spi -> rol < p < 0 -> 0 < q ->
  Permutation (np (map (fun c => c / nth 5 (lateral_total i) 0) (lateral_total i))) [real spi; (p, q); (p, - q); real rol] ->
  nth 5 (lateral_total i) 0 <> 0 -> w = cabs (cinv (p, q)) ->
  exists zeta, lateral_directional np i = Ok (w, zeta, spi, rol).
Proof.
  intros X V S0 D B SP PR Q PM N5 W. change (nth 5 (lateral_total i) 0) with (co (lateral_total i) 5) in *. unfold lateral_directional. rewrite lateral_lead, zero_no by assumption.
  rewrite (sort_is _ _ PM).
  - cbn [nth_error]. eexists. do 4 f_equal; [rewrite W; symmetry; apply cabs_inv; intro Z; injection Z; lra | cbn; lra ..].
  - cbn [strictly]. repeat split; repeat constructor; apply cltb_spec; unfold re, im, real; cbn [fst snd]; lra.
Qed.
(** "the labels are right" is false of a stable aircraft whose spiral is slow and whose dutch roll is lightly damped: what is called the
    time constant of the spiral belongs to the dutch roll, and that of the roll to the spiral *)
Theorem C84_stable_refuted np i spi rol p q : exact_roots np -> t_V i <> 0 -> t_S i <> 0 -> t_rho i <> 0 -> t_b i <> 0 ->
  spi < rol -> rol < p -> p < 0 -> 0 < q ->
  Permutation (np (map (fun c => c / nth 5 (lateral_total i) 0) (lateral_total i))) [(p, q); (p, - q); real rol; real spi] ->
  nth 5 (lateral_total i) 0 <> 0 ->
  exists w zeta, lateral_directional np i = Ok (w, zeta, p, spi).
Proof.
  intros X V S0 D B A1 A2 A3 Q PM N5. change (nth 5 (lateral_total i) 0) with (co (lateral_total i) 5) in *. unfold lateral_directional. rewrite lateral_lead, zero_no by assumption.
  rewrite (sort_is _ _ PM).
  - cbn [nth_error]. do 2 eexists. do 3 f_equal; cbn; lra.
  - cbn [strictly]. repeat split; repeat constructor; apply cltb_spec; unfold re, im, real; cbn [fst snd]; lra.
Qed.
Example C84_case : let i := Lat 1 1 1 2 2 1 (- 1) 1 (- 1) 0 0 (- 1) 0 1 0 (- 1) 1 in
  (t_Ix i * t_Iz i - t_J i ^ 2) * t_m i = 1 /\ spiral_balance i = 1 /\ length (lateral_total i) = 6%nat.
Proof.
  cbn zeta. split; [cbn; lra|]. split; [unfold spiral_balance; cbn; lra|]. rewrite lateral_list; [reflexivity|]. rewrite lateral_co. cbn. lra.
Qed.

(** ** C85: longitudinal modes from the full equations *)
Theorem C85_determinant i z : o_V i <> 0 -> o_S i <> 0 -> o_rho i <> 0 -> o_c i <> 0 -> at_ (long_total i) z = long_det i z.
Proof. apply long_at. Qed.
(** refused exactly when the highest coefficient vanishes *)
Theorem C85_refused i : o_V i <> 0 -> o_S i <> 0 -> o_rho i <> 0 -> o_c i <> 0 ->
  longitudinal i = Err IndexError <->
  o_m i * o_Iy i = 0 \/ o_m i = 1 / 4 * o_rho i * o_S i * o_c i * o_czad i.
Proof.
  intros V S0 D B.
  assert (K : co (long_total i) 4 = o_m i * o_Iy i * (o_m i - 1 / 4 * o_rho i * o_S i * o_c i * o_czad i) * (o_V i ^ 2 / (o_S i * (1 / 2 * o_rho i * o_V i ^ 2)) ^ 3 / o_c i)).
  { rewrite long_co by lia. cbn [Nat.eqb]. field. repeat split; assumption. }
  assert (KN : o_V i ^ 2 / (o_S i * (1 / 2 * o_rho i * o_V i ^ 2)) ^ 3 / o_c i <> 0).
  { nz. }
  unfold longitudinal. rewrite long_lead. unfold zero. destruct (Req_EM_T (co (long_total i) 4) 0) as [Z|Z].
  - split; [intros _ | reflexivity]. rewrite K in Z. apply Rmult_integral in Z as [Z|Z]; [|contradiction]. apply Rmult_integral in Z as [Z|Z]; [now left | right; lra].
  - split; [destruct (lin_step _ _ _ _) as [s p]; discriminate|]. intros [Q|Q]; exfalso; apply Z; rewrite K; [rewrite Q; ring | rewrite Q at 2; ring].
Qed.
(** the two quadratics multiply to the quartic up to a remainder of first degree; each is given by its frequency and damping *)
Theorem C85_factors a0 a1 a2 a3 b1 b0 q1 q0 : a2 <> 0 -> a2 - a0 / a2 - a1 * (a3 - a1 / a2) / a2 <> 0 ->
  lin_step a0 a1 a2 a3 = ((b1, b0), (q1, q0)) ->
  (forall s, s ^ 4 + a3 * s ^ 3 + a2 * s ^ 2 + a1 * s + a0 = (s ^ 2 + b1 * s + b0) * (s ^ 2 + q1 * s + q0) + (a1 - b1 * q0 - b0 * q1) * s + (a0 - b0 * q0)) /\
  ((a1 = b1 * q0 + b0 * q1 /\ a0 = b0 * q0) <-> forall s, s ^ 4 + a3 * s ^ 3 + a2 * s ^ 2 + a1 * s + a0 = (s ^ 2 + b1 * s + b0) * (s ^ 2 + q1 * s + q0)).
Proof.
  intros A P H. assert (F : forall s, s ^ 4 + a3 * s ^ 3 + a2 * s ^ 2 + a1 * s + a0 = (s ^ 2 + b1 * s + b0) * (s ^ 2 + q1 * s + q0) + (a1 - b1 * q0 - b0 * q1) * s + (a0 - b0 * q0)).
  { intro s. unfold lin_step in H. set (p22 := a2 - a0 / a2 - a1 * (a3 - a1 / a2) / a2) in *. set (p21 := a1 - a0 * (a3 - a1 / a2) / a2) in *.
    injection H as <- <- <- <-. field. assumption. }
  split; [exact F|]. split.
  - intros [E1 E0] s. rewrite F. replace (a1 - b1 * q0 - b0 * q1) with 0 by lra. replace (a0 - b0 * q0) with 0 by lra. ring.
  - intro G. pose proof (F 0) as F0. rewrite (G 0) in F0. pose proof (F 1) as F1. rewrite (G 1) in F1. split; lra.
Qed.
Theorem C85_frequency b1 b0 : (b0 < 0 -> frequency (b1, b0) = None) /\
  (0 < b0 -> exists w zeta, frequency (b1, b0) = Some (w, zeta) /\ second_order 1 b1 b0 w zeta).
Proof.
  split; intro B; unfold frequency; cbn [snd fst]; [rewrite half_power_neg by assumption; reflexivity|].
  rewrite half_power_pos by lra. do 2 eexists. split; [reflexivity|]. pose proof (sqrt_lt_R0 _ B) as P. apply second_order_of; [lra | exact P | field; lra | rewrite pow2_sqrt by lra; ring].
Qed.
(** the whole: for an aircraft with two oscillations the numbers reported are those of the two quadratics *)
Theorem C85_modes i short slow : longitudinal i = Ok (short, slow) ->
  let lead := nth 4 (long_total i) 0 in
  let a n := nth n (long_total i) 0 / lead in
  lead <> 0 /\ short = frequency (fst (lin_step (a 0%nat) (a 1%nat) (a 2%nat) (a 3%nat))) /\ slow = frequency (snd (lin_step (a 0%nat) (a 1%nat) (a 2%nat) (a 3%nat))).
Proof.
  intros H lead a. unfold longitudinal in H. rewrite long_lead in H. unfold zero in H. destruct (Req_EM_T (co (long_total i) 4) 0) as [Z|Z]; [discriminate|].
  split; [exact Z|]. unfold a, lead. change (co (long_total i) 4) with (nth 4 (long_total i) 0) in H. destruct (lin_step _ _ _ _) as [s p]. injection H as <- <-. split; reflexivity.
Qed.
(** "the two modes are exact" is false: for a motion with modes s^2 + s + 1 and s^2 + 4 s + 5 neither comes out *)
Theorem C85_exact_refuted : let '((b1, b0), (q1, q0)) := lin_step 5 9 10 5 in
  (forall s, s ^ 4 + 5 * s ^ 3 + 10 * s ^ 2 + 9 * s + 5 = (s ^ 2 + s + 1) * (s ^ 2 + 4 * s + 5)) /\ q1 <> 1 /\ q0 <> 1 /\ b1 <> 4 /\ b0 <> 5.
Proof. unfold lin_step. split; [intro s; ring|]. split; [|split; [|split]]; intro H; field_simplify in H; lra. Qed.
Example C85_case : lin_step 0 1 2 2 = ((6 / 5, 26 / 25), (4 / 5, 0)).
Proof. unfold lin_step. apply f_equal2; apply f_equal2; field; lra. Qed.

(** ** C86: modes from the eigenvalues of the state matrix *)
(** the mass: whichever of the two is given; both is an error, none is zero *)
Theorem C86_mass mass max : (mass = 0 -> flight_mass mass max = Ok max) /\ (max = 0 -> flight_mass mass max = Ok mass) /\
  (mass <> 0 -> max <> 0 -> flight_mass mass max = Err AttributeError).
Proof.
  unfold flight_mass, zero. destruct (Req_EM_T mass 0), (Req_EM_T max 0); repeat split; try contradiction; try reflexivity. intros _. congruence.
Qed.
(** forces and moments of small changes of speed, incidence, sideslip and rates, from the coefficients *)
Theorem C86_dimensional k rho u0 S c m g theta ar e u w q dw : u0 <> 0 -> rho <> 0 -> S <> 0 ->
  let d := long_dims k rho u0 S c m g theta ar e in let Q := 1 / 2 * rho * u0 ^ 2 in
  d_Xu d * u = (Q * S * k_cxu k + 2 * (m * g) * sin theta) * (u / u0) /\ d_Zu d * u = (Q * S * k_czu k - 2 * (m * g) * cos theta) * (u / u0) /\
  d_Xw d * w = Q * S * (k_cl k - 2 * k_cl k / (PI * ar * e) * k_cla k) * (w / u0) /\ d_Zw d * w = Q * S * - (k_cd k + k_cla k) * (w / u0) /\
  d_Mw d * w = Q * S * c * k_cma k * (w / u0) /\ d_Zq d * q = Q * S * - k_clq k * (q * c / (2 * u0)) /\
  d_Mq d * q = Q * S * c * k_cmq k * (q * c / (2 * u0)) /\
  d_Zwd d * dw = Q * S * k_czad k * (dw / u0 * c / (2 * u0)).
Proof.
  intros U D S0 d Q. unfold d, long_dims, Q. cbn [d_Xu d_Xw d_Zu d_Zw d_Zq d_Mu d_Mw d_Mq d_Zwd d_Mwd]. generalize (2 * k_cl k / (PI * ar * e)). intro z.
  repeat match goal with |- _ /\ _ => split end; field; repeat split; assumption.
Qed.
Theorem C86_dimensional_lateral k rho u0 S b v p r : u0 <> 0 ->
  let d := lat_dims k rho u0 S b in let Q := 1 / 2 * rho * u0 ^ 2 in let h x := x * b / (2 * u0) in
  d_Yv d * v + d_Yp d * p + d_Yr d * r = Q * S * (l_cyb k * (v / u0) + l_cyp k * h p + l_cyr k * h r) /\
  d_Lv d * v + d_Lp d * p + d_Lr d * r = Q * S * b * (l_clb k * (v / u0) + l_clp k * h p + l_clr k * h r) /\
  d_Nv d * v + d_Np d * p + d_Nr d * r = Q * S * b * (l_cnb k * (v / u0) + l_cnp k * h p + l_cnr k * h r).
Proof.
  intros U d Q h. unfold d, lat_dims, Q, h. cbn [d_Yv d_Yp d_Yr d_Lv d_Lp d_Lr d_Nv d_Np d_Nr].
  repeat match goal with |- _ /\ _ => split end; field; repeat split; assumption.
Qed.
(** "the moment of the rate of incidence has its own length" is false: the mean chord enters once where it should twice *)
Theorem C86_incidence_rate_refuted k rho u0 S c m g theta ar e dw : u0 <> 0 ->
  let d := long_dims k rho u0 S c m g theta ar e in let Q := 1 / 2 * rho * u0 ^ 2 in
  c * (d_Mwd d * dw) = Q * S * c * k_cmad k * (dw / u0 * c / (2 * u0)).
Proof. intros U d Q. unfold d, long_dims, Q. cbn [d_Mwd]. field. assumption. Qed.
(** the rows are the equations of motion *)
Theorem C86_longitudinal d m Iy g u0 theta u w q t : m <> 0 -> Iy <> 0 -> m - d_Zwd d <> 0 ->
  let '(r1, r2, r3, r4) := a_lon d m Iy g u0 theta in
  let du := dot4 r1 u w q t in let dw := dot4 r2 u w q t in let dq := dot4 r3 u w q t in let dt := dot4 r4 u w q t in
  m * du = d_Xu d * u + d_Xw d * w - m * g * cos theta * t /\
  m * (dw - u0 * q) = d_Zu d * u + d_Zw d * w + d_Zq d * q + d_Zwd d * dw - m * g * sin theta * t /\
  Iy * dq = d_Mu d * u + d_Mw d * w + d_Mq d * q + d_Mwd d * dw /\ dt = q.
Proof. intros M I Z. unfold a_lon, dot4. cbv zeta. refine (conj _ (conj _ (conj _ _))); [field | field | field | ring]; repeat split; assumption. Qed.
Theorem C86_lateral d ix ixz iz m g u0 theta v p r f : m <> 0 -> ix <> 0 -> iz <> 0 -> ix * iz - ixz ^ 2 <> 0 ->
  let '(r1, r2, r3, r4) := a_lat d (ix, ixz, iz) m g u0 theta in
  let dv := dot4 r1 v p r f in let dp := dot4 r2 v p r f in let dr := dot4 r3 v p r f in let df := dot4 r4 v p r f in
  m * (dv + u0 * r) = d_Yv d * v + d_Yp d * p + d_Yr d * r + m * g * cos theta * f /\
  ix * dp - ixz * dr = d_Lv d * v + d_Lp d * p + d_Lr d * r /\
  iz * dr - ixz * dp = d_Nv d * v + d_Np d * p + d_Nr d * r /\ df = p + r * tan theta.
Proof. intros M X Z D. unfold a_lat, primed, dot4. cbv zeta. refine (conj _ (conj _ (conj _ _))); [field | field | field | ring]; repeat split; assumption. Qed.
(** "without dependence of the moment on speed the speed does not move the nose" is false: the pitch damping is used in its place *)
Theorem C86_speed_refuted k rho u0 S c m g theta ar e : c <> 0 ->
  let d := long_dims k rho u0 S c m g theta ar e in d_Mu d = 2 / c * d_Mq d.
Proof. intro C. unfold long_dims. cbn. field. assumption. Qed.
(** "the inertia is turned into stability axes" is false: products are taken element by element, so at zero incidence the product of
    inertia is lost, and a body with equal moments changes its moments when turned *)
Theorem C86_inertia_refuted : (forall ixx ixz izx izz, stability_inertia ixx ixz izx izz 0 = (ixx, 0, izz)) /\
  (forall i alpha, 0 < i -> sin alpha <> 0 -> fst (fst (stability_inertia i 0 0 i alpha)) < i).
Proof.
  split.
  - intros. unfold stability_inertia. rewrite cos_0, sin_0. repeat f_equal; ring.
  - intros i a I S. unfold stability_inertia. cbn [fst]. pose proof (sin2_cos2 a) as E. unfold Rsqr in E. assert (0 < sin a * sin a) by (apply Rsqr_pos_lt; assumption). nra.
Qed.
(** frequency, damping and time to double or halve describe the eigenvalue *)
Theorem C86_numbers z : z <> (0, 0) ->
  2 * PI * freq z = cabs z /\ - 1 <= damping z <= 1 /\ re z = - damping z * (2 * PI * freq z) /\
  (re z < 0 -> 0 < time_double_half z /\ exp (re z * time_double_half z) = 1 / 2) /\
  (0 < re z -> 0 < time_double_half z /\ exp (re z * time_double_half z) = 2).
Proof.
  intro N. pose proof PI_RGT_0 as P. pose proof (c_norm z N) as NP. assert (A : 0 < cabs z) by (unfold cabs, re, im; apply sqrt_lt_R0; lra).
  assert (F : 2 * PI * freq z = cabs z) by (unfold freq; field; lra). assert (D : damping z = - (re z / cabs z)) by (unfold damping; rewrite zero_no by lra; reflexivity).
  assert (E : re z = - damping z * (2 * PI * freq z)) by (rewrite F, D; field; lra).
  assert (T : time_double_half z = ln 2 / Rabs (re z)).
  { unfold time_double_half. f_equal. rewrite F, D. replace (cabs z * - (re z / cabs z)) with (- re z) by (field; lra). apply Rabs_Ropp. }
  assert (L : 0 < ln 2) by (rewrite <- ln_1; apply ln_increasing; lra).
  split; [exact F|]. split; [|split; [exact E|split]].
  - assert (B : Rabs (re z) <= cabs z).
    { unfold cabs. rewrite <- (sqrt_Rsqr_abs (re z)). apply sqrt_le_1_alt. unfold Rsqr. pose proof (pow2_ge_0 (im z)). lra. }
    assert (G : Rabs (damping z) <= 1).
    { rewrite D, Rabs_Ropp. unfold Rdiv. rewrite Rabs_mult, (Rabs_pos_eq (/ cabs z)) by (apply Rlt_le, Rinv_0_lt_compat; assumption).
      apply Rmult_le_reg_r with (cabs z); [assumption|]. rewrite Rmult_assoc, Rinv_l by lra. lra. }
    unfold Rabs in G. destruct Rcase_abs; lra.
  - intro H. rewrite T, Rabs_left by assumption. split; [apply Rdiv_lt_0_compat; lra|]. replace (re z * (ln 2 / - re z)) with (- ln 2) by (field; lra). rewrite exp_Ropp, exp_ln by lra. lra.
  - intro H. rewrite T, Rabs_pos_eq by lra. split; [apply Rdiv_lt_0_compat; lra|]. replace (re z * (ln 2 / re z)) with (ln 2) by (field; lra). apply exp_ln. lra.
Qed.
(** with one oscillation among four eigenvalues, wherever it stands: it is the dutch roll, and of the other two the one further from zero is the roll *)
Theorem C86_labels l j k : length l = 4%nat -> (j < k < 4)%nat ->
  let z n := nth n l (0, 0) in
  re (z j) = re (z k) -> (forall a b, (a < b < 4)%nat -> re (z a) = re (z b) -> a = j /\ b = k) ->
  let r := roll_index (lateral_modes l) in let s := spiral_index (lateral_modes l) in
  dutch_freq (lateral_modes l) = freq (z j) /\ dutch_damp (lateral_modes l) = damping (z j) /\ dutch_time (lateral_modes l) = time_double_half (z j) /\
  Permutation [j; k; r; s] [0; 1; 2; 3]%nat /\ cabs (z s) <= cabs (z r) /\
  (im (z r) = 0 -> re (z r) <> 0 -> roll_constant (lateral_modes l) = - 1 / re (z r)) /\
  (im (z s) = 0 -> re (z s) <> 0 -> spiral_time (lateral_modes l) = ln 2 / Rabs (re (z s))).
Proof.
  intros L JK z E U r s. pose proof PI_RGT_0 as P.
  assert (DP : dutch_pair l = (true, (j, k))).
  { unfold dutch_pair. assert (SR : forall a b, (a < b < 4)%nat -> same_real l a b = true <-> a = j /\ b = k).
    { intros a b AB. unfold same_real. destruct Req_EM_T as [Q|Q].
      - split; [intros _; now apply U | intros _; reflexivity].
      - split; [intro H; discriminate H | intros [-> ->]; contradiction]. }
    assert (SF : forall a b, (a < b < 4)%nat -> ~ (a = j /\ b = k) -> same_real l a b = false).
    { intros a b AB N. destruct (same_real l a b) eqn:Q; [|reflexivity]. exfalso. apply N. now apply SR. }
    assert (ST : same_real l j k = true) by (now apply SR).
    destruct j as [|[|[|j]]], k as [|[|[|[|k]]]]; try lia; unfold pairs; cbn [find fst snd]; rewrite ?ST;
    repeat (match goal with |- context [same_real l ?a ?b] => rewrite (SF a b) by lia end); rewrite ?ST; reflexivity. }
  assert (W : r = rmax_index l (others [j; k]) /\ s = nth 0 (others [j; k; r]) 0%nat) by (unfold r, s, lateral_modes; rewrite DP; split; reflexivity).
  destruct W as [WR WS].
  assert (VAL : dutch_freq (lateral_modes l) = freq (z j) /\ dutch_damp (lateral_modes l) = damping (z j) /\ dutch_time (lateral_modes l) = time_double_half (z j)) by (unfold lateral_modes; rewrite DP; repeat split).
  destruct VAL as (V1 & V2 & V3). split; [exact V1|]. split; [exact V2|]. split; [exact V3|].
  assert (RC : roll_constant (lateral_modes l) = 1 / (2 * PI * freq (z r) * - sign (re (z r)))) by (unfold r, lateral_modes; rewrite DP; reflexivity).
  assert (SC : spiral_time (lateral_modes l) = ln 2 / Rabs (2 * PI * freq (z s) * - sign (re (z s)))) by (unfold s, lateral_modes; rewrite DP; reflexivity).
  assert (AB : forall x, im x = 0 -> 2 * PI * freq x = Rabs (re x)).
  { intros x I0. unfold freq, cabs. rewrite I0. replace (re x ^ 2 + 0 ^ 2) with (Rsqr (re x)) by (unfold Rsqr; ring). rewrite sqrt_Rsqr_abs. field. lra. }
  assert (PQ : Permutation [j; k; r; s] [0; 1; 2; 3]%nat /\ cabs (z s) <= cabs (z r)).
  { clear RC SC V1 V2 V3 DP U E. unfold rmax_index in WR. 
    destruct j as [|[|[|j]]], k as [|[|[|[|k]]]]; try lia; cbn [others filter existsb Nat.eqb negb orb] in WR; unfold z in *;
    match type of WR with r = (if Rltb ?a ?b then _ else _) => destruct (Rltb a b) eqn:Q; [apply Rltb_true in Q | apply Rltb_false in Q] end;
    rewrite WR in WS; cbn in WS; rewrite WR, WS; (split; [|first [apply Rlt_le; exact Q | exact Q]]);
    apply NoDup_Permutation; try (repeat constructor; cbn; intuition lia); intro x; cbn; intuition. }
  destruct PQ as [PP PC]. split; [exact PP|]. split; [exact PC|].
  assert (SG : forall x, x <> 0 -> Rabs x * sign x = x /\ (sign x = 1 \/ sign x = - 1)).
  { intros x X. unfold sign. destruct (Rltb x 0) eqn:Q; [apply Rltb_true in Q; rewrite Rabs_left by lra; split; [ring | right; lra]|]. apply Rltb_false in Q.
    replace (Rltb 0 x) with true by (symmetry; apply Rltb_true; lra). rewrite Rabs_pos_eq by lra. split; [ring | now left]. }
  split; intros I0 N; [rewrite RC | rewrite SC]; rewrite (AB _ I0).
  - destruct (SG _ N) as [G _]. replace (Rabs (re (z r)) * - sign (re (z r))) with (- re (z r)) by (rewrite <- G at 1; ring). field. exact N.
  - f_equal. destruct (SG _ N) as [G _]. replace (Rabs (re (z s)) * - sign (re (z s))) with (- re (z s)) by (rewrite <- G at 1; ring). apply Rabs_Ropp.
Qed.
(** "with four real eigenvalues all are looked at" is false: nothing is stored for the dutch roll, and roll and spiral come from the first two *)
Theorem C86_no_pair_refuted l : length l = 4%nat -> (forall a b, (a < b < 4)%nat -> re (nth a l (0, 0)) <> re (nth b l (0, 0))) ->
  dutch_freq (lateral_modes l) = 0 /\ dutch_damp (lateral_modes l) = 0 /\
  ((roll_index (lateral_modes l) = 0 /\ spiral_index (lateral_modes l) = 1) \/ (roll_index (lateral_modes l) = 1 /\ spiral_index (lateral_modes l) = 0))%nat.
Proof.
  intros L U. assert (SF : forall a b, (a < b < 4)%nat -> same_real l a b = false).
  { intros a b AB. unfold same_real. destruct Req_EM_T as [Q|Q]; [|reflexivity]. exfalso. now apply (U a b). }
  assert (DP : dutch_pair l = (false, (2, 3)%nat)) by (unfold dutch_pair, pairs; cbn [find fst snd]; rewrite !SF by lia; reflexivity).
  unfold lateral_modes. rewrite DP. cbn [dutch_freq dutch_damp roll_index spiral_index]. split; [reflexivity|]. split; [reflexivity|].
  cbn [others filter existsb Nat.eqb negb orb rmax_index]. destruct (Rltb _ _); cbn; auto.
Qed.
(** "the mode called phugoid is a property of the matrix" is false: an eigenvector may be replaced by its negative, and the choice changes *)
Theorem C86_vector_refuted a b c d : 0 < a -> b < a -> 0 < b -> c < b -> d < b ->
  argmax [real a; real b; real c; real d] = 0%nat /\ (- a < b -> argmax [real (- a); real b; real c; real d] = 1%nat).
Proof.
  intros A B B0 C D. assert (T : forall x y, cltb (real x) (real y) = Rltb x y).
  { intros x y. unfold cltb, real, re, im. cbn [fst snd]. destruct (Rltb x y) eqn:E; [reflexivity|]. destruct (Req_EM_T x y); [apply Rltb_false; lra | reflexivity]. }
  assert (F : forall x y, y <= x -> Rltb x y = false) by (intros; apply Rltb_false; assumption). assert (G : forall x y, x < y -> Rltb x y = true) by (intros; now apply Rltb_true).
  unfold argmax. cbn [argmax_from]. rewrite !T. split.
  - rewrite (F a b), (F a c), (F a d) by lra. reflexivity.
  - intro N. rewrite (G (- a) b), (F b c), (F b d) by lra. reflexivity.
Qed.
Example C86_case : roll_index (lateral_modes [(- 2, 0); (- 1, 3); (- 1, - 3); (- 1 / 100, 0)]) = 0%nat.
Proof.
  destruct (C86_labels [(- 2, 0); (- 1, 3); (- 1, - 3); (- 1 / 100, 0)] 1 2) as (_ & _ & _ & P & C & _); [reflexivity | lia | reflexivity | |].
  - intros a b AB. destruct a as [|[|[|[|a]]]], b as [|[|[|[|b]]]]; try lia; cbn; intro; try lra; split; reflexivity.
  - cbn zeta in *. set (r := roll_index _) in *. set (s := spiral_index _) in *. clearbody r s.
    assert (R : In r [0; 1; 2; 3]%nat) by (apply (Permutation_in r P); cbn; auto). assert (S : In s [0; 1; 2; 3]%nat) by (apply (Permutation_in s P); cbn; auto).
    apply Permutation_sym, (Permutation_NoDup (l' := [1; 2; r; s]%nat)) in P; [|repeat constructor; cbn; intuition lia].
    inversion P as [|? ? N1 P1]; subst. inversion P1 as [|? ? N2 P2]; subst. inversion P2 as [|? ? N3 _]; subst. cbn in *.
    destruct R as [<-|[<-|[<-|[<-|[]]]]]; [reflexivity | intuition | intuition |]. destruct S as [<-|[<-|[<-|[<-|[]]]]]; try (exfalso; intuition; fail).
    exfalso. unfold cabs, re, im in C. cbn in C. assert (sqrt (- 1 / 100 * (- 1 / 100 * 1) + 0 * (0 * 1)) < sqrt (-2 * (-2 * 1) + 0 * (0 * 1))) by (apply sqrt_lt_1_alt; lra). lra.
Qed.
Print Assumptions C83_roll_damping.
Print Assumptions C83_dihedral_refuted.
Print Assumptions C83_downwash.
Print Assumptions C83_phugoid.
Print Assumptions C83_dutch.
Print Assumptions C83_roll.
Print Assumptions C83_roll_refuted.
Print Assumptions C83_short_period.
Print Assumptions C83_spiral.
Print Assumptions C83_yaw_damping.
Print Assumptions C83_pitch_damping.
Print Assumptions C83_lag.
Print Assumptions C84_determinant.
Print Assumptions C84_refused.
Print Assumptions C84_modes.
Print Assumptions C84_unstable_spiral.
Print Assumptions C84_stable_refuted.
Print Assumptions C85_determinant.
Print Assumptions C85_refused.
Print Assumptions C85_factors.
Print Assumptions C85_frequency.
Print Assumptions C85_modes.
Print Assumptions C85_exact_refuted.
Print Assumptions C86_mass.
Print Assumptions C86_dimensional.
Print Assumptions C86_dimensional_lateral.
Print Assumptions C86_incidence_rate_refuted.
Print Assumptions C86_longitudinal.
Print Assumptions C86_lateral.
Print Assumptions C86_speed_refuted.
Print Assumptions C86_inertia_refuted.
Print Assumptions C86_numbers.
Print Assumptions C86_labels.
Print Assumptions C86_no_pair_refuted.
Print Assumptions C86_vector_refuted.
