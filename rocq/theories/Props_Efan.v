(** * Properties of electric ducted fan networks *)
From Coq Require Import Reals List Bool Lra Psatz.
From Verif Require Import PyBase M_Opt P_Opt M_Elec M_Cryo M_Efan S_Efan.
Import ListNotations.
Local Open Scope R_scope.
Ltac nz := repeat split; first [assumption | lra | tauto].

Lemma quo_some a b : b <> 0 -> quo a b = Some (a / b). Proof. intro N. unfold quo. now destruct (Req_EM_T b 0). Qed.
Lemma flying_u x : flying x -> 0 < a_u0 x. Proof. intros (G & A & M & P & ->). now apply Rmult_lt_0_compat. Qed.

(** ** C187 the fan *)
(** with a nozzle that expands to the ambient pressure, the thrust is the air's change of momentum and the power the kinetic energy given to it *)
Lemma specific_ideal x j : flying x -> j_p j = a_p0 x -> specific x j * a_a0 x = j_u j - a_u0 x.
Proof. intros (G & A & M & P & U) E. unfold specific. rewrite E, U. field. nz. Qed.
Theorem C187_momentum f x j tt pt t : flying x ->
  fan_thrust f x j tt pt t = air_flow f tt pt t * (j_u j - a_u0 x + j_area j * (j_p j / a_p0 x - 1) * a_a0 x / (a_gamma x * a_M0 x)).
Proof. intros (G & A & M & P & U). unfold fan_thrust, air_flow, scale, specific. rewrite U. generalize (sqrt (f_tref f / tt) * (pt / f_pref f)). intro s. field. nz. Qed.
Theorem C187_power f x j tt pt t : flying x -> j_p j = a_p0 x -> 0 < j_u j ->
  fan_thrust f x j tt pt t = air_flow f tt pt t * (j_u j - a_u0 x) /\
  fan_power f x j tt pt t = Some (kinetic_power (air_flow f tt pt t) (a_u0 x) (j_u j)) /\
  (0 < air_flow f tt pt t -> a_u0 x < j_u j -> 0 < useful_power f x j tt pt t < kinetic_power (air_flow f tt pt t) (a_u0 x) (j_u j)).
Proof.
  intros F E J. pose proof (flying_u x F) as U.
  assert (T : fan_thrust f x j tt pt t = air_flow f tt pt t * (j_u j - a_u0 x)). { rewrite <- (specific_ideal x j F E). unfold fan_thrust, air_flow, scale. ring. }
  split; [exact T|]. assert (R : 0 < j_u j / a_u0 x) by (apply Rdiv_lt_0_compat; lra). split.
  - unfold fan_power. rewrite (quo_some _ _ (Rgt_not_eq _ _ U)), quo_some by lra. assert (Q : 2 / (1 + j_u j / a_u0 x) <> 0) by (apply Rgt_not_eq, Rdiv_lt_0_compat; lra).
    rewrite quo_some by exact Q. f_equal. unfold useful_power, kinetic_power. rewrite T. field. nz.
  - intros A B. unfold useful_power, kinetic_power. rewrite T. set (m := air_flow f tt pt t) in *. assert (0 < m * (j_u j - a_u0 x)) by (apply Rmult_lt_0_compat; lra). split; [apply Rmult_lt_0_compat; lra|].
    replace (m * (j_u j ^ 2 - a_u0 x ^ 2) / 2) with (m * (j_u j - a_u0 x) * ((j_u j + a_u0 x) / 2)) by field. apply Rmult_lt_compat_l; lra.
Qed.
(** no fuel is burned, ever *)
Theorem C187_no_fuel f x j tt pt t g : fan_fuel f x j tt pt t g = 0.
Proof. unfold fan_fuel, quo. destruct (Req_EM_T _ 0); [reflexivity|]. replace (fan_thrust f x j tt pt t * (0 * g / (specific x j * a_a0 x * (1 + f_bypass f))) / g) with 0 by (unfold Rdiv; ring). apply Rmax_left. lra. Qed.
(** a sized fan gives the design thrust at the design point, and in proportion to the throttle; the flow is the air each fan's core takes *)
Theorem C187_sized f x j tt pt total t : 0 < tt -> 0 < pt -> 0 < f_tref f -> 0 < f_pref f -> specific x j * a_a0 x <> 0 -> 1 + f_bypass f <> 0 -> f_n f <> 0 ->
  let '(f', m) := size_fan f x j tt pt total in fan_thrust f' x j tt pt t = total * t /\ air_flow f' tt pt t = m * (1 + f_bypass f) * f_n f * t /\ f_n f' = f_n f.
Proof.
  intros T P TR PR S B N. unfold size_fan. cbv zeta. assert (SC : scale f tt pt <> 0). { unfold scale. apply Rgt_not_eq, Rmult_lt_0_compat; [apply sqrt_lt_R0|]; now apply Rdiv_lt_0_compat. }
  unfold fan_thrust, air_flow. cbn [f_mdhc f_bypass f_n f_tref f_pref]. unfold scale in *. cbn [f_tref f_pref]. set (s := sqrt (f_tref f / tt) * (pt / f_pref f)) in *. clearbody s.
  assert (a_a0 x <> 0) by (intro Z; rewrite Z in S; apply S; ring). assert (specific x j <> 0) by (intro Z; rewrite Z in S; apply S; ring).
  split; [|split; [|reflexivity]]; field; nz.
Qed.
(** finding: giving the conditions makes every sizing fail *)
Theorem C187_conditions_refuted m h : sizing_case true m h = Err UnboundLocalError /\ (forall a b, sizing_case false m h = Ok (a, b) <-> m = Some a /\ h = Some b) /\ (m = None \/ h = None -> sizing_case false m h = Err NameError).
Proof. split; [reflexivity|]. split; [intros a b; unfold sizing_case; destruct m, h; split; try discriminate; intuition congruence|]. intros [->| ->]; [reflexivity|]. unfold sizing_case. now destruct m. Qed.
Definition cruise : air := Air (7 / 5) 200 300 (2 / 3) 30000.
Definition a_fan : fan := Fan 50 288 101325 0 4.
Example C187_flying : flying cruise /\ fan_power a_fan cruise (Jet 300 30000 1) 288 101325 1 = Some (200 * (300 ^ 2 - 200 ^ 2) / 2).
Proof.
  assert (F : flying cruise) by (unfold flying, cruise; cbn; lra). split; [exact F|]. destruct (C187_power a_fan cruise (Jet 300 30000 1) 288 101325 1 F eq_refl ltac:(cbn; lra)) as (_ & -> & _).
  f_equal. unfold kinetic_power, air_flow, a_fan, cruise. cbn [f_bypass f_mdhc f_tref f_pref f_n a_u0 j_u]. replace (288 / 288) with 1 by field. rewrite sqrt_1. field.
Qed.

(** ** C188 battery and hybrid *)
Lemma drive_eq v em ee t p : v <> 0 -> em <> 0 -> ee <> 0 -> 0 < t -> t <= 1 -> drive v em ee t p = Some (motors_need p em ee / v, motors_need p em ee).
Proof.
  intros V M E T0 T1. unfold drive. rewrite (quo_some p em M). unfold esc_voltage. replace (Rltb 0 t) with true by (symmetry; now apply Rltb_true).
  assert (K : (if Rltb t 1 then t else 1) = t). { destruct (Rltb t 1) eqn:L; [reflexivity|]. apply Rltb_false in L. lra. } rewrite K.
  rewrite quo_some by (intro Z; apply Rmult_integral in Z; lra). destruct (Req_EM_T ee 0) as [|_]; [contradiction|]. unfold esc_current, motors_need. cbv zeta. f_equal. f_equal; field; repeat split; auto; lra.
Qed.
(** the battery gives what motors, avionics and payload take; its current times the bus voltage is that power; nothing is burned *)
Theorem C188_battery v em ee t p av pay : v <> 0 -> em <> 0 -> ee <> 0 -> 0 < t -> t <= 1 ->
  exists b, battery_fan v em ee t p av pay = Some b /\ - b_power b = motors_need p em ee + av + pay /\ v * b_current b = - b_power b /\ b_fuel b = 0 /\ v * b_recorded b = motors_need p em ee.
Proof. intros V M E T0 T1. unfold battery_fan. rewrite drive_eq by assumption. eexists. split; [reflexivity|]. cbn [b_power b_current b_fuel b_recorded]. repeat split; field; nz. Qed.
Theorem C188_hybrid v em ee t p av pay mp sfc : v <> 0 -> em <> 0 -> ee <> 0 -> 0 < t -> t <= 1 ->
  exists b, hybrid_fan v em ee t p av pay mp sfc = Some b /\ mp + - b_power b = motors_need p em ee + av + pay /\ v * b_current b = - b_power b /\ b_fuel b = mp * sfc /\
    (0 < b_power b <-> motors_need p em ee + av + pay < mp).
Proof. intros V M E T0 T1. unfold hybrid_fan. rewrite drive_eq by assumption. eexists. split; [reflexivity|]. cbn [b_power b_current b_fuel]. replace (v * (motors_need p em ee / v)) with (motors_need p em ee) by (field; exact V). repeat split; try (field; nz); lra. Qed.
(** a throttle above 1 is clipped for the voltage but not for the current: the power is overstated in proportion *)
Theorem C188_over_throttle v em ee t p av pay : v <> 0 -> em <> 0 -> ee <> 0 -> 1 < t ->
  exists b, battery_fan v em ee t p av pay = Some b /\ - b_power b = t * motors_need p em ee + av + pay.
Proof.
  intros V M E T. unfold battery_fan, drive. rewrite (quo_some p em M). unfold esc_voltage. replace (Rltb 0 t) with true by (symmetry; apply Rltb_true; lra). replace (Rltb t 1) with false by (symmetry; apply Rltb_false; lra).
  rewrite quo_some by lra. destruct (Req_EM_T ee 0) as [|_]; [contradiction|]. unfold esc_current. cbv zeta. eexists. split; [reflexivity|]. cbn [b_power]. unfold motors_need. field. nz.
Qed.
(** finding: with the throttle closed there is no answer, though nothing is asked of the battery but the avionics *)
Theorem C188_idle_refuted v em ee t p av pay mp sfc : t <= 0 -> battery_fan v em ee t p av pay = None /\ hybrid_fan v em ee t p av pay mp sfc = None.
Proof.
  intro T. assert (D : drive v em ee t p = None). { unfold drive. destruct (quo p em); [|reflexivity]. unfold esc_voltage. replace (Rltb 0 t) with false by (symmetry; apply Rltb_false; lra). replace (Rltb 0 1) with true by (symmetry; apply Rltb_true; lra). unfold quo. destruct (Req_EM_T (0 * v) 0) as [|N]; [reflexivity|]. exfalso. apply N. ring. }
  unfold battery_fan, hybrid_fan. now rewrite D.
Qed.
(** the generator's fuel does not depend on what is needed *)
Theorem C188_generator v em ee t p av pay mp sfc v' em' ee' t' p' av' pay' b b' :
  hybrid_fan v em ee t p av pay mp sfc = Some b -> hybrid_fan v' em' ee' t' p' av' pay' mp sfc = Some b' -> b_fuel b = b_fuel b'.
Proof. unfold hybrid_fan. destruct (drive v em ee t p) as [[i q]|]; [|discriminate]. destruct (drive v' em' ee' t' p') as [[i' q']|]; [|discriminate]. intros A B. injection A as <-. injection B as <-. reflexivity. Qed.
Example C188_ex : exists b, battery_fan 400 (9 / 10) (95 / 100) (1 / 2) 855 30 70 = Some b /\ - b_power b = 1100.
Proof. destruct (C188_battery 400 (9 / 10) (95 / 100) (1 / 2) 855 30 70) as (b & B & P & _); try lra. exists b. split; [exact B|]. rewrite P. unfold motors_need. field. Qed.

(** ** C189 superconducting turboelectric networks *)
(** the generators together give what is asked, and their number does not change the fuel; the cooling is shared; masses add up *)
Definition evaluations (h : hts) (cooler hx : R -> R) (load : R) (d : demand) : Prop :=
  (exists p coil heat lp lq, d = with_leads h cooler hx p coil heat lp lq /\ load = h_n h * (heat + h_leads h * lq)) \/
  (exists p coil heat e, d = with_dynamo h cooler hx p coil heat e /\ e <> 0 /\ load = h_n h * (heat + (coil / e - coil))).
Lemma finish_is h cooler hx a b c l s load : h_supplies h <> 0 -> h_energy h * h_eff h <> 0 -> let d := finish h cooler hx a b c l s load in
  h_supplies h * d_each d = asked d /\ d_fuel d = asked d / (h_energy h * h_eff h) /\ d_load d = load /\
  d_cooler d = (if Req_EM_T (h_share h) 1 then 0 else cooler ((1 - h_share h) * load)) /\ d_cryogen d = (if Req_EM_T (h_share h) 0 then 0 else hx (h_share h * load)) /\
  d_mass d = d_fuel d + (1 - h_is_fuel h) * d_cryogen d.
Proof.
  intros S F d.
  assert (C : (if Req_EM_T (1 - h_share h) 0 then 0 else cooler ((1 - h_share h) * load)) = (if Req_EM_T (h_share h) 1 then 0 else cooler ((1 - h_share h) * load))). { destruct (Req_EM_T (1 - h_share h) 0), (Req_EM_T (h_share h) 1); try reflexivity; exfalso; lra. }
  assert (HE : h_energy h <> 0 /\ h_eff h <> 0) by (split; intro Z; rewrite Z in F; apply F; ring).
  unfold d, finish, asked. cbv zeta. cbn [d_each d_motor d_esc d_rotor d_leads d_ccs d_cooler d_fuel d_load d_cryogen d_mass]. rewrite C. generalize (if Req_EM_T (h_share h) 1 then 0 else cooler ((1 - h_share h) * load)). intro k.
  unfold fuel_rate. repeat split; try ring; field; tauto.
Qed.
Theorem C189_generators h cooler hx load d : evaluations h cooler hx load d -> h_supplies h <> 0 -> h_energy h * h_eff h <> 0 ->
  h_supplies h * d_each d = asked d /\ d_fuel d = asked d / (h_energy h * h_eff h) /\ d_load d = load /\
  d_cooler d = (if Req_EM_T (h_share h) 1 then 0 else cooler ((1 - h_share h) * load)) /\ d_cryogen d = (if Req_EM_T (h_share h) 0 then 0 else hx (h_share h * load)) /\
  d_mass d = d_fuel d + (1 - h_is_fuel h) * d_cryogen d.
Proof.
  intros E S F. destruct E as [(p & coil & heat & lp & lq & -> & ->)|(p & coil & heat & e & -> & N & ->)].
  - unfold with_leads. cbv zeta. replace (heat * h_n h + h_n h * (lq * h_leads h)) with (h_n h * (heat + h_leads h * lq)) by ring. now apply finish_is.
  - unfold with_dynamo. cbv zeta. assert (K : (if Req_EM_T coil 0 then 0 else coil / e) = coil / e). { destruct (Req_EM_T coil 0) as [->|]; [unfold Rdiv; ring|reflexivity]. } rewrite K.
    replace (heat * h_n h + h_n h * (coil / e - coil)) with (h_n h * (heat + (coil / e - coil))) by ring. now apply finish_is.
Qed.
(** what is asked: the motors' need, the rotors' need, the cooler; and, for more than one engine, the supplies' losses on the other engines' rotors *)
Theorem C189_leads h cooler hx p coil heat lp lq : h_motor h <> 0 -> h_esc h <> 0 -> h_ccs h <> 0 -> h_fans h = h_n h ->
  let d := with_leads h cooler hx p coil heat lp lq in
  asked d = motors_need p (h_motor h) (h_esc h) + rotors_need (h_n h) coil (h_leads h * lp) (h_ccs h) + d_cooler d + h_n h * (h_n h - 1) * coil * (1 / h_ccs h - 1).
Proof. intros M E C F d. unfold d, with_leads, finish, asked. cbv zeta. cbn [d_motor d_esc d_rotor d_leads d_ccs d_cooler]. rewrite F. generalize (if Req_EM_T (1 - h_share h) 0 then 0 else cooler ((1 - h_share h) * (heat * h_n h + h_n h * (lq * h_leads h)))). intro c. unfold motors_need, rotors_need. field. nz. Qed.
(** finding: so the rotors' need is exceeded with two engines or more *)
Theorem C189_leads_refuted h cooler hx p coil heat lp lq : h_motor h <> 0 -> h_esc h <> 0 -> 0 < h_ccs h < 1 -> h_fans h = h_n h -> 1 < h_n h -> 0 < coil ->
  let d := with_leads h cooler hx p coil heat lp lq in motors_need p (h_motor h) (h_esc h) + rotors_need (h_n h) coil (h_leads h * lp) (h_ccs h) + d_cooler d < asked d.
Proof.
  intros M E C F N K. cbv zeta. rewrite C189_leads by (auto; lra). assert (1 < 1 / h_ccs h). { apply Rmult_lt_reg_r with (h_ccs h); [lra|]. unfold Rdiv. rewrite Rmult_assoc, Rinv_l; lra. }
  assert (0 < h_n h * (h_n h - 1) * coil * (1 / h_ccs h - 1)). { repeat (apply Rmult_lt_0_compat; try lra). } lra.
Qed.
(** finding: with dynamos the rotors' power is asked for three times over: for the rotor, for the dynamo's shaft and for the dynamo's controller *)
Theorem C189_dynamo_refuted h cooler hx p coil heat e : h_motor h <> 0 -> h_esc h <> 0 -> e <> 0 -> h_fans h = h_n h ->
  let d := with_dynamo h cooler hx p coil heat e in
  asked d = motors_need p (h_motor h) (h_esc h) + rotors_need (h_n h) coil 0 (e * e) + d_cooler d + h_n h * (coil + coil / e) /\
  (0 < h_n h -> 0 < coil -> 0 < e -> motors_need p (h_motor h) (h_esc h) + rotors_need (h_n h) coil 0 (e * e) + d_cooler d < asked d).
Proof.
  intros M E N F d.
  assert (A : asked d = motors_need p (h_motor h) (h_esc h) + rotors_need (h_n h) coil 0 (e * e) + d_cooler d + h_n h * (coil + coil / e)).
  { assert (K : (if Req_EM_T coil 0 then 0 else coil / e) = coil / e). { destruct (Req_EM_T coil 0) as [->|]; [unfold Rdiv; ring|reflexivity]. }
    unfold d, with_dynamo, finish, asked. cbv zeta. cbn [d_motor d_esc d_rotor d_leads d_ccs d_cooler]. rewrite F, K. generalize (if Req_EM_T (1 - h_share h) 0 then 0 else cooler ((1 - h_share h) * (heat * h_n h + h_n h * (coil / e - coil)))). intro c. unfold motors_need, rotors_need. field. nz. }
  split; [exact A|]. intros P Q R. rewrite A. assert (0 < coil / e) by now apply Rdiv_lt_0_compat. assert (0 < h_n h * (coil + coil / e)) by (apply Rmult_lt_0_compat; lra). lra.
Qed.
(** finding: the motors are charged with thrust times speed only: with lossless motors they take less than the kinetic energy their fans give to the air *)
Theorem C189_free_energy_refuted h cooler hx f x j tt pt t coil heat lp lq : flying x -> j_p j = a_p0 x -> a_u0 x < j_u j -> 0 < air_flow f tt pt t -> h_motor h = 1 -> h_esc h = 1 ->
  let d := with_leads h cooler hx (useful_power f x j tt pt t) coil heat lp lq in d_motor d + d_esc d < kinetic_power (air_flow f tt pt t) (a_u0 x) (j_u j).
Proof.
  intros F E U A M S d. pose proof (flying_u x F). destruct (C187_power f x j tt pt t F E ltac:(lra)) as (_ & _ & K). specialize (K A U).
  unfold d, with_leads, finish. cbv zeta. cbn [d_motor d_esc]. rewrite M, S. set (u := useful_power f x j tt pt t) in *. replace (u / 1 + (u / 1 / 1 - u / 1)) with u by field. apply K.
Qed.
(** ** sizing: generators rated for all the engines *)
Theorem C189_sizing h cooler work flow coil heat lp lq e : h_supplies h <> 0 -> h_motor h <> 0 -> h_gear h <> 0 -> h_esc h <> 0 -> h_ccs h <> 0 -> e <> 0 ->
  h_supplies h * r_turbo (size_leads h cooler work flow coil heat lp lq) =
    h_n h * (work * flow / (h_motor h * h_gear h * h_esc h)) + rotors_need (h_n h) coil (2 * lp) (h_ccs h) + h_n h * (if Rltb (h_share h) 1 then cooler (heat + 2 * lq) else 0) /\
  h_supplies h * r_turbo (size_dynamo h cooler work flow coil heat e) =
    h_n h * (work * flow / (h_motor h * h_gear h * h_esc h)) + rotors_need (h_n h) coil 0 (e * e) + h_n h * (if Rltb (h_share h) 1 then cooler (heat + (coil / e - coil)) else 0).
Proof.
  intros S M G E C N. assert (K : (if Req_EM_T coil 0 then 0 else coil / e) = coil / e). { destruct (Req_EM_T coil 0) as [->|]; [unfold Rdiv; ring|reflexivity]. }
  unfold size_leads, size_dynamo, rotors_need. cbn [r_turbo]. rewrite K. split; [generalize (if Rltb (h_share h) 1 then cooler (heat + 2 * lq) else 0)|generalize (if Rltb (h_share h) 1 then cooler (heat + (coil / e - coil)) else 0)]; intro c; field; nz.
Qed.
(** finding: even if the fans wasted nothing, generators sized for the design point cannot feed it with two engines or more *)
Theorem C189_undersized_refuted h cooler rated_cooler hx work flow coil heat lp lq : 0 < h_supplies h -> h_motor h <> 0 -> h_gear h = 1 -> h_esc h <> 0 -> 0 < h_ccs h < 1 ->
  h_fans h = h_n h -> 1 < h_n h -> 0 < coil -> h_leads h = 2 -> h_share h = 1 ->
  r_turbo (size_leads h rated_cooler work flow coil heat lp lq) < d_each (with_leads h cooler hx (h_n h * (work * flow)) coil heat lp lq).
Proof.
  intros S M G E C F N K L H. set (d := with_leads h cooler hx (h_n h * (work * flow)) coil heat lp lq).
  assert (D : h_supplies h * d_each d = asked d). { unfold d, with_leads, finish, asked. cbv zeta. cbn [d_each d_motor d_esc d_rotor d_leads d_ccs d_cooler]. match goal with |- _ * (?u / _) = ?v => generalize u end. intro u. field. lra. }
  pose proof (C189_leads_refuted h cooler hx (h_n h * (work * flow)) coil heat lp lq M E C F N K) as Q. cbv zeta in Q. fold d in Q.
  destruct (C189_sizing h rated_cooler work flow coil heat lp lq 1) as [Z _]; try assumption; try lra.
  assert (CZ : d_cooler d = 0). { unfold d, with_leads, finish. cbv zeta. cbn [d_cooler]. rewrite H. destruct (Req_EM_T (1 - 1) 0); [reflexivity|lra]. }
  apply Rmult_lt_reg_l with (h_supplies h); [exact S|]. rewrite D, Z, H. replace (Rltb 1 1) with false by (symmetry; apply Rltb_false; lra). rewrite CZ, L in Q. unfold motors_need in Q. rewrite G.
  replace (h_n h * (work * flow / (h_motor h * 1 * h_esc h))) with (h_n h * (work * flow) / (h_motor h * h_esc h)) by (field; nz). lra.
Qed.
Theorem C189_generator_mass power p sp : 0 < p -> 0 < sp -> 0 < power -> generator_mass power p sp * sp * (p / 101325) = power /\ (p < 101325 -> power / sp < generator_mass power p sp).
Proof.
  intros P S W. unfold generator_mass. split; [field; nz|]. intro L. apply Rmult_lt_compat_r; [now apply Rinv_0_lt_compat|]. apply Rmult_lt_reg_r with (p / 101325); [lra|]. replace (power / (p / 101325) * (p / 101325)) with power by (field; nz). nra.
Qed.
Definition plane : hts := Hts 4 4 2 2 (9 / 10) 1 (95 / 100) (9 / 10) 1 0 43000000 (37 / 100).
Example C189_ex : asked (with_leads plane (fun q => 20 * q) (fun q => q / 400000) 855000 100 50 10 30) = 1000000 + 4 * (120 / (9 / 10)) + 4 * 3 * 100 * (10 / 9 - 1).
Proof.
  pose proof (C189_leads plane (fun q => 20 * q) (fun q => q / 400000) 855000 100 50 10 30) as E. cbv zeta in E. rewrite E by (cbn; lra). unfold with_leads, finish, motors_need, rotors_need, plane. cbn [h_motor h_esc h_n h_leads h_ccs h_fans h_share d_cooler].
  destruct (Req_EM_T (1 - 1) 0); [field|lra].
Qed.
Print Assumptions C187_momentum.
Print Assumptions C187_power.
Print Assumptions C187_no_fuel.
Print Assumptions C187_sized.
Print Assumptions C187_conditions_refuted.
Print Assumptions C188_battery.
Print Assumptions C188_hybrid.
Print Assumptions C188_over_throttle.
Print Assumptions C188_idle_refuted.
Print Assumptions C188_generator.
Print Assumptions C189_generators.
Print Assumptions C189_leads.
Print Assumptions C189_leads_refuted.
Print Assumptions C189_dynamo_refuted.
Print Assumptions C189_free_energy_refuted.
Print Assumptions C189_sizing.
Print Assumptions C189_undersized_refuted.
Print Assumptions C189_generator_mass.
