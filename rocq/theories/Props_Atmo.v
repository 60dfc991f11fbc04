(** * C36, C37, C50: atmospheres, air and gravity *)
From Coq Require Import Reals List Bool Lra Lia Sorted.
From Verif Require Import M_Opt P_Opt M_Rot S_Rot M_Mission M_Atmo S_Atmo P_Atmo.
Import ListNotations.
Local Open Scope R_scope.
Local Open Scope list_scope.

(** ** C36: the standard atmosphere *)
Example C36_table : sensible US_1976.
Proof.
  constructor; cbn.
  - repeat eexists.
  - repeat (constructor; cbn); lra.
  - repeat (constructor; cbn); lra.
  - repeat (constructor; cbn); lra.
  - unfold earth_gravity; lra.
  - unfold earth_radius; lra.
  - unfold air_R; lra.
Qed.
(** the values at an altitude do not depend on the other altitudes asked for *)
Theorem C36_rows : forall a d vg hs, sensible a -> compute_values a d vg hs = map (value_at a d vg) hs.
Proof.
  intros a d vg hs S. unfold compute_values. rewrite clamp_rows_pointwise by (apply sensible_range, S).
  rewrite !map_map. apply map_ext. intro h. rewrite value_at_geo by assumption. reflexivity.
Qed.
(** geopotential altitude grows with altitude, and every one below the planet's radius is reached *)
Theorem C36_altitude : forall a, 0 < a_rad a ->
  geopotential (a_rad a) 0 = 0 /\
  (forall x y, - a_rad a < x -> x < y -> geopotential (a_rad a) x < geopotential (a_rad a) y) /\
  (forall z, z < a_rad a -> - a_rad a < altitude_of a z /\ geopotential (a_rad a) (altitude_of a z) = z).
Proof.
  intros a P. split; [unfold geopotential, Rdiv; ring|]. split.
  - intros. apply geopotential_up; assumption.
  - intros z H. destruct (geopotential_inverse a z P H). auto.
Qed.
(** beyond the ends of the table one gets the values of the ends *)
Theorem C36_below : forall a d vg h h0, sensible a -> - a_rad a < h -> h <= h0 ->
  geopotential (a_rad a) h0 = lowest a -> value_at a d vg h = value_at a d vg h0.
Proof.
  intros a d vg h h0 S H1 H2 E. rewrite !value_at_geo by assumption. rewrite E.
  pose proof (sensible_range a S). rewrite (clamp_low _ _ (lowest a)) by lra.
  destruct (Rle_lt_or_eq_dec h h0 H2) as [L| ->].
  - pose proof (geopotential_up (a_rad a) h h0 (sn_rad a S) H1 L). rewrite clamp_low by lra. reflexivity.
  - rewrite E, clamp_low by lra. reflexivity.
Qed.
Theorem C36_above : forall a d vg h h0, sensible a -> - a_rad a < h0 -> h0 <= h ->
  geopotential (a_rad a) h0 = highest a -> value_at a d vg h = value_at a d vg h0.
Proof.
  intros a d vg h h0 S H1 H2 E. rewrite !value_at_geo by assumption. rewrite E.
  pose proof (sensible_range a S). rewrite (clamp_high _ _ (highest a)) by lra.
  destruct (Rle_lt_or_eq_dec h0 h H2) as [L| <-].
  - pose proof (geopotential_up (a_rad a) h0 h (sn_rad a S) H1 L). rewrite clamp_high by lra. reflexivity.
  - rewrite E, clamp_high by lra. reflexivity.
Qed.
(** the temperature is the straight line between neighbouring breaks, plus the deviation *)
Theorem C36_temperature : forall a d vg lo hi h, sensible a -> layer a lo hi ->
  bz lo <= geopotential (a_rad a) h <= bz hi ->
  temperature (value_at a d vg h) = between lo hi (geopotential (a_rad a) h) + d.
Proof.
  intros a d vg lo hi h S L H. rewrite value_at_geo by assumption. destruct (layer_within a lo hi S L).
  rewrite clamp_in by lra. apply temperature_layer; assumption.
Qed.
(** it takes the values of the table, and has no jumps *)
Theorem C36_breaks : forall a d vg b h, sensible a -> In b (a_breaks a) -> geopotential (a_rad a) h = bz b ->
  temperature (value_at a d vg h) = bT b + d /\
  (bz b < highest a -> pressure (value_at a d vg h) = bp b).
Proof.
  intros a d vg b h S I E.
  assert (W : exists c, layer a b c \/ (layer a c b /\ bz b = highest a)).
  { destruct (in_split _ _ I) as (l1 & l2 & E2). destruct l2 as [|c l2].
    - destruct (sn_two a S) as (x & y & rest & E3).
      destruct l1 as [|c0 l0]; [rewrite E2 in E3; discriminate|].
      destruct (exists_last (l := c0 :: l0) ltac:(discriminate)) as (l & c & EL). rewrite EL in E2.
      + exists c. right. split; [exists l, []; rewrite E2, <- app_assoc; reflexivity|].
        unfold highest. rewrite E2, last_last. reflexivity.
    - exists c. left. exists l1, l2. assumption. }
  destruct W as (c & [L|[L T]]).
  - pose proof (layer_ordered a b c S L) as O. split.
    + rewrite (C36_temperature a d vg b c h S L) by lra. rewrite E, (between_lo a b c S L). reflexivity.
    + intros _. rewrite value_at_geo by assumption. destruct (layer_within a b c S L).
      rewrite clamp_in by lra. rewrite E.
      rewrite (proj1 (at_geo_in a d vg b c (bz b) S L (conj (Rle_refl _) (or_introl O)))).
      apply pressure_base. apply (layer_pos a b c S L).
  - pose proof (layer_ordered a c b S L) as O. split; [|lra].
    rewrite (C36_temperature a d vg c b h S L) by lra. rewrite E, (between_hi a c b S L). reflexivity.
Qed.
Theorem C36_continuous : forall a d vg h, sensible a -> - a_rad a < h ->
  continuity_pt (fun h => temperature (value_at a d vg h)) h.
Proof. exact temperature_continuous. Qed.
Theorem C36_bounds : forall a d vg h cold hot, sensible a ->
  Forall (fun b => cold <= bT b <= hot) (a_breaks a) ->
  cold + d <= temperature (value_at a d vg h) <= hot + d.
Proof.
  intros a d vg h cold hot S F. rewrite value_at_geo by assumption.
  pose proof (clamp_range (lowest a) (highest a) (geopotential (a_rad a) h) (sensible_range a S)) as C.
  set (z := clamp _ _ _) in *.
  destruct (covered a z S C) as (lo & hi & L & P1 & P2).
  rewrite (temperature_layer a d vg lo hi z S L) by lra.
  assert (B : bz lo <= z <= bz hi) by lra.
  pose proof (between_bounds a lo hi z S L B) as Q.
  destruct L as (l1 & l2 & E). rewrite Forall_forall in F.
  assert (In lo (a_breaks a)) by (rewrite E; apply in_or_app; right; left; reflexivity).
  assert (In hi (a_breaks a)) by (rewrite E; apply in_or_app; right; right; left; reflexivity).
  apply F in H, H0. unfold Rmin, Rmax in Q. destruct (Rle_dec (bT lo) (bT hi)); lra.
Qed.
(** pressure strictly decreases with altitude inside each layer *)
Theorem C36_falls : forall a d vg lo hi x y, sensible a -> layer a lo hi -> - a_rad a < x -> x < y ->
  bz lo <= geopotential (a_rad a) x -> geopotential (a_rad a) y < bz hi \/ geopotential (a_rad a) y = highest a /\ bz hi = highest a ->
  pressure (value_at a d vg y) < pressure (value_at a d vg x).
Proof.
  intros a d vg lo hi x y S L H1 H2 H3 H4. pose proof (geopotential_up (a_rad a) x y (sn_rad a S) H1 H2).
  rewrite !value_at_geo by assumption. destruct (layer_within a lo hi S L). rewrite !clamp_in by lra.
  rewrite (proj1 (at_geo_in a d vg lo hi (geopotential (a_rad a) x) S L ltac:(split; [lra|left; lra]))).
  rewrite (proj1 (at_geo_in a d vg lo hi (geopotential (a_rad a) y) S L ltac:(split; [lra|lra]))).
  apply pressure_down; try assumption; lra.
Qed.
(** the air is in hydrostatic balance: pressure falls by the weight of the air passed, with the
    planet's own gravity at that altitude *)
Theorem C36_hydrostatic : forall a vg lo hi h, sensible a -> layer a lo hi -> strictly_inside a lo hi h ->
  derivable_pt_lim (fun h => pressure (value_at a 0 vg h)) h
    (- (rho (value_at a 0 vg h) * compute_gravity (a_g a) (a_rad a) h)).
Proof.
  intros a vg lo hi h S L (H0 & H1 & H2). pose proof (sn_rad a S) as P. destruct (layer_within a lo hi S L) as [W1 W2].
  pose proof (geopotential_slope (a_rad a) h P H0) as G.
  assert (C : continuity_pt (geopotential (a_rad a)) h) by (apply derivable_continuous_pt; eexists; exact G).
  assert (M : 0 < Rmin (geopotential (a_rad a) h - bz lo) (bz hi - geopotential (a_rad a) h)) by (apply Rmin_pos; lra).
  destruct (C _ M) as (r & R0 & HR).
  apply derivable_local with (fun y => pressure_in (a_g a) (a_R a) (mk76 lo hi) (geopotential (a_rad a) y)) (mkposreal r R0).
  - intros y Hy. cbn in Hy.
    assert (B : bz lo < geopotential (a_rad a) y < bz hi).
    { destruct (Req_EM_T y h) as [->|N]; [lra|].
      assert (Q : R_dist (geopotential (a_rad a) y) (geopotential (a_rad a) h) < Rmin (geopotential (a_rad a) h - bz lo) (bz hi - geopotential (a_rad a) h)).
      { apply HR. split; [split; [exact I|intro; subst; apply N; reflexivity]|exact Hy]. }
      unfold R_dist in Q. apply Rabs_def2 in Q.
      pose proof (Rmin_l (geopotential (a_rad a) h - bz lo) (bz hi - geopotential (a_rad a) h)).
      pose proof (Rmin_r (geopotential (a_rad a) h - bz lo) (bz hi - geopotential (a_rad a) h)). lra. }
    rewrite value_at_geo by assumption. rewrite clamp_in by lra.
    apply (at_geo_in a 0 vg lo hi); [assumption|assumption|split; [lra|left; lra]].
  - eapply slope_eq.
    + apply (derivable_pt_lim_comp (geopotential (a_rad a)) (pressure_in (a_g a) (a_R a) (mk76 lo hi))); [exact G|].
      apply pressure_slope; [assumption|assumption|lra].
    + assert (PK : picks a lo hi (geopotential (a_rad a) h)) by (split; [lra|left; lra]).
      rewrite value_at_geo by assumption. rewrite clamp_in by lra.
      destruct (at_geo_in a 0 vg lo hi _ S L PK) as [E1 E2].
      assert (ER : rho (at_geopotential a 0 vg (geopotential (a_rad a) h))
                   = pressure (at_geopotential a 0 vg (geopotential (a_rad a) h)) / (a_R a * temperature (at_geopotential a 0 vg (geopotential (a_rad a) h)))) by reflexivity.
      rewrite ER, E1, E2. unfold compute_gravity.
      assert (0 < between lo hi (geopotential (a_rad a) h)) by (apply (between_pos a); [assumption|assumption|lra]).
      pose proof (sn_R a S). field. repeat split; lra.
Qed.
(** a deviation warms the air but leaves the pressure alone, so with one the balance is lost *)
Theorem C36_deviation : forall a d d' vg h, sensible a ->
  pressure (value_at a d vg h) = pressure (value_at a d' vg h) /\
  temperature (value_at a d vg h) - d = temperature (value_at a d' vg h) - d'.
Proof. intros a d d' vg h S. rewrite !value_at_geo by assumption. split; [reflexivity|]. cbn [temperature at_geopotential]. ring. Qed.
(** all returned values are positive *)
Theorem C36_positive : forall a d vg h, sensible a -> Forall (fun b => 0 < bT b + d) (a_breaks a) ->
  let v := value_at a d vg h in
  0 < pressure v /\ 0 < temperature v /\ 0 < rho v /\ 0 < sound_speed v /\ 0 < dynamic_viscosity v /\
  0 < kinematic_viscosity v /\ 0 < conductivity v /\ 0 < prandtl v.
Proof.
  intros a d vg h S F v.
  assert (P : 0 < pressure v).
  { unfold v. rewrite value_at_geo by assumption.
    pose proof (clamp_range (lowest a) (highest a) (geopotential (a_rad a) h) (sensible_range a S)) as C.
    set (z := clamp _ _ _) in *. destruct (covered a z S C) as (lo & hi & L & Q).
    rewrite (proj1 (at_geo_in a d vg lo hi z S L Q)). apply pressure_pos. cbn. apply (layer_pos a lo hi S L). }
  assert (T : 0 < temperature v).
  { unfold v. rewrite value_at_geo by assumption.
    pose proof (clamp_range (lowest a) (highest a) (geopotential (a_rad a) h) (sensible_range a S)) as C.
    set (z := clamp _ _ _) in *. destruct (covered a z S C) as (lo & hi & L & Q1 & Q2).
    rewrite (temperature_layer a d vg lo hi z S L) by lra.
    pose proof (between_bounds a lo hi z S L ltac:(lra)) as B.
    destruct L as (l1 & l2 & E). rewrite Forall_forall in F.
    assert (I1 : In lo (a_breaks a)) by (rewrite E; apply in_or_app; right; left; reflexivity).
    assert (I2 : In hi (a_breaks a)) by (rewrite E; apply in_or_app; right; right; left; reflexivity).
    apply F in I1, I2. unfold Rmin, Rmax in B. destruct (Rle_dec (bT lo) (bT hi)); lra. }
  pose proof (sn_R a S) as HR.
  destruct (fields a d vg h S) as (E1 & E2 & E3 & E4 & E5 & E6). fold v in E1, E2, E3, E4, E5, E6.
  assert (Hr : 0 < rho v) by (rewrite E1; apply Rdiv_lt_0_compat; [assumption|apply Rmult_lt_0_compat; assumption]).
  pose proof (viscosity_pos _ T) as Hm. pose proof (conductivity_pos _ (Rlt_le _ _ T)) as Hk.
  rewrite E2, E3, E4, E5, E6. repeat split; try assumption.
  - apply sqrt_lt_R0. pose proof (gamma_above _ (Rlt_le _ _ T)). apply Rmult_lt_0_compat; [|assumption].
    apply Rmult_lt_0_compat; [destruct vg; lra|assumption].
  - apply Rdiv_lt_0_compat; assumption.
  - apply Rdiv_lt_0_compat; [apply Rmult_lt_0_compat; [assumption|unfold air_cp; lra]|assumption].
Qed.
(** and they are those of a perfect gas *)
Theorem C36_gas : forall a d vg h, sensible a -> Forall (fun b => 0 < bT b + d) (a_breaks a) ->
  let v := value_at a d vg h in
  pressure v = rho v * a_R a * temperature v /\
  sound_speed v ^ 2 = (if vg then gamma (temperature v) else 14 / 10) * a_R a * temperature v /\
  kinematic_viscosity v * rho v = dynamic_viscosity v /\
  prandtl v * conductivity v = dynamic_viscosity v * air_cp.
Proof.
  intros a d vg h S F v. destruct (C36_positive a d vg h S F) as (P & T & Hr & _ & Hm & _ & Hk & _). fold v in P, T, Hr, Hm, Hk.
  pose proof (sn_R a S) as HR.
  destruct (fields a d vg h S) as (E1 & E2 & E3 & E4 & E5 & E6). fold v in E1, E2, E3, E4, E5, E6.
  repeat split.
  - rewrite E1. field. lra.
  - rewrite E2. apply pow2_sqrt. pose proof (gamma_above _ (Rlt_le _ _ T)). apply Rmult_le_pos; [|lra]. apply Rmult_le_pos; [destruct vg; lra|lra].
  - rewrite E4, E3. field. lra.
  - rewrite E6, E3, <- E5. field. lra.
Qed.
(** with a deviation the air is not in balance anywhere inside a layer *)
Theorem C36_balance_refuted : forall a d vg lo hi h, sensible a -> layer a lo hi -> strictly_inside a lo hi h ->
  Forall (fun b => 0 < bT b + d) (a_breaks a) -> d <> 0 ->
  ~ derivable_pt_lim (fun h => pressure (value_at a d vg h)) h
    (- (rho (value_at a d vg h) * compute_gravity (a_g a) (a_rad a) h)).
Proof.
  intros a d vg lo hi h S L H F N D.
  assert (D0 : derivable_pt_lim (fun h => pressure (value_at a d vg h)) h
    (- (rho (value_at a 0 vg h) * compute_gravity (a_g a) (a_rad a) h))).
  { apply ext_of with (fun h => pressure (value_at a 0 vg h)); [intro y; apply (C36_deviation a d 0 vg y S)|].
    apply C36_hydrostatic with lo hi; assumption. }
  assert (E := uniqueness_limite _ _ _ _ D D0).
  assert (F0 : Forall (fun b => 0 < bT b + 0) (a_breaks a)).
  { pose proof (sn_T a S) as Q. eapply Forall_impl; [|exact Q]. intros b Hb. cbv beta in *. lra. }
  destruct (C36_positive a d vg h S F) as (P1 & T1 & R1 & _). destruct (C36_positive a 0 vg h S F0) as (P2 & T2 & R2 & _).
  destruct (C36_gas a d vg h S F) as (G1 & _). destruct (C36_gas a 0 vg h S F0) as (G2 & _).
  destruct (C36_deviation a d 0 vg h S) as [EP ET].
  set (v := value_at a d vg h) in *. set (w := value_at a 0 vg h) in *.
  assert (GP : 0 < compute_gravity (a_g a) (a_rad a) h).
  { unfold compute_gravity. destruct H as [H _]. pose proof (sn_rad a S). apply Rmult_lt_0_compat; [apply (sn_g a S)|].
    apply pow_lt. apply Rdiv_lt_0_compat; lra. }
  assert (ER : rho v = rho w).
  { apply Rmult_eq_reg_r with (compute_gravity (a_g a) (a_rad a) h); [lra|lra]. }
  pose proof (sn_R a S) as HR.
  rewrite G1, G2, ER in EP.
  assert (0 < rho w * a_R a) by (apply Rmult_lt_0_compat; assumption).
  apply Rmult_eq_reg_l in EP; lra.
Qed.
(** across a break pressure can rise: the table and the formula do not quite meet *)
Lemma span_1976 : forall lo hi, layer US_1976 lo hi -> lowest US_1976 <= bz lo /\ bz hi <= highest US_1976.
Proof. intros. apply layer_within; [exact C36_table|assumption]. Qed.
Theorem C36_pressure_refuted : exists x y, 0 < x < y /\
  pressure (value_at US_1976 0 false x) < pressure (value_at US_1976 0 false y).
Proof.
  set (lo := Brk 47000 (27065 / 100) (110906 / 1000)). set (hi := Brk 51000 (27065 / 100) (669389 / 10000)).
  set (top := Brk 71000 (21465 / 100) (395642 / 100000)).
  assert (L1 : layer US_1976 lo hi).
  { exists [Brk (-2000) (30115 / 100) 127774; Brk 0 (28815 / 100) 101325; Brk 11000 (21665 / 100) (226321 / 10);
   Brk 20000 (21665 / 100) (547489 / 100); Brk 32000 (22865 / 100) (868019 / 1000)], [top; Brk 84852 (18695 / 100) (3734 / 10000)]. reflexivity. }
  assert (Rd : a_rad US_1976 = 6371000) by reflexivity.
  assert (Rp : 0 < a_rad US_1976) by (rewrite Rd; lra).
  exists (altitude_of US_1976 (51000 - 1 / 1000)), (altitude_of US_1976 51000).
  destruct (geopotential_inverse US_1976 (51000 - 1 / 1000) Rp) as [G1 B1]; [rewrite Rd; lra|].
  destruct (geopotential_inverse US_1976 51000 Rp) as [G2 B2]; [rewrite Rd; lra|].
  assert (O1 : altitude_of US_1976 (51000 - 1 / 1000) = 6371000 * (51000 - 1 / 1000) / (6371000 - (51000 - 1 / 1000))) by (unfold altitude_of; rewrite Rd; field).
  assert (O2 : altitude_of US_1976 51000 = 6371000 * 51000 / (6371000 - 51000)) by (unfold altitude_of; rewrite Rd; field).
  split; [rewrite O1, O2; split; lra|].
  assert (HI : In hi (a_breaks US_1976)) by (cbn; unfold hi; tauto).
  assert (HT : bz hi < highest US_1976) by (unfold highest; cbn; lra).
  rewrite (proj2 (C36_breaks US_1976 0 false hi _ C36_table HI G2) HT).
  rewrite value_at_geo by exact C36_table. rewrite G1.
  destruct (span_1976 lo hi L1) as [W1 W2]. cbn [bz lo hi] in W1, W2.
  rewrite clamp_in by lra.
  rewrite (proj1 (at_geo_in US_1976 0 false lo hi (51000 - 1 / 1000) C36_table L1 ltac:(split; cbn; [lra|left; lra]))).
  unfold pressure_in, mk76. cbn [l_alpha l_p0 l_z0 l_T0 bT bz bp lo hi].
  destruct (Req_EM_T _ 0) as [E|E]; [|exfalso; apply E; field].
  change (a_g US_1976) with earth_gravity. change (a_R US_1976) with air_R.
  set (u := (4000 - 1 / 1000) * earth_gravity / (air_R * (27065 / 100))).
  replace (-1 * (51000 - 1 / 1000 - 47000) * earth_gravity / (air_R * (27065 / 100))) with (- u) by (unfold u, earth_gravity, air_R; field).
  rewrite exp_Ropp.
  assert (U : 504905 / 1000000 < u) by (unfold u, earth_gravity, air_R; lra).
  assert (X : 110906 / 1000 / (669389 / 10000) < exp u).
  { apply Rlt_trans with (exp (504905 / 1000000)); [|apply exp_increasing; assumption].
    eapply Rlt_le_trans; [|apply exp_seven; lra]. lra. }
  pose proof (exp_pos u).
  apply Rmult_lt_reg_r with (exp u); [assumption|]. rewrite Rmult_assoc, Rinv_l by lra.
  replace (110906 / 1000 * 1) with (669389 / 10000 * (110906 / 1000 / (669389 / 10000))) by field. apply Rmult_lt_compat_l; lra.
Qed.
(** what lies below the planet's centre is given the values of the top of the atmosphere *)
Theorem C36_centre_refuted : temperature (value_at US_1976 0 false (-7000000)) = 18695 / 100.
Proof.
  rewrite value_at_geo by exact C36_table.
  assert (G : geopotential (a_rad US_1976) (-7000000) = 7000000 * 6371000 / 629000) by (unfold geopotential; cbn; unfold earth_radius; field).
  assert (HH : highest US_1976 = 84852) by reflexivity.
  rewrite G, clamp_high; [|exact (sensible_range _ C36_table)|rewrite HH; lra].
  assert (L : layer US_1976 (Brk 71000 (21465 / 100) (395642 / 100000)) (Brk 84852 (18695 / 100) (3734 / 10000))).
  { exists [Brk (-2000) (30115 / 100) 127774; Brk 0 (28815 / 100) 101325; Brk 11000 (21665 / 100) (226321 / 10);
   Brk 20000 (21665 / 100) (547489 / 100); Brk 32000 (22865 / 100) (868019 / 1000); Brk 47000 (27065 / 100) (110906 / 1000);
   Brk 51000 (27065 / 100) (669389 / 10000)], []. reflexivity. }
  rewrite (temperature_layer US_1976 0 false _ _ (highest US_1976) C36_table L) by (rewrite HH; cbn; lra).
  rewrite HH. unfold between. cbn. field.
Qed.
(** at sea level, and at 5500 m geopotential *)
Example C36_case : temperature (value_at US_1976 10 false 0) = 29815 / 100 /\ pressure (value_at US_1976 10 false 0) = 101325
  /\ temperature (value_at US_1976 0 false (altitude_of US_1976 5500)) = 2524 / 10
  /\ strictly_inside US_1976 (Brk 0 (28815 / 100) 101325) (Brk 11000 (21665 / 100) (226321 / 10)) (altitude_of US_1976 5500).
Proof.
  assert (Rp : 0 < a_rad US_1976) by (cbn; unfold earth_radius; lra).
  destruct (geopotential_inverse US_1976 5500 Rp) as [G B]; [cbn; unfold earth_radius; lra|].
  assert (G0 : geopotential (a_rad US_1976) 0 = 0) by (unfold geopotential, Rdiv; ring).
  set (lo := Brk 0 (28815 / 100) 101325). set (hi := Brk 11000 (21665 / 100) (226321 / 10)).
  assert (I : In lo (a_breaks US_1976)) by (cbn; unfold lo; tauto).
  assert (L : layer US_1976 lo hi) by (exists [Brk (-2000) (30115 / 100) 127774]; eexists; reflexivity).
  destruct (C36_breaks US_1976 10 false lo 0 C36_table I G0) as [T P].
  split; [rewrite T; cbn; lra|]. split; [apply P; unfold highest; cbn; lra|]. split.
  - rewrite (C36_temperature US_1976 0 false lo hi _ C36_table L) by (rewrite G; cbn; lra).
    rewrite G. unfold between. cbn. field.
  - split; [exact B|]. rewrite G. cbn. lra.
Qed.

(** ** C37: gravity and air *)
(** gravity follows the inverse square law, is the given value at the surface and falls with altitude *)
Theorem C37_gravity : forall g0 Re, 0 < g0 -> 0 < Re ->
  compute_gravity g0 Re 0 = g0 /\
  (forall H, - Re < H -> compute_gravity g0 Re H * (Re + H) ^ 2 = g0 * Re ^ 2) /\
  (forall x y, - Re < x -> x < y -> compute_gravity g0 Re y < compute_gravity g0 Re x).
Proof.
  intros g0 Re Hg HR. unfold compute_gravity. split; [field; lra|]. split.
  - intros H L. field. lra.
  - intros x y H L. apply Rmult_lt_compat_l; [assumption|].
    assert (A : 0 < Re / (Re + y)) by (apply Rdiv_lt_0_compat; lra).
    assert (B : Re / (Re + y) < Re / (Re + x)).
    { unfold Rdiv. apply Rmult_lt_compat_l; [assumption|]. apply Rinv_lt_contravar; [apply Rmult_lt_0_compat; lra|lra]. }
    cbn. nra.
Qed.
Theorem C37_density : forall Rg, 0 < Rg ->
  (forall T p q, 0 < T -> p < q -> density Rg T p < density Rg T q) /\
  (forall T U p, 0 < T -> T < U -> 0 < p -> density Rg U p < density Rg T p).
Proof.
  intros Rg HR. unfold density. split.
  - intros T p q HT L. apply Rmult_lt_compat_r; [|assumption]. apply Rinv_0_lt_compat, Rmult_lt_0_compat; assumption.
  - intros T U p HT L Hp. apply Rmult_lt_compat_l; [assumption|]. apply Rinv_lt_contravar.
    + apply Rmult_lt_0_compat; apply Rmult_lt_0_compat; lra.
    + apply Rmult_lt_compat_l; assumption.
Qed.
Theorem C37_viscosity : forall T U, 0 < T -> T < U -> 0 < absolute_viscosity T < absolute_viscosity U.
Proof. intros. split; [apply viscosity_pos; assumption|apply viscosity_up; assumption]. Qed.
(** Sutherland's law: viscosity over the square root of temperature *)
Theorem C37_sutherland : forall T, 0 < T -> absolute_viscosity T * (T + 1104 / 10) = 1458 / 1000000000 * T * sqrt T.
Proof. intros T H. rewrite viscosity_alt by assumption. field. lra. Qed.
Theorem C37_conductivity : forall T U, 0 <= T -> T < U -> 0 < thermal_conductivity T < thermal_conductivity U.
Proof. intros. split; [apply conductivity_pos; assumption|apply conductivity_up; assumption]. Qed.
(** warmer air is faster, with the constant and the fitted ratio of heats *)
Theorem C37_sound : forall Rg vg T U, 0 < Rg -> 0 <= T -> T < U -> speed_of_sound Rg T vg < speed_of_sound Rg U vg.
Proof.
  intros Rg vg T U HR H L. unfold speed_of_sound.
  pose proof (gamma_above T H) as GT. pose proof (gamma_above U ltac:(lra)) as GU.
  apply sqrt_lt_1_alt. split.
  - apply Rmult_le_pos; [apply Rmult_le_pos; [destruct vg; lra|lra]|assumption].
  - replace ((if vg then gamma T else 14 / 10) * Rg * T) with (Rg * ((if vg then gamma T else 14 / 10) * T)) by ring.
    replace ((if vg then gamma U else 14 / 10) * Rg * U) with (Rg * ((if vg then gamma U else 14 / 10) * U)) by ring.
    apply Rmult_lt_compat_l; [assumption|]. destruct vg; [|lra].
    set (f := fun x => gamma x * x).
    set (f' := fun x => 4 * (1629 / 10000000000000) * x ^ 3 - 3 * (3588 / 10000000000) * x ^ 2 + 2 * (1418 / 10000000) * x + 1386 / 1000).
    assert (D : forall x, derivable_pt_lim f x (f' x)).
    { intro x.
      apply ext_of with (fun y => 1629 / 10000000000000 * y ^ 4 + (- (3588 / 10000000000) * y ^ 3 + (1418 / 10000000 * y ^ 2 + 1386 / 1000 * y ^ 1))).
      - intro y. unfold f, gamma. ring.
      - eapply slope_eq.
        + apply (derivable_pt_lim_plus (fun y => 1629 / 10000000000000 * y ^ 4)); [apply scale_of, derivable_pt_lim_pow|].
          apply (derivable_pt_lim_plus (fun y => - (3588 / 10000000000) * y ^ 3)); [apply scale_of, derivable_pt_lim_pow|].
          apply (derivable_pt_lim_plus (fun y => 1418 / 10000000 * y ^ 2)); [apply scale_of, derivable_pt_lim_pow|].
          apply scale_of, derivable_pt_lim_pow.
        + unfold f'. cbn. field. }
    destruct (MVT_cor2 f f' T U L) as (c & E & C1 & C2); [intros; apply D|].
    assert (P : 0 < f' c).
    { unfold f'. assert (Q : 0 <= (c - 947) * (c - 947) * (c + 400)) by (apply Rmult_le_pos; [apply Rle_0_sqr|lra]).
      pose proof (Rle_0_sqr (c - 947)). unfold Rsqr in *. nra. }
    assert (0 < f' c * (U - T)) by (apply Rmult_lt_0_compat; lra). unfold f in *. lra.
Qed.
(** over the range of the fit the ratio of heats is that of air *)
Theorem C37_gamma : forall T, 0 <= T <= 1500 -> 13 / 10 < gamma T < 141 / 100.
Proof.
  intros T H. split; [apply gamma_above; lra|]. unfold gamma.
  assert (0 <= T * (T - 235) * (T - 235)) by (rewrite Rmult_assoc; apply Rmult_le_pos; [lra|apply Rle_0_sqr]).
  pose proof (Rle_0_sqr (T - 235)). unfold Rsqr in *. nra.
Qed.
(** a vehicle in this air: Mach number, dynamic pressure and Reynolds number agree with each other *)
Definition flies_in (an : analyses) (a : atmosphere) : Prop := forall h dT,
  an_press an h dT = pressure (value_at a dT false h) /\ an_temp an h dT = temperature (value_at a dT false h) /\
  an_rho an h dT = rho (value_at a dT false h) /\ an_sound an h dT = sound_speed (value_at a dT false h) /\
  an_visc an h dT = dynamic_viscosity (value_at a dT false h).
Theorem C37_flight : forall an a dT c i, sensible a -> flies_in an a -> Forall (fun b => 0 < bT b + dT) (a_breaks a) ->
  let c' := update_freestream (update_atmosphere an dT c) in
  mach c' i ^ 2 * (14 / 10 * a_R a * temp c' i) = speed c' i ^ 2 /\
  dynp c' i = 7 / 10 * press c' i * mach c' i ^ 2 /\
  reyn c' i * visc c' i = M_Mission.rho c' i * speed c' i /\
  press c' i = M_Mission.rho c' i * a_R a * temp c' i /\
  speed c' i = norm (vel c i).
Proof.
  intros an a dT c i S HF F c'. destruct (HF (alt c i) dT) as (E1 & E2 & E3 & E4 & E5).
  destruct (C36_positive a dT false (alt c i) S F) as (P & T & Hr & Hs & Hm & _).
  destruct (C36_gas a dT false (alt c i) S F) as (G1 & G2 & _).
  set (v := value_at a dT false (alt c i)) in *.
  set (V := sqrt (vx (vel c i) * vx (vel c i) + vy (vel c i) * vy (vel c i) + vz (vel c i) * vz (vel c i))).
  assert (A1 : speed c' i = V) by reflexivity.
  assert (A2 : mach c' i = V / sound_speed v) by (rewrite <- E4; reflexivity).
  assert (A3 : temp c' i = temperature v) by (rewrite <- E2; reflexivity).
  assert (A4 : press c' i = pressure v) by (rewrite <- E1; reflexivity).
  assert (A5 : M_Mission.rho c' i = rho v) by (rewrite <- E3; reflexivity).
  assert (A6 : reyn c' i = rho v * V / dynamic_viscosity v) by (rewrite <- E3, <- E5; reflexivity).
  assert (A7 : visc c' i = dynamic_viscosity v) by (rewrite <- E5; reflexivity).
  assert (A8 : dynp c' i = 1 / 2 * rho v * V ^ 2).
  { rewrite <- E3. unfold V. rewrite pow2_sqrt; [reflexivity|]. nra. }
  rewrite A1, A2, A3, A4, A5, A6, A7, A8.
  assert (M2 : (V / sound_speed v) ^ 2 * (14 / 10 * a_R a * temperature v) = V ^ 2).
  { rewrite <- G2. field. lra. }
  repeat split.
  - exact M2.
  - rewrite <- M2 at 1. rewrite G1. field. lra.
  - field. lra.
  - exact G1.
Qed.
Example C37_case : compute_gravity earth_gravity earth_radius earth_radius = earth_gravity / 4 /\ gamma 0 = 1386 / 1000.
Proof. split; [unfold compute_gravity, earth_radius; field|unfold gamma; field]. Qed.

(** ** C50: the atmosphere of constant temperature *)
Theorem C50_rows : forall a T hs, sensible a -> constant_values a T hs = map (constant_value a T) hs.
Proof.
  intros a T hs S. unfold constant_values. rewrite clamp_rows_pointwise by (apply sensible_range, S).
  rewrite !map_map. apply map_ext. intro h. rewrite constant_value_geo by assumption. reflexivity.
Qed.
(** the temperature is the one asked for, everywhere *)
Theorem C50_temperature : forall a T h, sensible a -> temperature (constant_value a T h) = T.
Proof. intros. rewrite constant_value_geo by assumption. reflexivity. Qed.
Lemma constant_in : forall a T lo hi z, sensible a -> layer a lo hi -> picks a lo hi z ->
  pressure (constant_at a T z) = bp lo * exp (- (a_g a / (a_R a * T)) * (z - bz lo)).
Proof.
  intros a T lo hi z S L P. unfold constant_at. rewrite layers_constant_is_gen, (layers_pick a lo hi z _ (mkC T) S L P).
  cbn [pressure mkC l_p0 l_z0 l_T0]. f_equal. f_equal. unfold Rdiv. ring.
Qed.
(** inside a layer the air is in hydrostatic balance *)
Theorem C50_hydrostatic : forall a T lo hi h, sensible a -> 0 < T -> layer a lo hi -> strictly_inside a lo hi h ->
  derivable_pt_lim (fun h => pressure (constant_value a T h)) h
    (- (rho (constant_value a T h) * compute_gravity (a_g a) (a_rad a) h)).
Proof.
  intros a T lo hi h S HT L (H0 & H1 & H2). pose proof (sn_rad a S) as P. destruct (layer_within a lo hi S L) as [W1 W2].
  pose proof (geopotential_slope (a_rad a) h P H0) as G.
  assert (C : continuity_pt (geopotential (a_rad a)) h) by (apply derivable_continuous_pt; eexists; exact G).
  assert (M : 0 < Rmin (geopotential (a_rad a) h - bz lo) (bz hi - geopotential (a_rad a) h)) by (apply Rmin_pos; lra).
  destruct (C _ M) as (r & R0 & HR).
  apply derivable_local with (fun y => bp lo * exp (a_g a / (a_R a * T) * bz lo + - (a_g a / (a_R a * T)) * geopotential (a_rad a) y)) (mkposreal r R0).
  - intros y Hy. cbn in Hy.
    assert (B : bz lo < geopotential (a_rad a) y < bz hi).
    { destruct (Req_EM_T y h) as [->|N]; [lra|].
      assert (Q : R_dist (geopotential (a_rad a) y) (geopotential (a_rad a) h) < Rmin (geopotential (a_rad a) h - bz lo) (bz hi - geopotential (a_rad a) h)).
      { apply HR. split; [split; [exact I|intro; subst; apply N; reflexivity]|exact Hy]. }
      unfold R_dist in Q. apply Rabs_def2 in Q.
      pose proof (Rmin_l (geopotential (a_rad a) h - bz lo) (bz hi - geopotential (a_rad a) h)).
      pose proof (Rmin_r (geopotential (a_rad a) h - bz lo) (bz hi - geopotential (a_rad a) h)). lra. }
    rewrite constant_value_geo by assumption. rewrite clamp_in by lra.
    rewrite (constant_in a T lo hi); [f_equal; f_equal; ring|assumption|assumption|split; [lra|left; lra]].
  - rewrite constant_value_geo by assumption. rewrite clamp_in by lra.
    assert (ER : rho (constant_at a T (geopotential (a_rad a) h)) = pressure (constant_at a T (geopotential (a_rad a) h)) / (a_R a * T)) by reflexivity.
    rewrite ER, (constant_in a T lo hi); [|assumption|assumption|split; [lra|left; lra]].
    eapply slope_eq.
    + apply scale_of.
      apply (derivable_pt_lim_comp (geopotential (a_rad a)) (fun z => exp (a_g a / (a_R a * T) * bz lo + - (a_g a / (a_R a * T)) * z))); [exact G|].
      apply (exp_of (fun z => a_g a / (a_R a * T) * bz lo + - (a_g a / (a_R a * T)) * z)). apply affine_of.
    + cbv beta.
      replace (- (a_g a / (a_R a * T)) * (geopotential (a_rad a) h - bz lo)) with (a_g a / (a_R a * T) * bz lo + - (a_g a / (a_R a * T)) * geopotential (a_rad a) h) by ring.
      unfold compute_gravity. pose proof (sn_R a S). field. repeat split; lra.
Qed.
(** the gas laws hold and everything is positive *)
Theorem C50_gas : forall a T h, sensible a -> 0 < T -> let v := constant_value a T h in
  0 < pressure v /\ 0 < rho v /\ pressure v = rho v * a_R a * T /\
  sound_speed v ^ 2 = 14 / 10 * a_R a * T /\ 0 < sound_speed v /\ 0 < dynamic_viscosity v /\
  kinematic_viscosity v * rho v = dynamic_viscosity v.
Proof.
  intros a T h S HT v. unfold v. rewrite constant_value_geo by assumption. pose proof (sn_R a S) as HR.
  pose proof (clamp_range (lowest a) (highest a) (geopotential (a_rad a) h) (sensible_range a S)) as C.
  set (z := clamp _ _ _) in *. destruct (covered a z S C) as (lo & hi & L & Q).
  assert (P : 0 < pressure (constant_at a T z)).
  { rewrite (constant_in a T lo hi z S L Q). apply Rmult_lt_0_compat; [apply (layer_pos a lo hi S L)|apply exp_pos]. }
  set (w := constant_at a T z) in *.
  assert (E : rho w = pressure w / (a_R a * T)) by reflexivity.
  assert (Hr : 0 < rho w) by (rewrite E; apply Rdiv_lt_0_compat; [assumption|apply Rmult_lt_0_compat; assumption]).
  assert (HA : 0 < 14 / 10 * a_R a * T) by (apply Rmult_lt_0_compat; [apply Rmult_lt_0_compat; lra|assumption]).
  change (sound_speed w) with (sqrt (14 / 10 * a_R a * T)).
  change (dynamic_viscosity w) with (absolute_viscosity T).
  change (kinematic_viscosity w) with (absolute_viscosity T / rho w).
  repeat split.
  - assumption.
  - assumption.
  - rewrite E. field. lra.
  - apply pow2_sqrt. lra.
  - apply sqrt_lt_R0. assumption.
  - apply viscosity_pos. assumption.
  - field. lra.
Qed.
(** the call overwrites the temperatures of the table, which no later call reads *)
Lemma constant_after_layers : forall f bs z T s,
  (forall b, bz (f b) = bz b /\ bp (f b) = bp b) -> layers_constant z T s (map f bs) = layers_constant z T s bs.
Proof.
  intros f bs. induction bs as [|b bs IH]; intros z T s H; [reflexivity|]. destruct bs as [|c bs]; [reflexivity|].
  change (layers_constant z T (enter_constant z T s (f b) (f c)) (map f (c :: bs)) = layers_constant z T (enter_constant z T s b c) (c :: bs)).
  rewrite IH by assumption. f_equal. unfold enter_constant. destruct (H b) as [-> ->]. destruct (H c) as [-> _]. reflexivity.
Qed.
Theorem C50_again : forall a T U hs, constant_values (constant_after a T) U hs = constant_values a U hs.
Proof.
  intros [bs g rad Rg] T U hs. unfold constant_values. destruct bs as [|b rest]; [reflexivity|].
  assert (EH : highest (constant_after (Atmosphere (b :: rest) g rad Rg) T) = highest (Atmosphere (b :: rest) g rad Rg)).
  { unfold highest. cbn [constant_after a_breaks].
    destruct rest as [|c rest]; [reflexivity|].
    revert c. induction rest as [|d rest IH]; intro c; [reflexivity|]. apply (IH d). }
  rewrite EH. change (lowest (constant_after (Atmosphere (b :: rest) g rad Rg) T)) with (lowest (Atmosphere (b :: rest) g rad Rg)).
  apply map_ext. intro z. unfold constant_at. cbn [constant_after a_breaks a_g a_R a_rad].
  assert (EL : layers_constant z U zero_layer (b :: map (fun c => Brk (bz c) T (bp c)) rest) = layers_constant z U zero_layer (b :: rest)).
  { destruct rest as [|c rest]; [reflexivity|].
    change (layers_constant z U (enter_constant z U zero_layer b (Brk (bz c) T (bp c))) (map (fun c => Brk (bz c) T (bp c)) (c :: rest))
      = layers_constant z U (enter_constant z U zero_layer b c) (c :: rest)).
    rewrite constant_after_layers by (intro; split; reflexivity). reflexivity. }
  rewrite EL. reflexivity.
Qed.
(** but every layer starts again at the standard pressure of its base: at the standard temperature
    of sea level the pressure there is higher than just below *)
Theorem C50_pressure_refuted : exists x, x < 0 /\
  pressure (constant_value US_1976 (28815 / 100) x) < pressure (constant_value US_1976 (28815 / 100) 0) - 500.
Proof.
  set (lo := Brk (-2000) (30115 / 100) 127774). set (hi := Brk 0 (28815 / 100) 101325).
  set (up := Brk 11000 (21665 / 100) (226321 / 10)).
  assert (L1 : layer US_1976 lo hi) by (exists []; eexists; reflexivity).
  assert (L2 : layer US_1976 hi up) by (exists [lo]; eexists; reflexivity).
  assert (Rd : a_rad US_1976 = 6371000) by reflexivity.
  assert (Rp : 0 < a_rad US_1976) by (rewrite Rd; lra).
  destruct (geopotential_inverse US_1976 (-1) Rp) as [G1 B1]; [rewrite Rd; lra|].
  exists (altitude_of US_1976 (-1)).
  assert (O1 : altitude_of US_1976 (-1) = - (6371000 / 6371001)) by (unfold altitude_of; rewrite Rd; field).
  split; [rewrite O1; lra|].
  assert (G0 : geopotential (a_rad US_1976) 0 = 0) by (unfold geopotential, Rdiv; ring).
  rewrite !constant_value_geo by exact C36_table. rewrite G0, G1.
  assert (WL : lowest US_1976 = -2000) by reflexivity. assert (WH : highest US_1976 = 84852) by reflexivity.
  rewrite !clamp_in by (rewrite WL, WH; lra).
  rewrite (constant_in US_1976 _ lo hi (-1) C36_table L1) by (split; cbn; lra).
  rewrite (constant_in US_1976 _ hi up 0 C36_table L2) by (split; cbn; lra).
  change (a_g US_1976) with earth_gravity. change (a_R US_1976) with air_R. cbn [bp bz lo hi].
  replace (- (earth_gravity / (air_R * (28815 / 100))) * (0 - 0)) with 0 by ring. rewrite exp_0.
  set (u := earth_gravity / (air_R * (28815 / 100)) * 1999).
  replace (- (earth_gravity / (air_R * (28815 / 100))) * (-1 - -2000)) with (- u) by (unfold u; ring).
  rewrite exp_Ropp.
  assert (U : 23699 / 100000 < u) by (unfold u, earth_gravity, air_R; lra).
  assert (X : 12674 / 10000 < exp u).
  { apply Rlt_trans with (exp (23699 / 100000)); [|apply exp_increasing; assumption].
    eapply Rlt_le_trans; [|apply exp_seven; lra]. lra. }
  assert (127774 * / exp u < 100825); [|lra].
  apply Rmult_lt_reg_r with (exp u); [lra|]. rewrite Rmult_assoc, Rinv_l by lra. lra.
Qed.
Example C50_case : temperature (constant_value US_1976 300 1000) = 300 /\ 0 < pressure (constant_value US_1976 300 1000).
Proof. split; [apply C50_temperature, C36_table|]. apply (C50_gas US_1976 300 1000 C36_table). lra. Qed.

Print Assumptions C36_rows.
Print Assumptions C36_altitude.
Print Assumptions C36_below.
Print Assumptions C36_above.
Print Assumptions C36_temperature.
Print Assumptions C36_breaks.
Print Assumptions C36_continuous.
Print Assumptions C36_bounds.
Print Assumptions C36_falls.
Print Assumptions C36_hydrostatic.
Print Assumptions C36_deviation.
Print Assumptions C36_positive.
Print Assumptions C36_gas.
Print Assumptions C36_balance_refuted.
Print Assumptions C36_pressure_refuted.
Print Assumptions C36_centre_refuted.
Print Assumptions C37_gravity.
Print Assumptions C37_density.
Print Assumptions C37_viscosity.
Print Assumptions C37_sutherland.
Print Assumptions C37_conductivity.
Print Assumptions C37_sound.
Print Assumptions C37_gamma.
Print Assumptions C37_flight.
Print Assumptions C50_rows.
Print Assumptions C50_temperature.
Print Assumptions C50_hydrostatic.
Print Assumptions C50_gas.
Print Assumptions C50_again.
Print Assumptions C50_pressure_refuted.
