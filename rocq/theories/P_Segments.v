(** * Proofs about the schedules of the segments *)
From Coq Require Import Reals List Bool Lra Lia.
From Verif Require Import M_Opt P_Opt M_Rot S_Rot P_Rot M_Mission M_Segments S_Mission S_Segments P_Mission.
Import ListNotations.
Local Open Scope R_scope.
Local Open Scope list_scope.

(** kinds whose times and heights are laid out by initialize_conditions *)
Definition timed (k : kind) : Prop :=
  match k with
  | Climbing _ _ _ | Cruising _ _ | Hover_climb _ _ _ | Hover_descent _ _ _
  | Transition_climb _ _ _ _ _ _ _ => True
  | _ => False
  end.
(** those whose velocity is too *)
Definition speed_set (k : kind) : Prop :=
  match k with
  | Cruising _ (Cruise_pitch _ _ _) => False
  | _ => timed k
  end.
Definition iter_step (s : step) : Prop :=
  match s with
  | S_differentials | S_conditions | S_differentials_altitude => False
  | _ => True
  end.
Definition zof (w : world) (i : nat) : R := vz (pos (w_cur w) i).
Definition tof (w : world) (i : nat) : R := time (w_cur w) i.
Definition pitch_of (w : world) (i : nat) : R := vy (rot (w_cur w) i).
Definition pitch_held (st : settings) (k : kind) : Prop :=
  unpack_skipped st = true \/ match k with Cruising _ (Cruise_pitch _ _ _) => True | _ => False end.

Record kept (st : settings) (w w' : world) : Prop := {
  k_kind : w_kind w' = w_kind w;
  k_n : w_n w' = w_n w;
  k_time : forall i, tof w' i - tof w' 0%nat = tof w i - tof w 0%nat;
  k_z : forall i, zof w' i - zof w' 0%nat = zof w i - zof w 0%nat;
  k_vel : speed_set (w_kind w) -> vel (w_cur w') = vel (w_cur w);
  k_pitch : pitch_held st (w_kind w) -> forall i, pitch_of w' i = pitch_of w i;
  k_ndx : nd_x (w_num w') = nd_x (w_num w) /\ nd_I (w_num w') = nd_I (w_num w);
  k_fresh : w_prev w = None -> w_prev w' = None /\ zof w' 0%nat = zof w 0%nat
}.
Ltac kp := constructor; intros; try reflexivity; repeat split; auto; unfold tof, zof.

Lemma kept_refl : forall st w, kept st w w.
Proof. intros. constructor; intros; auto. Qed.
Lemma kept_trans : forall st a b c, kept st a b -> kept st b c -> kept st a c.
Proof.
  intros st a b c [A1 A2 A3 A4 A5 A6 [A7 A7'] A8] [B1 B2 B3 B4 B5 B6 [B7 B7'] B8]. constructor; intros.
  - congruence.
  - congruence.
  - rewrite B3, A3. reflexivity.
  - rewrite B4, A4. reflexivity.
  - rewrite B5, A5; auto. rewrite A1. auto.
  - rewrite B6, A6; auto. rewrite A1. auto.
  - split; congruence.
  - destruct (A8 H) as (A & B). destruct (B8 A) as (A' & B'). repeat split; congruence.
Qed.

Lemma kept_step : forall an st u s w w', iter_step s -> timed (w_kind w) ->
  run_step an st u s w = Some w' -> kept st w w'.
Proof.
  intros an st u s [p n k nu c] w' Hs Hk H. cbn [w_kind] in Hk.
  destruct s; cbn in Hs; try contradiction; clear Hs; unfold run_step in H; cbv zeta in H;
    cbn [w_kind w_prev w_num w_cur w_n] in H; try (injection H as <-; kp; fail).
  - destruct k; try contradiction; injection H as <-; kp.
  - destruct k; try contradiction; injection H as <-; kp.
  - injection H as <-. unfold initialize_time, tof, zof.
    destruct p as [[np p]|]; [|destruct (segment_start_time st)]; kp; cbn; try ring; try discriminate.
  - destruct p as [[np p]|]; cbn in H; injection H as <-; kp; unfold zof; cbn; try ring; try discriminate.
  - injection H as <-. unfold initialize_planet_position.
    destruct p as [[np p]|]; [|destruct (segment_position st) as [[? ?]|]]; kp.
  - destruct (unpack_skipped st) eqn:Es; [injection H as <-; kp|].
    unfold unpack in H. cbv zeta in H. cbn [w_kind w_prev w_num w_cur w_n] in H.
    assert (Q : forall k0, pitch_held st k0 -> match k0 with Cruising _ (Cruise_pitch _ _ _) => True | _ => False end).
    { intros k0 [E|E]; [congruence|exact E]. }
    destruct k as [h altf law|h law| | | | | | | | | ]; try contradiction; try destruct law; injection H as <-;
      constructor; intros; try reflexivity; try (repeat split; auto; fail); try contradiction;
      try (match goal with X : pitch_held _ _ |- _ => apply Q in X; contradiction end).
  - destruct k; try contradiction; injection H as <-; kp.
  - destruct k; try contradiction; discriminate.
  - injection H as <-. unfold update_thrust.
    destruct (an_energy an c) as [[[F m] [[f a]|]] b]; kp.
  - injection H as <-. unfold update_aerodynamics. destruct (an_aero an c); kp.
  - injection H as <-. unfold update_weights. destruct (has_add c); kp.
  - destruct k; try contradiction; injection H as <-; kp.
Qed.

Lemma kept_steps : forall an st u l w w', Forall iter_step l -> timed (w_kind w) ->
  run_steps an st u l w = Some w' -> kept st w w'.
Proof.
  intros an st u l; induction l as [|s l IH]; intros w w' Hl Hk H; cbn in H.
  - injection H as <-. apply kept_refl.
  - inversion Hl; subst. destruct (run_step an st u s w) as [w1|] eqn:E; [|discriminate].
    pose proof (kept_step _ _ _ _ _ _ H2 Hk E) as K. apply kept_trans with w1; [exact K|].
    apply IH; auto. rewrite (k_kind _ _ _ K). exact Hk.
Qed.
Lemma iterate_iter : forall st k, Forall iter_step (iterate_steps st k).
Proof.
  intros st k. unfold iterate_steps, initials_table.
  destruct (battery_in_iterate st); destruct k as [h altf law|h law| | | | | | | | | ]; [|destruct law|..]; try destruct law;
    repeat apply Forall_cons; try exact Logic.I; apply Forall_nil.
Qed.
Lemma kept_iterations : forall an st calls w w', timed (w_kind w) ->
  run_iterations an st calls w = Some w' -> kept st w w'.
Proof.
  intros an st calls; induction calls as [|u calls IH]; intros w w' Hk H; cbn [run_iterations] in H.
  - injection H as <-. apply kept_refl.
  - destruct (run_steps an st u (iterate_steps st (w_kind w)) w) as [w1|] eqn:E; [|discriminate].
    pose proof (kept_steps _ _ _ _ _ _ (iterate_iter _ _) Hk E) as K.
    apply kept_trans with w1; [exact K|]. apply IH; auto. rewrite (k_kind _ _ _ K). exact Hk.
Qed.

(** ** What one iteration leaves behind, for every kind of segment *)
Definition tail_of (k : kind) : list step :=
  [S_altitude; S_atmosphere; S_gravity; S_freestream; S_orientations] ++
  match k with
  | Throttle_cruise _ _ _ _ => [S_aerodynamics; S_thrust; S_weights; S_forces; S_planet]
  | Takeoff_run _ _ _ _ _ | Landing_run _ _ _ _ _ =>
      [S_thrust; S_aerodynamics; S_weights; S_ground_forces; S_forces_ground; S_planet]
  | Cruising _ (Hovering _) | Hover_climb _ _ _ | Hover_descent _ _ _ =>
      [S_thrust; S_weights; S_forces; S_planet]
  | _ => [S_thrust; S_aerodynamics; S_weights; S_forces; S_planet]
  end.
Lemma tail_split : forall st k, exists pre, iterate_steps st k = pre ++ tail_of k.
Proof.
  intros st k. unfold iterate_steps.
  assert (G : forall l, (exists p, l = p ++ tail_of k) -> exists p, initials_table ++ (if battery_in_iterate st then [S_battery] else []) ++ S_unpack :: l = p ++ tail_of k).
  { intros l [p ->]. exists (initials_table ++ (if battery_in_iterate st then [S_battery] else []) ++ S_unpack :: p).
    now rewrite <- !app_assoc. }
  apply G. destruct k as [h altf law|h law| | | | | | | | | ]; [|destruct law|..]; cbn [conditions_table];
  match goal with |- context [S_altitude :: ?r] =>
    match goal with
    | |- exists p, S_altitude :: r = _ => exists []
    | |- exists p, ?a :: S_altitude :: r = _ => exists [a]
    | |- exists p, ?a :: ?b :: S_altitude :: r = _ => exists [a; b]
    | |- exists p, ?a :: ?b :: ?c :: S_altitude :: r = _ => exists [a; b; c]
    | |- exists p, ?a :: ?b :: ?c :: ?d :: S_altitude :: r = _ => exists [a; b; c; d]
    end end; reflexivity.
Qed.

(** the stored altitude is that of the position *)
Definition alt_ok (c : conds) : Prop := forall i, alt c i = - vz (pos c i).
Record flow_ok (an : analyses) (dT : R) (c : conds) (i : nat) : Prop := {
  f_alt : alt c i = - vz (pos c i);
  f_press : press c i = an_press an (alt c i) dT;
  f_temp : temp c i = an_temp an (alt c i) dT;
  f_rho : rho c i = an_rho an (alt c i) dT;
  f_sound : sound c i = an_sound an (alt c i) dT;
  f_visc : visc c i = an_visc an (alt c i) dT;
  f_grav : grav c i = an_gravity an (alt c i);
  f_speed : speed c i = norm (vel c i);
  f_mach : mach c i = speed c i / sound c i;
  f_reyn : reyn c i = rho c i * speed c i / visc c i;
  f_dynp : dynp c i = 1 / 2 * rho c i * speed c i ^ 2;
  f_body : b2i c i = mtranspose (dcm_210 (rot c i));
  f_alpha : alpha c i = arctan2 (vz (mapply (dcm_210 (rot c i)) (vel c i)))
                                (vx (mapply (dcm_210 (rot c i)) (vel c i)))
}.
Definition flows an st (w : world) : Prop := forall i, flow_ok an (temperature_deviation st) (w_cur w) i.
Definition weighed (w : world) : Prop :=
  forall i, vz (weight_f (w_cur w) i) = mass (w_cur w) i * grav (w_cur w) i.
Definition summed (w : world) : Prop :=
  forall i, total_f (w_cur w) i = applied (w_kind w) (w_cur w) i.

Lemma some_inj : forall (A : Type) (x y : A), Some x = Some y -> y = x.
Proof. intros A x y H. injection H as H. symmetry. exact H. Qed.
Lemma step_altitude : forall an st u l p n k nu c,
  run_steps an st u (S_altitude :: l) (World p n k nu c) = run_steps an st u l (World p n k nu (update_altitude c)).
Proof. reflexivity. Qed.
Lemma step_atmosphere : forall an st u l p n k nu c,
  run_steps an st u (S_atmosphere :: l) (World p n k nu c) = run_steps an st u l (World p n k nu (update_atmosphere an (temperature_deviation st) c)).
Proof. reflexivity. Qed.
Lemma step_gravity : forall an st u l p n k nu c,
  run_steps an st u (S_gravity :: l) (World p n k nu c) = run_steps an st u l (World p n k nu (update_gravity an c)).
Proof. reflexivity. Qed.
Lemma step_freestream : forall an st u l p n k nu c,
  run_steps an st u (S_freestream :: l) (World p n k nu c) = run_steps an st u l (World p n k nu (update_freestream c)).
Proof. reflexivity. Qed.
Lemma step_orientations : forall an st u l p n k nu c,
  run_steps an st u (S_orientations :: l) (World p n k nu c) = run_steps an st u l (World p n k nu (update_orientations c)).
Proof. reflexivity. Qed.
Lemma dynp_free : forall c i, dynp (update_freestream c) i = 1 / 2 * rho c i * speed (update_freestream c) i ^ 2.
Proof.
  intros c i. unfold update_freestream. cbn [dynp speed rho set_dynp set_reyn set_mach set_speed].
  match goal with |- context [sqrt ?a] => assert (0 <= a) by (apply Rplus_le_le_0_compat; [apply Rplus_le_le_0_compat|]; apply Rle_0_sqr) end.
  rewrite <- Rsqr_pow2, Rsqr_sqrt; auto.
Qed.
Definition air_ok (an : analyses) (dT : R) (c : conds) (i : nat) : Prop :=
  alt c i = - vz (pos c i) /\ press c i = an_press an (alt c i) dT /\
  temp c i = an_temp an (alt c i) dT /\ rho c i = an_rho an (alt c i) dT /\
  sound c i = an_sound an (alt c i) dT /\ visc c i = an_visc an (alt c i) dT /\
  grav c i = an_gravity an (alt c i).
Lemma air_first : forall an dT c i, air_ok an dT (update_gravity an (update_atmosphere an dT (update_altitude c))) i.
Proof. intros. repeat split. Qed.
Lemma orient_dynp : forall c, dynp (update_orientations c) = dynp c. Proof. reflexivity. Qed.
Lemma orient_rho : forall c, rho (update_orientations c) = rho c. Proof. reflexivity. Qed.
Lemma orient_speed : forall c, speed (update_orientations c) = speed c. Proof. reflexivity. Qed.
Lemma free_rho : forall c, rho (update_freestream c) = rho c. Proof. reflexivity. Qed.
Lemma flow_second : forall an dT c i, air_ok an dT c i -> flow_ok an dT (update_orientations (update_freestream c)) i.
Proof.
  intros an dT c i (A1 & A2 & A3 & A4 & A5 & A6 & A7).
  constructor; try assumption; try reflexivity.
  rewrite orient_dynp, orient_rho, orient_speed, free_rho. apply dynp_free.
Qed.
Lemma prefix_flows : forall an st u w w',
  run_steps an st u [S_altitude; S_atmosphere; S_gravity; S_freestream; S_orientations] w = Some w' ->
  flows an st w' /\ w_num w' = w_num w /\ w_kind w' = w_kind w.
Proof.
  intros an st u [p n k nu c] w' H.
  rewrite step_altitude, step_atmosphere, step_gravity, step_freestream, step_orientations in H.
  cbn [run_steps] in H. apply some_inj in H. subst w'. split; [|split; reflexivity]. intro i.
  apply flow_second, air_first.
Qed.

(** the steps of the tail after the orientations, and the final one *)
Definition late (s : step) : Prop :=
  match s with
  | S_thrust | S_aerodynamics | S_weights | S_ground_forces | S_forces | S_forces_ground
  | S_planet | S_horizontal => True
  | _ => False
  end.
Lemma late_flows : forall an st u s w w', late s -> run_step an st u s w = Some w' ->
  (flows an st w -> flows an st w') /\ w_num w' = w_num w /\ w_kind w' = w_kind w.
Proof.
  intros an st u s [p n k nu c] w' Hs H. unfold flows.
  destruct s; cbn in Hs; try contradiction; unfold run_step in H; cbv zeta in H;
    cbn [w_kind w_prev w_num w_cur w_n] in H.
  - injection H as <-. unfold update_thrust. destruct (an_energy an c) as [[[F m] [[f a]|]] b];
      (split; [|split; reflexivity]); intros I i; destruct (I i); constructor; assumption.
  - injection H as <-. unfold update_aerodynamics. destruct (an_aero an c);
      (split; [|split; reflexivity]); intros I i; destruct (I i); constructor; assumption.
  - injection H as <-. unfold update_weights. destruct (has_add c);
      (split; [|split; reflexivity]); intros I i; destruct (I i); constructor; assumption.
  - injection H as <-. (split; [|split; reflexivity]); intros I i; destruct (I i); constructor; assumption.
  - destruct k; injection H as <-; (split; [|split; reflexivity]); intros I i; destruct (I i); constructor; assumption.
  - injection H as <-. (split; [|split; reflexivity]); intros I i; destruct (I i); constructor; assumption.
  - injection H as <-. (split; [|split; reflexivity]); intros I i; destruct (I i); constructor; assumption.
  - injection H as <-. (split; [|split; reflexivity]); intros I i; destruct (I i); constructor; assumption.
Qed.
Lemma weights_weighs : forall an st u w w', t_ok w -> run_step an st u S_weights w = Some w' -> weighed w'.
Proof.
  intros an st u [p n k nu c] w' Ht H. unfold run_step in H. cbv zeta in H. injection H as <-.
  unfold t_ok in Ht. cbn in Ht. unfold weighed, update_weights. cbn [w_num w_cur w_n set_cur].
  assert (E : forall r, mulv n (t_I nu) r 0%nat = 0) by (intro r; apply mulv_zero_row; exact Ht).
  destruct (has_add c); intros [|i]; cbn; rewrite ?E; cbn; try reflexivity; ring.
Qed.
Definition after_weights (s : step) : Prop :=
  match s with S_ground_forces | S_forces | S_forces_ground | S_planet | S_horizontal => True | _ => False end.
Lemma weighed_keep : forall an st u s w w', after_weights s -> run_step an st u s w = Some w' ->
  weighed w -> weighed w'.
Proof.
  intros an st u s [p n k nu c] w' Hs H.
  destruct s; cbn in Hs; try contradiction; unfold run_step in H; cbv zeta in H;
    cbn [w_kind w_prev w_num w_cur w_n] in H; try (injection H as <-; intros I i; exact (I i)).
  destruct k; injection H as <-; intros I i; exact (I i).
Qed.
Lemma sum_four : forall a b c d, vplus (vplus (vplus a b) c) d = S_Rot.plus (S_Rot.plus a b) (S_Rot.plus c d).
Proof. intros [] [] [] []. unfold vplus, S_Rot.plus. cbn. f_equal; ring. Qed.
Lemma sum_five : forall a b c d e, vplus (vplus (vplus (vplus a b) c) d) e
  = S_Rot.plus (S_Rot.plus (S_Rot.plus a b) (S_Rot.plus c d)) e.
Proof. intros [] [] [] [] []. unfold vplus, S_Rot.plus. cbn. f_equal; ring. Qed.
Lemma forces_sum : forall an st u w w', on_ground (w_kind w) = false ->
  run_step an st u S_forces w = Some w' -> summed w'.
Proof.
  intros an st u [p n k nu c] w' Hk H. unfold run_step in H. cbv zeta in H. injection H as <-.
  cbn in Hk. intro i. unfold applied. cbn [w_kind set_cur]. rewrite Hk.
  apply sum_four.
Qed.
Lemma forces_sum_ground : forall an st u w w', on_ground (w_kind w) = true ->
  run_step an st u S_forces_ground w = Some w' -> summed w'.
Proof.
  intros an st u [p n k nu c] w' Hk H. unfold run_step in H. cbv zeta in H. injection H as <-.
  cbn in Hk. intro i. unfold applied. cbn [w_kind set_cur]. rewrite Hk.
  apply sum_five.
Qed.
Lemma summed_keep : forall an st u s w w', s = S_planet \/ s = S_horizontal ->
  run_step an st u s w = Some w' -> summed w -> summed w'.
Proof.
  intros an st u s [p n k nu c] w' [->| ->] H; unfold run_step in H; cbv zeta in H; injection H as <-; intros I i; exact (I i).
Qed.

Lemma late_all : forall an st u l w w', Forall late l -> run_steps an st u l w = Some w' ->
  (flows an st w -> flows an st w') /\ w_num w' = w_num w /\ w_kind w' = w_kind w.
Proof.
  intros an st u l; induction l as [|s l IH]; intros w w' Hl H; cbn in H.
  - injection H as <-. auto.
  - inversion Hl; subst. destruct (run_step an st u s w) as [w1|] eqn:E; [|discriminate].
    destruct (late_flows _ _ _ _ _ _ H2 E) as (A & B & C). destruct (IH _ _ H3 H) as (A' & B' & C').
    split; [auto|split; congruence].
Qed.

Lemma t_ok_num : forall w w', t_ok w -> w_num w' = w_num w -> t_ok w'.
Proof. intros w w' H E j. rewrite E. apply H. Qed.

Definition good an st (w : world) : Prop := flows an st w /\ weighed w /\ summed w.
(** one iteration, given that it ends with integration starting from zero *)
Lemma rest_good : forall an st u w w' mid forces more, Forall late mid -> (more = [] \/ more = [S_ground_forces]) ->
  (on_ground (w_kind w) = false /\ forces = S_forces \/ on_ground (w_kind w) = true /\ forces = S_forces_ground) ->
  t_ok w' ->
  run_steps an st u ([S_altitude; S_atmosphere; S_gravity; S_freestream; S_orientations] ++ mid ++ [S_weights] ++ more ++ [forces] ++ [S_planet]) w = Some w' ->
  good an st w'.
Proof.
  intros an st u w w' mid forces more Hm Hmore Hf Ht H.
  rewrite run_steps_app in H.
  destruct (run_steps an st u [S_altitude; S_atmosphere; S_gravity; S_freestream; S_orientations] w) as [w1|] eqn:E1; [|discriminate].
  destruct (prefix_flows _ _ _ _ _ E1) as (F1 & N1 & K1).
  rewrite run_steps_app in H. destruct (run_steps an st u mid w1) as [w2|] eqn:E2; [|discriminate].
  destruct (late_all _ _ _ _ _ _ Hm E2) as (F2 & N2 & K2). specialize (F2 F1).
  cbn [app] in H. change (S_weights :: more ++ forces :: [S_planet]) with ([S_weights] ++ more ++ [forces] ++ [S_planet]) in H.
  rewrite run_steps_app in H. destruct (run_steps an st u [S_weights] w2) as [w3|] eqn:E3; [|discriminate].
  assert (L3 : Forall late [S_weights]) by (repeat constructor).
  destruct (late_all _ _ _ _ _ _ L3 E3) as (F3 & N3 & K3). specialize (F3 F2).
  rewrite run_steps_app in H. destruct (run_steps an st u more w3) as [w4|] eqn:E4; [|discriminate].
  assert (L4 : Forall late more) by (destruct Hmore as [->| ->]; repeat constructor).
  destruct (late_all _ _ _ _ _ _ L4 E4) as (F4 & N4 & K4). specialize (F4 F3).
  rewrite run_steps_app in H. destruct (run_steps an st u [forces] w4) as [w5|] eqn:E5; [|discriminate].
  assert (L5 : Forall late [forces]) by (destruct Hf as [[_ E0]|[_ E0]]; try rewrite E0; repeat constructor).
  destruct (late_all _ _ _ _ _ _ L5 E5) as (F5 & N5 & K5). specialize (F5 F4).
  assert (L6 : Forall late [S_planet]) by (repeat constructor).
  destruct (late_all _ _ _ _ _ _ L6 H) as (F6 & N6 & K6). specialize (F6 F5).
  assert (T3 : t_ok w2) by (eapply t_ok_num; [exact Ht|congruence]).
  cbn [run_steps] in E3. destruct (run_step an st u S_weights w2) as [x|] eqn:E3'; [|discriminate]. injection E3 as ->.
  pose proof (weights_weighs _ _ _ _ _ T3 E3') as W3.
  assert (W4 : weighed w4).
  { destruct Hmore as [->| ->]; cbn [run_steps] in E4.
    - injection E4 as <-. exact W3.
    - destruct (run_step an st u S_ground_forces w3) as [x|] eqn:E4'; [|discriminate]. injection E4 as ->.
      refine (weighed_keep _ _ _ _ _ _ _ E4' W3). exact Logic.I. }
  cbn [run_steps] in E5. destruct (run_step an st u forces w4) as [x|] eqn:E5'; [|discriminate]. injection E5 as ->.
  assert (W5 : weighed w5).
  { refine (weighed_keep _ _ _ _ _ _ _ E5' W4). destruct Hf as [[_ E0]|[_ E0]]; try rewrite E0; exact Logic.I. }
  assert (S5 : summed w5).
  { assert (K : w_kind w4 = w_kind w) by congruence.
    destruct Hf as [[G ->]|[G ->]]; [refine (forces_sum _ _ _ _ _ _ E5')|refine (forces_sum_ground _ _ _ _ _ _ E5')]; rewrite K; exact G. }
  cbn [run_steps] in H. destruct (run_step an st u S_planet w5) as [x|] eqn:E6'; [|discriminate]. injection H as ->.
  split; [exact F6|split].
  - refine (weighed_keep _ _ _ _ _ _ _ E6' W5). exact Logic.I.
  - refine (summed_keep _ _ _ _ _ _ _ E6' S5). now left.
Qed.

Lemma iter_keep_kind : forall an st u s w w', s <> S_conditions -> run_step an st u s w = Some w' -> w_kind w' = w_kind w.
Proof.
  intros an st u s [p n k nu c] w' Hs H.
  destruct s; try congruence; unfold run_step, unpack in H; cbv zeta in H;
    cbn [w_kind w_prev w_num w_cur w_n] in H; try (injection H as <-; reflexivity).
  - destruct k; injection H as <-; reflexivity.
  - destruct k; try (injection H as <-; reflexivity).
    destruct (throttle_differentials _ _ _ _ _ _); [|discriminate]. injection H as <-. reflexivity.
  - destruct (initialize_inertial_position _ _ _) as [q c']. injection H as <-. reflexivity.
  - destruct (unpack_skipped st); [injection H as <-; reflexivity|].
    destruct k as [| ? [] | | | | | | | | | ]; try (injection H as <-; reflexivity).
    all: try (destruct (altitude_unknown_step _ _ _ _ _ _ _ _); [|discriminate]; injection H as <-; reflexivity).
    all: destruct (resolve_speed _ _); [|discriminate]; injection H as <-; reflexivity.
  - destruct k; try (injection H as <-; reflexivity);
      destruct (optimized_differentials _ _ _ _ _) as [[? ?]|]; try discriminate; injection H as <-; reflexivity.
  - destruct k; try discriminate. destruct v0; [|discriminate]. injection H as <-; reflexivity.
  - destruct k; injection H as <-; reflexivity.
Qed.
Lemma steps_keep_kind : forall an st u l w w', ~ In S_conditions l -> run_steps an st u l w = Some w' -> w_kind w' = w_kind w.
Proof.
  intros an st u l; induction l as [|s l IH]; intros w w' Hl H; cbn in H.
  - injection H as <-. reflexivity.
  - destruct (run_step an st u s w) as [w1|] eqn:E; [|discriminate].
    rewrite (IH w1 w'); [|intro X; apply Hl; now right|exact H].
    apply (iter_keep_kind an st u s); [|exact E]. intro X. apply Hl. left. exact X.
Qed.
Lemma iterate_no_conditions : forall st k, ~ In S_conditions (iterate_steps st k).
Proof.
  intros st k. assert (F : Forall (fun s => s <> S_conditions) (iterate_steps st k)).
  { unfold iterate_steps, initials_table. destruct (battery_in_iterate st);
    destruct k as [h altf law|h law| | | | | | | | | ]; [|destruct law|..]; try destruct law;
    repeat apply Forall_cons; try discriminate; apply Forall_nil. }
  rewrite Forall_forall in F. intro H. exact (F _ H eq_refl).
Qed.

Definition mid_of (k : kind) : list step :=
  match k with
  | Throttle_cruise _ _ _ _ => [S_aerodynamics; S_thrust]
  | Cruising _ (Hovering _) | Hover_climb _ _ _ | Hover_descent _ _ _ => [S_thrust]
  | _ => [S_thrust; S_aerodynamics]
  end.
Definition more_of (k : kind) : list step := if on_ground k then [S_ground_forces] else [].
Definition forces_of (k : kind) : step := if on_ground k then S_forces_ground else S_forces.
Lemma tail_parts : forall k, tail_of k
  = [S_altitude; S_atmosphere; S_gravity; S_freestream; S_orientations] ++ mid_of k ++ [S_weights] ++ more_of k ++ [forces_of k] ++ [S_planet].
Proof. intro k. destruct k as [h altf law|h law| | | | | | | | | ]; [|destruct law|..]; reflexivity. Qed.
Lemma parts_ok : forall k, Forall late (mid_of k) /\ (more_of k = [] \/ more_of k = [S_ground_forces]) /\
  (on_ground k = false /\ forces_of k = S_forces \/ on_ground k = true /\ forces_of k = S_forces_ground).
Proof.
  intro k. split; [|split].
  - destruct k as [h altf law|h law| | | | | | | | | ]; [|destruct law|..]; repeat constructor.
  - unfold more_of. destruct (on_ground k); auto.
  - unfold forces_of. destruct (on_ground k); auto.
Qed.
Lemma iterate_good : forall an st u w w', t_ok w' ->
  run_steps an st u (iterate_steps st (w_kind w)) w = Some w' -> good an st w'.
Proof.
  intros an st u w w' Ht H. destruct (tail_split st (w_kind w)) as [pre E].
  assert (Hk : forall v, run_steps an st u pre w = Some v -> w_kind v = w_kind w).
  { intros v Hv. apply (steps_keep_kind an st u pre); [|exact Hv]. intro X. apply (iterate_no_conditions st (w_kind w)). rewrite E. apply in_or_app. now left. }
  rewrite E, run_steps_app in H.
  destruct (run_steps an st u pre w) as [w1|] eqn:E1; [|discriminate].
  specialize (Hk w1 eq_refl). rewrite <- Hk, tail_parts in H.
  destruct (parts_ok (w_kind w1)) as (P1 & P2 & P3).
  exact (rest_good _ _ _ _ _ _ _ _ P1 P2 P3 Ht H).
Qed.

(** ** The integration operator fits the times *)
Definition clock_ok (w : world) : Prop := forall i j,
  t_I (w_num w) i j = nd_I (w_num w) i j * (tof w (w_n w - 1)%nat - tof w 0%nat).
Definition no_clock (s : step) : Prop :=
  match s with
  | S_acceleration | S_integrate_velocity | S_altitude | S_atmosphere | S_gravity | S_freestream
  | S_orientations | S_thrust | S_aerodynamics | S_weights | S_forces | S_ground_forces
  | S_forces_ground | S_planet | S_horizontal => True
  | _ => False
  end.
Lemma no_clock_keeps : forall an st u s w w', no_clock s -> run_step an st u s w = Some w' ->
  w_num w' = w_num w /\ w_n w' = w_n w /\ time (w_cur w') = time (w_cur w).
Proof.
  intros an st u s [p n k nu c] w' Hs H.
  destruct s; cbn in Hs; try contradiction; unfold run_step in H; cbv zeta in H;
    cbn [w_kind w_prev w_num w_cur w_n] in H; try (apply some_inj in H; subst w'; repeat split).
  - destruct k; try discriminate. destruct v0; [|discriminate]. apply some_inj in H; subst w'; repeat split.
  - unfold update_thrust. cbn [set_cur w_cur]. destruct (an_energy an c) as [[[F m] [[f a]|]] b]; reflexivity.
  - unfold update_aerodynamics. cbn [set_cur w_cur]. destruct (an_aero an c); reflexivity.
  - unfold update_weights. cbn [set_cur w_cur]. destruct (has_add c); reflexivity.
  - destruct k; apply some_inj in H; subst w'; repeat split.
Qed.
Lemma no_clock_all : forall an st u l w w', Forall no_clock l -> run_steps an st u l w = Some w' ->
  w_num w' = w_num w /\ w_n w' = w_n w /\ time (w_cur w') = time (w_cur w).
Proof.
  intros an st u l; induction l as [|s l IH]; intros w w' Hl H; cbn in H.
  - injection H as <-. auto.
  - inversion Hl; subst. destruct (run_step an st u s w) as [w1|] eqn:E; [|discriminate].
    destruct (no_clock_keeps _ _ _ _ _ _ H2 E) as (A & B & C). destruct (IH _ _ H3 H) as (A' & B' & C').
    repeat split; congruence.
Qed.
Lemma clock_split : forall st k, ~ solves_altitude k ->
  exists pre post, iterate_steps st k = pre ++ S_differentials_time :: post /\ Forall no_clock post.
Proof.
  intros st k Hk. unfold iterate_steps.
  assert (G : forall l, (exists p q, l = p ++ S_differentials_time :: q /\ Forall no_clock q) ->
    exists p q, initials_table ++ (if battery_in_iterate st then [S_battery] else []) ++ S_unpack :: l = p ++ S_differentials_time :: q /\ Forall no_clock q).
  { intros l (p & q & -> & Hq). exists (initials_table ++ (if battery_in_iterate st then [S_battery] else []) ++ S_unpack :: p), q.
    split; [now rewrite <- !app_assoc|exact Hq]. }
  apply G. destruct k as [h altf law|h law| | | | | | | | | ]; [|destruct law|..]; cbn [conditions_table];
  try (exfalso; apply Hk; exact Logic.I);
  match goal with
  | |- context [S_velocities :: S_differentials_throttle :: S_differentials_time :: ?r] => exists [S_velocities; S_differentials_throttle], r
  | |- context [S_differentials_time :: ?r] => exists [], r
  end; (split; [reflexivity|repeat constructor]).
Qed.
Lemma iterate_clock : forall an st u w w', ~ solves_altitude (w_kind w) ->
  run_steps an st u (iterate_steps st (w_kind w)) w = Some w' -> clock_ok w'.
Proof.
  intros an st u w w' Hk H. destruct (clock_split st _ Hk) as (pre & post & E & Hp).
  rewrite E, run_steps_app in H. destruct (run_steps an st u pre w) as [w1|]; [|discriminate].
  cbn [run_steps] in H. destruct (run_step an st u S_differentials_time w1) as [w2|] eqn:E2; [|discriminate].
  destruct (no_clock_all _ _ _ _ _ _ Hp H) as (A & B & C).
  assert (K : clock_ok w2).
  { destruct w1 as [p n k nu c]. unfold run_step in E2. cbv zeta in E2. apply some_inj in E2. subst w2. intros i j. reflexivity. }
  intros i j. unfold tof. rewrite A, B, C. apply K.
Qed.

(** ** A whole evaluation *)
Lemma iterations_good : forall an st calls w w', calls <> [] -> nd_ok w ->
  run_iterations an st calls w = Some w' -> good an st w' /\ t_ok w' /\ (~ solves_altitude (w_kind w) -> clock_ok w') /\ w_kind w' = w_kind w.
Proof.
  intros an st calls. induction calls as [|u calls IH]; intros w w' Hc Hn H; [congruence|].
  cbn [run_iterations] in H.
  destruct (run_steps an st u (iterate_steps st (w_kind w)) w) as [w1|] eqn:E; [|discriminate].
  assert (T : nd_ok w1 /\ t_ok w1).
  { destruct (w_prev w) as [[np p]|] eqn:P.
    - destruct (iterate_joins _ _ _ _ _ _ _ Hn P E) as (_ & _ & _ & A & B & _). auto.
    - destruct (iterate_fresh _ _ _ _ _ Hn P E) as (_ & _ & _ & A & B & _). auto. }
  destruct T as [T1 T2].
  assert (K : w_kind w1 = w_kind w) by (apply (steps_keep_kind _ _ _ _ _ _ (iterate_no_conditions _ _) E)).
  destruct calls as [|v calls].
  - cbn in H. injection H as <-. split; [exact (iterate_good _ _ _ _ _ T2 E)|].
    split; [exact T2|]. split; [|exact K]. intro Hk. exact (iterate_clock _ _ _ _ _ Hk E).
  - destruct (IH w1 w' ltac:(discriminate) T1 H) as (A & B & C & D). rewrite K in *. auto.
Qed.

Lemma t_zero_range : forall n (I : mat) v, (forall j, I 0%nat j = 0) -> mulv n I v 0%nat = 0.
Proof. intros. apply mulv_zero_row. auto. Qed.

Lemma evaluate_summary : forall an st u calls w w', starts_at_zero st (w_n w) -> calls <> [] ->
  evaluate_segment an st u calls w = Some w' ->
  exists w1, run_steps an st u (initialize_steps st (w_kind w)) w = Some w1 /\
    good an st w' /\ (timed (w_kind w1) -> kept st w1 w') /\
    (~ solves_altitude (w_kind w1) -> clock_ok w') /\
    (forall i, range (w_cur w') i = range (w_cur w') 0%nat + mulv (w_n w') (t_I (w_num w')) (fun j => vx (vel (w_cur w') j)) i) /\
    w_n w' = w_n w /\ w_kind w' = w_kind w1.
Proof.
  intros an st u calls w w' Hz Hc H. unfold evaluate_segment in H.
  destruct (run_steps an st u (initialize_steps st (w_kind w)) w) as [w1|] eqn:E1; [|discriminate].
  exists w1. split; [reflexivity|].
  destruct (initialize_sets _ _ _ _ _ Hz E1) as (A1 & A2 & A3 & _).
  destruct (run_iterations an st calls w1) as [w2|] eqn:E2; [|discriminate].
  destruct (iterations_good _ _ _ _ _ Hc A3 E2) as ((G1 & G2 & G3) & T & C & K).
  assert (L : Forall late finalize_steps) by (repeat constructor).
  destruct (late_all _ _ _ _ _ _ L H) as (F & N & K').
  assert (KT : timed (w_kind w1) -> kept st w1 w').
  { intro Hk. apply kept_trans with w2; [exact (kept_iterations _ _ _ _ _ Hk E2)|].
    refine (kept_steps _ _ _ _ _ _ _ _ H); [repeat constructor|rewrite K; exact Hk]. }
  assert (Nn : w_n w2 = w_n w1).
  { destruct (w_prev w1) as [[np p]|] eqn:P.
    - destruct (iterations_join _ _ _ _ _ _ _ Hc A3 P E2) as (B1 & _). exact B1.
    - destruct (iterations_fresh _ _ _ _ _ Hc A3 P E2) as (B1 & _). exact B1. }
  assert (NC : Forall no_clock finalize_steps) by (repeat constructor).
  destruct (no_clock_all _ _ _ _ _ _ NC H) as (D1 & D2 & D3).
  cbn [finalize_steps run_steps] in H.
  destruct (run_step an st u S_horizontal w2) as [x|] eqn:E3; [|discriminate]. injection H as ->.
  split; [|split; [exact KT|split; [|split; [|split; congruence]]]].
  - split; [apply F; exact G1|]. split.
    + refine (weighed_keep _ _ _ _ _ _ _ E3 G2). exact Logic.I.
    + refine (summed_keep _ _ _ _ _ _ _ E3 G3). now right.
  - intros Hk. specialize (C Hk). intros i j. unfold tof. rewrite D1, D2, D3. apply C.
  - intro i. destruct w2 as [p n k nu c]. unfold run_step in E3. cbv zeta in E3. apply some_inj in E3. subst w'.
    cbn [set_cur w_cur w_n w_num]. unfold integrate_inertial_horizontal_position.
    cbn [set_range set_pos range vel]. rewrite t_zero_range by exact T. ring.
Qed.

(** the height of the first control point *)
Lemma first_height : forall an st u calls w w' w1 a, starts_at_zero st (w_n w) -> calls <> [] ->
  evaluate_segment an st u calls w = Some w' -> kept st w1 w' -> w_prev w1 = w_prev w ->
  (start_altitude (w_kind w') = start_altitude (w_kind w) \/ start_altitude (w_kind w') = Some a) ->
  resolve_altitude (start_altitude (w_kind w)) (w_prev w) = Some a -> zof w1 0%nat = - a ->
  zof w' 0%nat = - a.
Proof.
  intros an st u calls w w' w1 a Hz Hc H K Hp Hk Ha Hw1.
  destruct (w_prev w) as [[np p]|] eqn:P.
  - destruct (evaluate_joins _ _ _ _ _ _ _ _ Hz Hc P H) as (_ & J1 & _ & _ & _ & J5).
    unfold zof. unfold first_z in J5. rewrite J5. unfold override_last.
    assert (S : forall h, vz (pos (set_pos (fun i => if Nat.eqb i (np - 1) then with_z (- h) (pos p i) else pos p i) p) (np - 1)) = - h).
    { intro h. cbn. rewrite Nat.eqb_refl. reflexivity. }
    destruct (start_altitude (w_kind w')) as [h|] eqn:E; destruct (start_altitude (w_kind w)) as [h'|] eqn:E';
      cbn in Ha; try injection Ha as Ha; destruct Hk as [Hk|Hk]; try discriminate; try injection Hk as Hk; rewrite ?S; lra.
  - destruct (k_fresh _ _ _ K Hp) as [_ B]. congruence.
Qed.

(** ** Initialisation of climbs and descents *)
Definition xof (st : settings) (n : nat) : col := fst (fst (discretization st n)).
Definition Iof (st : settings) (n : nat) : mat := snd (discretization st n).
Lemma diff_step : forall an st u l p n k nu c, exists nu',
  run_steps an st u (S_differentials :: l) (World p n k nu c) = run_steps an st u l (World p n k nu' c) /\
  nd_x nu' = xof st n /\ nd_I nu' = Iof st n.
Proof.
  intros. cbn [run_steps run_step set_num w_prev w_n w_kind w_num w_cur]. unfold initialize_differentials, xof, Iof.
  destruct (discretization st n) as [[x D] J]. eexists. split; [reflexivity|]. split; reflexivity.
Qed.
(** the battery step changes nothing that matters here *)
Lemma battery_tail : forall an st u w w', run_steps an st u (if battery_in_initialize st then [S_battery] else []) w = Some w' ->
  pos (w_cur w') = pos (w_cur w) /\ vel (w_cur w') = vel (w_cur w) /\ time (w_cur w') = time (w_cur w) /\
  rot (w_cur w') = rot (w_cur w) /\
  w_kind w' = w_kind w /\ w_n w' = w_n w /\ w_num w' = w_num w /\ w_prev w' = w_prev w.
Proof.
  intros an st u [p n k nu c] w' H. destruct (battery_in_initialize st); cbn [run_steps run_step] in H;
    cbv zeta in H; apply some_inj in H; subst w'; repeat split.
Qed.
Lemma climb_init : forall an st u p n nu c h0 altf law w1,
  run_steps an st u (initialize_steps st (Climbing h0 altf law)) (World p n (Climbing h0 altf law) nu c) = Some w1 ->
  exists alt0, resolve_altitude h0 p = Some alt0 /\
    let h i := xof st n i * (altf - alt0) + alt0 in
    let cv := climb_velocity an (temperature_deviation st) (xof st n) h alt0 altf law
                (climb_prepare an (temperature_deviation st) h law c) in
    (forall i, zof w1 i = - h i) /\
    (forall i, vel (w_cur w1) i = V3 (fst cv i) (vy (vel c i)) (snd cv i)) /\
    (forall i, tof w1 i = time c 0%nat + xof st n i *
       Sum n (fun j => Iof st n (n - 1)%nat j * (- h (n - 1)%nat - - h 0%nat) * (1 / snd cv j))) /\
    w_kind w1 = Climbing h0 altf law /\ w_prev w1 = p /\ w_n w1 = n.
Proof.
  intros an st u p n nu c h0 altf law w1 H. unfold initialize_steps in H. cbn [init_table] in H.
  rewrite run_steps_app in H.
  destruct (diff_step an st u [S_conditions; S_differentials_altitude] p n (Climbing h0 altf law) nu c) as (nu' & E & X & Iq).
  rewrite E in H. clear E. cbn [run_steps run_step] in H. unfold init_conditions in H. cbv zeta in H.
  cbn [w_kind w_num w_prev w_cur] in H. unfold init_climb in H.
  destruct (resolve_altitude h0 p) as [alt0|]; [|discriminate]. exists alt0. split; [reflexivity|].
  cbv zeta in H. rewrite X in H.
  cbv zeta.
  set (h := fun i => xof st n i * (altf - alt0) + alt0) in *.
  set (c1 := climb_prepare an (temperature_deviation st) h law c) in *.
  assert (V1 : vel c1 = vel c /\ time c1 = time c) by (unfold c1; destruct law; split; reflexivity).
  destruct V1 as [V1 T1].
  destruct (climb_velocity an (temperature_deviation st) (xof st n) h alt0 altf law c1) as [v_x v_z].
  cbn [fst snd] in *.
  destruct (run_steps an st u (if battery_in_initialize st then [S_battery] else []) _) as [w2|] eqn:E2 in H; [|discriminate].
  apply some_inj in H. subst w2.
  destruct (battery_tail _ _ _ _ _ E2) as (B1 & B2 & B3 & _ & B4 & B5 & B6 & B7). clear E2.
  unfold zof, tof. rewrite B1, B2, B3, B4, B5, B7. clear B1 B2 B3 B4 B5 B6 B7 w1.
  cbn [set_cur w_cur w_num w_n w_kind w_prev]. clearbody c1.
  repeat split.
  - intro i. cbn. rewrite V1. reflexivity.
  - intro i. unfold update_differentials_altitude. cbn [time set_time]. rewrite Iq, X.
    cbn. rewrite T1. reflexivity.
Qed.

(** ** Initialisation of the other kinds *)
Lemma other_init : forall an st u p n k nu c w1, init_table k = [S_differentials; S_conditions] ->
  run_steps an st u (initialize_steps st k) (World p n k nu c) = Some w1 ->
  exists nu' w0, nd_x nu' = xof st n /\ nd_I nu' = Iof st n /\
    init_conditions an st u (World p n k nu' c) = Some w0 /\
    pos (w_cur w1) = pos (w_cur w0) /\ vel (w_cur w1) = vel (w_cur w0) /\
    time (w_cur w1) = time (w_cur w0) /\ rot (w_cur w1) = rot (w_cur w0) /\
    w_kind w1 = w_kind w0 /\ w_n w1 = w_n w0 /\ w_prev w1 = w_prev w0.
Proof.
  intros an st u p n k nu c w1 Hk H. unfold initialize_steps in H. rewrite Hk, run_steps_app in H.
  destruct (diff_step an st u [S_conditions] p n k nu c) as (nu' & E & X & Iq).
  rewrite E in H. clear E. cbn [run_steps run_step] in H.
  destruct (init_conditions an st u (World p n k nu' c)) as [w0|] eqn:E0; [|discriminate].
  destruct (battery_tail _ _ _ _ _ H) as (B1 & B2 & B3 & B3' & B4 & B5 & B6 & B7).
  exists nu', w0. repeat split; assumption.
Qed.

(** ** Segments of missions *)
Definition came_from (s b : segment) (pr : initials) (w : world) (h : option R) : Prop :=
  evaluate_segment (sg_analyses s) (sg_settings s) (sg_unknowns s) (sg_calls s)
    (World pr (sg_n s) (sg_kind s) (sg_numerics s) (sg_conds s)) = Some w /\
  sg_n b = w_n w /\ sg_kind b = w_kind w /\ sg_settings b = sg_settings s /\ sg_analyses b = sg_analyses s /\
  sg_conds b = override_last h (w_n w) (w_cur w).
Lemma evaluated_alt : forall an st u calls w w', starts_at_zero st (w_n w) -> calls <> [] ->
  evaluate_segment an st u calls w = Some w' -> alt_ok (w_cur w').
Proof.
  intros an st u calls w w' Hz Hc H i. destruct (evaluate_summary _ _ _ _ _ _ Hz Hc H) as (w1 & _ & (F & _) & _).
  apply (f_alt _ _ _ _ (F i)).
Qed.
Lemma run_mission_each : forall segs p out, Forall usable segs -> alt_ok (sg_conds p) -> run_mission (Some p) segs = Some out ->
  exists h q rest, out = q :: rest /\ sg_n q = sg_n p /\ sg_kind q = sg_kind p /\ sg_settings q = sg_settings p /\
    sg_analyses q = sg_analyses p /\
    sg_conds q = override_last h (sg_n p) (sg_conds p) /\ length rest = length segs /\
    forall k s a b, nth_error segs k = Some s -> nth_error out k = Some a -> nth_error out (S k) = Some b ->
      exists pa w hb, came_from s b (Some (sg_n a, pa)) w hb /\
        sg_conds a = override_last (start_altitude (w_kind w)) (sg_n a) pa /\ alt_ok pa.
Proof.
  induction segs as [|s segs IH]; intros p out Hu Ha H.
  - cbn in H. injection H as <-. exists None, p, []. repeat (split; [reflexivity|]). intros [|k] ? ? ? X; discriminate.
  - cbn [run_mission] in H. inversion Hu as [|? ? [Hz [Hc Hn]] Hu']; subst.
    destruct (evaluate_segment _ _ _ _ _) as [w|] eqn:E; [|discriminate].
    destruct (evaluate_joins _ _ _ _ (World (Some (sg_n p, sg_conds p)) (sg_n s) (sg_kind s) (sg_numerics s) (sg_conds s)) _ (sg_n p) (sg_conds p) Hz Hc eq_refl E) as (En & J1 & _). cbn in En.
    destruct (run_mission (Some (after s w)) segs) as [out'|] eqn:E'; [|discriminate].
    assert (Ha' : alt_ok (sg_conds (after s w)))
      by exact (evaluated_alt _ _ _ _ (World (Some (sg_n p, sg_conds p)) (sg_n s) (sg_kind s) (sg_numerics s) (sg_conds s)) _ Hz Hc E).
    destruct (IH _ _ Hu' Ha' E') as (h & q & rest & -> & Q1 & Q2 & Q3 & Q4 & Q5 & Q6 & Q7).
    rewrite J1 in H. cbn [app] in H. apply some_inj in H. subst out.
    exists (start_altitude (w_kind w)), (with_conds (override_last (start_altitude (w_kind w)) (sg_n p) (sg_conds p)) p), (q :: rest).
    repeat (split; [first [reflexivity|cbn; congruence]|]).
    intros [|k] s' a b X Y Z.
    + cbn in X, Y, Z. injection X as <-. injection Y as <-. injection Z as <-.
      exists (sg_conds p), w, h. split; [|split; [reflexivity|exact Ha]].
      split; [exact E|]. repeat split; assumption.
    + cbn in X. apply (Q7 k s' a b X Y Z).
Qed.
Lemma mission_each : forall segs out, Forall usable segs -> evaluate_mission segs = Some out ->
  forall s b, evaluated segs out s b -> exists pr w h, came_from s b pr w h.
Proof.
  intros [|s0 segs] out Hu H s b (k & X & Y); unfold evaluate_mission in H; cbn [run_mission] in H.
  - destruct k; discriminate.
  - inversion Hu as [|? ? [Hz [Hc Hn]] Hu']; subst.
    destruct (evaluate_segment _ _ _ _ _) as [w|] eqn:E; [|discriminate].
    destruct (run_mission (Some (after s0 w)) segs) as [out'|] eqn:E'; [|discriminate].
    apply some_inj in H. subst out. cbn [app] in Y.
    assert (Ha' : alt_ok (sg_conds (after s0 w)))
      by exact (evaluated_alt _ _ _ _ (World None (sg_n s0) (sg_kind s0) (sg_numerics s0) (sg_conds s0)) _ Hz Hc E).
    destruct (run_mission_each _ _ _ Hu' Ha' E') as (h & q & rest & -> & Q1 & Q2 & Q3 & Q4 & Q5 & Q6 & Q7).
    destruct k as [|k].
    + cbn in X, Y. injection X as <-. injection Y as <-. exists None, w, h. split; [exact E|]. repeat split; assumption.
    + cbn in X. destruct (nth_error (q :: rest) k) as [a|] eqn:A.
      * destruct (Q7 k s a b X A Y) as (pa & v & hb & C & _). exists (Some (sg_n a, pa)), v, hb. exact C.
      * apply nth_error_None in A. assert (T : nth_error (q :: rest) (S k) = None) by (apply nth_error_None; lia). congruence.
Qed.
Lemma mission_pairs : forall segs out, Forall usable segs -> evaluate_mission segs = Some out ->
  forall k s a b, nth_error segs (S k) = Some s -> nth_error out k = Some a -> nth_error out (S k) = Some b ->
    exists pa w h, came_from s b (Some (sg_n a, pa)) w h /\
      sg_conds a = override_last (start_altitude (w_kind w)) (sg_n a) pa /\ alt_ok pa.
Proof.
  intros [|s0 segs] out Hu H k s a b X Y Z; unfold evaluate_mission in H; cbn [run_mission] in H; [discriminate|].
  inversion Hu as [|? ? [Hz [Hc Hn]] Hu']; subst.
  destruct (evaluate_segment _ _ _ _ _) as [w|] eqn:E; [|discriminate].
  destruct (run_mission (Some (after s0 w)) segs) as [out'|] eqn:E'; [|discriminate].
  apply some_inj in H. subst out. cbn [app] in Y, Z.
  assert (Ha' : alt_ok (sg_conds (after s0 w)))
    by exact (evaluated_alt _ _ _ _ (World None (sg_n s0) (sg_kind s0) (sg_numerics s0) (sg_conds s0)) _ Hz Hc E).
  destruct (run_mission_each _ _ _ Hu' Ha' E') as (h & q & rest & -> & Q1 & Q2 & Q3 & Q4 & Q5 & Q6 & Q7).
  exact (Q7 k s a b X Y Z).
Qed.
Lemma usable_of : forall segs out s b, Forall usable segs -> evaluated segs out s b -> usable s.
Proof.
  intros segs out s b Hu (k & X & _). rewrite Forall_forall in Hu. apply Hu. exact (nth_error_In _ _ X).
Qed.

(** everything but the last height survives the next segment's start *)
Lemma override_same : forall h n c, time (override_last h n c) = time c /\ vel (override_last h n c) = vel c /\
  alt (override_last h n c) = alt c /\ rot (override_last h n c) = rot c /\ speed (override_last h n c) = speed c /\
  mach (override_last h n c) = mach c /\ dynp (override_last h n c) = dynp c /\ range (override_last h n c) = range c.
Proof. intros [h|] n c; repeat split. Qed.

Record story (s b : segment) (w w1 : world) : Prop := {
  st_init : exists pr, run_steps (sg_analyses s) (sg_settings s) (sg_unknowns s) (initialize_steps (sg_settings s) (sg_kind s))
    (World pr (sg_n s) (sg_kind s) (sg_numerics s) (sg_conds s)) = Some w1 /\ w_prev w1 = pr /\
    evaluate_segment (sg_analyses s) (sg_settings s) (sg_unknowns s) (sg_calls s)
    (World pr (sg_n s) (sg_kind s) (sg_numerics s) (sg_conds s)) = Some w;
  st_n : sg_n b = sg_n s;  st_n' : w_n w = sg_n s;
  st_kind : sg_kind b = w_kind w; st_kind1 : w_kind w = w_kind w1;
  st_set : sg_settings b = sg_settings s; st_an : sg_analyses b = sg_analyses s;
  st_time : time (sg_conds b) = time (w_cur w); st_vel : vel (sg_conds b) = vel (w_cur w);
  st_alt : alt (sg_conds b) = alt (w_cur w); st_rot : rot (sg_conds b) = rot (w_cur w);
  st_speed : speed (sg_conds b) = speed (w_cur w); st_mach : mach (sg_conds b) = mach (w_cur w);
  st_dynp : dynp (sg_conds b) = dynp (w_cur w); st_range : range (sg_conds b) = range (w_cur w);
  st_good : good (sg_analyses s) (sg_settings s) w;
  st_kept : timed (w_kind w1) -> kept (sg_settings s) w1 w;
  st_clock : ~ solves_altitude (w_kind w1) -> clock_ok w;
  st_flown : forall i, range (w_cur w) i = range (w_cur w) 0%nat + mulv (w_n w) (t_I (w_num w)) (fun j => vx (vel (w_cur w) j)) i
}.
Lemma story_from : forall s b pr w h, usable s -> came_from s b pr w h -> exists w1, story s b w w1 /\ w_prev w1 = pr.
Proof.
  intros s b pr w h Hu (E & C1 & C2 & C3 & C4 & C5).
  destruct Hu as (Hz & Hc & _).
  destruct (evaluate_summary (sg_analyses s) (sg_settings s) (sg_unknowns s) (sg_calls s)
    (World pr (sg_n s) (sg_kind s) (sg_numerics s) (sg_conds s)) _ Hz Hc E) as (w1 & A1 & A2 & A3 & A4 & A5 & A6 & A7).
  cbn in A1, A6.
  destruct (initialize_sets (sg_analyses s) (sg_settings s) (sg_unknowns s) (World pr (sg_n s) (sg_kind s) (sg_numerics s) (sg_conds s)) _ Hz A1) as (P & _).
  exists w1. split; [|exact P].
  destruct (override_same h (w_n w) (w_cur w)) as (O1 & O2 & O3 & O4 & O5 & O6 & O7 & O8).
  constructor; try rewrite C5; try assumption; try congruence. exists pr. auto.
Qed.
Lemma story_of : forall segs out s b, Forall usable segs -> evaluate_mission segs = Some out ->
  evaluated segs out s b -> exists w w1, story s b w w1.
Proof.
  intros segs out s b Hu H Hb. destruct (mission_each _ _ Hu H _ _ Hb) as (pr & w & h & C).
  destruct (story_from _ _ _ _ _ (usable_of _ _ _ _ Hu Hb) C) as (w1 & S & _). eauto.
Qed.

(** ** What climbs and descents do *)
Lemma resolve_same : forall k h0 p, start_altitude k = h0 -> resolve_altitude (start_altitude k) p = resolve_altitude h0 p.
Proof. intros. now subst. Qed.
Lemma climb_story : forall s b w w1 h0 altf law, usable s -> story s b w w1 -> sg_kind s = Climbing h0 altf law ->
  let x := xof (sg_settings s) (sg_n s) in
  exists alt0, resolve_altitude h0 (w_prev w1) = Some alt0 /\
    let h i := x i * (altf - alt0) + alt0 in
    let cv := climb_velocity (sg_analyses s) (deviation s) x h alt0 altf law
                (climb_prepare (sg_analyses s) (deviation s) h law (sg_conds s)) in
    (forall i, altitude b i = h i) /\
    (forall i, vel (sg_conds b) i = V3 (fst cv i) (vy (vel (sg_conds s) i)) (snd cv i)) /\
    (forall i, since_start b i = x i * Sum (sg_n s) (fun j => Iof (sg_settings s) (sg_n s) (last_row (sg_n s)) j
                                              * (- h (last_row (sg_n s)) - - h 0%nat) * (1 / snd cv j))) /\
    kept (sg_settings s) w1 w.
Proof.
  intros s b w w1 h0 altf law [Hz [Hc Hn]] S Hk x.
  destruct (st_init _ _ _ _ S) as (pr & E & P & V). rewrite Hk in E.
  destruct (climb_init _ _ _ _ _ _ _ _ _ _ _ E) as (alt0 & R & A1 & A2 & A3 & A4 & A5 & A6).
  cbv zeta in A1, A2, A3. fold x in A1, A2, A3.
  assert (K : kept (sg_settings s) w1 w) by (apply (st_kept _ _ _ _ S); rewrite A4; exact Logic.I).
  exists alt0. split; [rewrite P; exact R|]. cbv zeta.
  assert (X0 : x 0%nat = 0) by (destruct Hz as [X _]; exact X).
  assert (Z0 : zof w 0%nat = - alt0).
  { refine (first_height _ _ _ _ _ _ _ _ _ Hc V K P _ _ _).
    - exact Hz.
    - left. rewrite (k_kind _ _ _ K), A4. cbn [w_kind]. rewrite Hk. reflexivity.
    - cbn [w_kind w_prev]. rewrite Hk. exact R.
    - rewrite A1, X0. ring. }
  split; [|split; [|split]].
  - intro i. unfold altitude. rewrite (st_alt _ _ _ _ S). destruct (st_good _ _ _ _ S) as (F & _).
    rewrite (f_alt _ _ _ _ (F i)). fold (zof w i).
    pose proof (k_z _ _ _ K i) as Kz. rewrite Z0, !A1, X0 in Kz. lra.
  - intro i. rewrite (st_vel _ _ _ _ S), (k_vel _ _ _ K); [apply A2|rewrite A4; exact Logic.I].
  - intro i. unfold since_start. rewrite (st_time _ _ _ _ S). fold (tof w i) (tof w 0%nat).
    rewrite (k_time _ _ _ K), !A3, X0. unfold last_row, deviation. ring.
  - exact K.
Qed.


Lemma norm_horizontal : forall v r, Rabs r <= v -> norm (V3 (horizontal v r) 0 r) = v.
Proof.
  intros v r H. unfold norm, vdot, horizontal. cbn [vx vy vz].
  assert (V : 0 <= v) by (pose proof (Rabs_pos r); lra).
  assert (Q : 0 <= v ^ 2 - r ^ 2).
  { assert (r ^ 2 <= v ^ 2); [|lra]. rewrite <- (pow2_abs r). apply pow_incr. split; [apply Rabs_pos|exact H]. }
  rewrite sqrt_sqrt by exact Q.
  replace (v ^ 2 - r ^ 2 + 0 * 0 + r * r) with (v * v) by ring. apply sqrt_square. exact V.
Qed.
Lemma norm_polar : forall v a, 0 <= v -> norm (V3 (v * cos a) 0 (- v * sin a)) = v.
Proof.
  intros v a H. unfold norm, vdot. cbn [vx vy vz].
  replace (v * cos a * (v * cos a) + 0 * 0 + - v * sin a * (- v * sin a)) with (v * v * (Rsqr (sin a) + Rsqr (cos a))) by (unfold Rsqr; ring).
  rewrite sin2_cos2, Rmult_1_r. apply sqrt_square. exact H.
Qed.
Lemma norm_polar' : forall v a, 0 <= v -> norm (V3 (cos a * v) 0 (- (sin a * v))) = v.
Proof.
  intros v a H. rewrite <- (norm_polar v a H) at 3. f_equal. f_equal; ring.
Qed.
Lemma air_speed_norm : forall s b w w1 i, story s b w w1 -> air_speed b i = norm (vel (sg_conds b) i).
Proof.
  intros s b w w1 i S. unfold air_speed. rewrite (st_speed _ _ _ _ S), (st_vel _ _ _ _ S).
  destruct (st_good _ _ _ _ S) as (F & _). apply (f_speed _ _ _ _ (F i)).
Qed.
Ltac nh := rewrite norm_horizontal; [|rewrite ?Rabs_Ropp; assumption].
Lemma climb_speed : forall s b w w1 h0 altf law i v, usable s -> story s b w w1 -> sg_kind s = Climbing h0 altf law ->
  no_sideways s -> asked_speed s law (xof (sg_settings s) (sg_n s) i) (altitude b i) = Some v -> possible law v ->
  air_speed b i = v.
Proof.
  intros s b w w1 h0 altf law i v Hu S Hk Hy Hv Hp.
  rewrite (air_speed_norm _ _ _ _ i S).
  destruct (climb_story _ _ _ _ _ _ _ Hu S Hk) as (alt0 & Rs & A1 & A2 & A3 & K).
  cbv zeta in A1, A2. rewrite A2, Hy. rewrite A1 in Hv.
  destruct law; cbn [asked_speed climb_velocity climb_prepare fst snd] in *; try discriminate;
    apply some_inj in Hv; unfold sound_at, density_at in Hv; unfold possible in Hp; cbn [asked_rate] in Hp; try rewrite Rabs_Ropp in Hp;
    cbn [rho sound press update_atmosphere set_visc set_sound set_rho set_temp set_press set_alt alt].
  - subst v0. nh. reflexivity.
  - subst v0. apply norm_polar. exact Hp.
  - subst v0. apply norm_polar'. exact Hp.
  - replace ((vf - v0) * xof (sg_settings s) (sg_n s) i + v0) with v by (subst v; ring). nh. reflexivity.
  - rewrite <- Hv. nh. reflexivity.
  - rewrite <- Hv. apply norm_polar'. exact Hp.
  - match goal with |- norm (V3 (horizontal ?e _) _ _) = _ => replace e with v by (subst v; ring) end. nh. reflexivity.
  - rewrite <- Hv. nh. reflexivity.
  - subst v0. nh. reflexivity.
  - subst v0. rewrite (norm_polar v (- angle) Hp). reflexivity.
  - match goal with |- norm (V3 (horizontal ?e _) _ _) = _ => replace e with v by (subst v; ring) end. nh. reflexivity.
  - rewrite <- Hv. nh. reflexivity.
Qed.
Lemma climb_rate_asked : forall s b w w1 h0 altf law i r, usable s -> story s b w w1 -> sg_kind s = Climbing h0 altf law ->
  asked_rate law = Some r -> climb_rate b i = r.
Proof.
  intros s b w w1 h0 altf law i r Hu S Hk Hr.
  destruct (climb_story _ _ _ _ _ _ _ Hu S Hk) as (alt0 & Rs & A1 & A2 & A3 & K).
  unfold climb_rate. cbv zeta in A2. rewrite A2. cbn [vz].
  destruct law; cbn [asked_rate climb_velocity fst snd] in *; try discriminate; apply some_inj in Hr; subst r; try ring.
  rewrite sin_neg. ring.
Qed.
(** the altitude follows the clock at the climb rate *)
Lemma climb_clock : forall s b w w1 h0 altf law r, usable s -> story s b w w1 -> sg_kind s = Climbing h0 altf law ->
  asked_rate law = Some r -> r <> 0 -> integrates_constants (sg_settings s) (sg_n s) ->
  ends_at_one (sg_settings s) (sg_n s) ->
  forall i, altitude b i - altitude b 0%nat = r * since_start b i.
Proof.
  intros s b w w1 h0 altf law r Hu S Hk Hr Hr0 Hi He i.
  destruct (climb_story _ _ _ _ _ _ _ Hu S Hk) as (alt0 & Rs & A1 & A2 & A3 & K).
  cbv zeta in A1, A2, A3. rewrite !A1, A3.
  assert (X0 : xof (sg_settings s) (sg_n s) 0%nat = 0) by (destruct Hu as [[X _] _]; exact X).
  assert (X1 : xof (sg_settings s) (sg_n s) (last_row (sg_n s)) = 1) by exact He.
  rewrite X0, X1.
  assert (V : forall j, - (snd (climb_velocity (sg_analyses s) (deviation s) (xof (sg_settings s) (sg_n s))
             (fun i0 => xof (sg_settings s) (sg_n s) i0 * (altf - alt0) + alt0) alt0 altf law
             (climb_prepare (sg_analyses s) (deviation s) (fun i0 => xof (sg_settings s) (sg_n s) i0 * (altf - alt0) + alt0) law (sg_conds s))) j) = r).
  { intro j. rewrite <- (climb_rate_asked _ _ _ _ _ _ _ j r Hu S Hk Hr). unfold climb_rate. rewrite A2. reflexivity. }
  rewrite (Sum_ext _ _ (fun j => ((altf - alt0) / r) * Iof (sg_settings s) (sg_n s) (last_row (sg_n s)) j)).
  - rewrite Sum_scal. unfold integrates_constants in Hi.
    assert (Hs : Sum (sg_n s) (Iof (sg_settings s) (sg_n s) (last_row (sg_n s))) = 1) by exact Hi.
    rewrite Hs. field. exact Hr0.
  - intros j _. specialize (V j). match goal with |- _ * _ * (1 / ?e) = _ => replace e with (- r) by lra end.
    field. exact Hr0.
Qed.

(** ** What level segments do *)
Lemma other_story : forall s b w w1, usable s -> story s b w w1 -> init_table (sg_kind s) = [S_differentials; S_conditions] ->
  exists nu' w0, nd_x nu' = xof (sg_settings s) (sg_n s) /\ nd_I nu' = Iof (sg_settings s) (sg_n s) /\
    init_conditions (sg_analyses s) (sg_settings s) (sg_unknowns s) (World (w_prev w1) (sg_n s) (sg_kind s) nu' (sg_conds s)) = Some w0 /\
    pos (w_cur w1) = pos (w_cur w0) /\ vel (w_cur w1) = vel (w_cur w0) /\
    time (w_cur w1) = time (w_cur w0) /\ rot (w_cur w1) = rot (w_cur w0) /\ w_kind w1 = w_kind w0.
Proof.
  intros s b w w1 Hu S Hk. destruct (st_init _ _ _ _ S) as (pr & E & P & V).
  destruct (other_init _ _ _ _ _ _ _ _ _ Hk E) as (nu' & w0 & B1 & B2 & B3 & B4 & B5 & B6 & B7 & B8 & B9 & B10).
  exists nu', w0. rewrite P. repeat split; assumption.
Qed.
Lemma seg_height0 : forall s b w w1 a, usable s -> story s b w w1 -> kept (sg_settings s) w1 w ->
  (start_altitude (w_kind w) = start_altitude (sg_kind s) \/ start_altitude (w_kind w) = Some a) ->
  resolve_altitude (start_altitude (sg_kind s)) (w_prev w1) = Some a -> zof w1 0%nat = - a -> zof w 0%nat = - a.
Proof.
  intros s b w w1 a [Hz [Hc Hn]] S K Hk Ha H1.
  destruct (st_init _ _ _ _ S) as (pr & E & P & V).
  refine (first_height _ _ _ _ (World pr (sg_n s) (sg_kind s) (sg_numerics s) (sg_conds s)) _ _ _ Hz Hc V K P Hk _ H1). cbn. rewrite <- P. exact Ha.
Qed.
Lemma cruise_story : forall s b w w1 h0 law, usable s -> story s b w w1 -> sg_kind s = Cruising h0 law ->
  let x := xof (sg_settings s) (sg_n s) in
  exists h c' k', resolve_altitude h0 (w_prev w1) = Some h /\
    init_cruise (sg_analyses s) (deviation s) (w_prev w1) x h0 law (sg_conds s) = Some (c', k') /\
    (forall i, altitude b i = h) /\
    (forall i, since_start b i = time c' i - time c' 0%nat) /\
    (speed_set (Cruising h0 law) -> vel (sg_conds b) = vel c') /\
    (pitch_held (sg_settings s) (Cruising h0 law) -> forall i, pitch b i = vy (rot c' i)) /\ kept (sg_settings s) w1 w.
Proof.
  intros s b w w1 h0 law Hu S Hk x.
  destruct (other_story _ _ _ _ Hu S) as (nu' & w0 & N1 & N2 & E & B1 & B2 & B3 & B4 & B5); [rewrite Hk; reflexivity|].
  rewrite Hk in E. unfold init_conditions in E. cbn [w_kind w_cur w_prev w_num] in E. cbv zeta in E. rewrite N1 in E.
  fold x in E. fold (deviation s) in E.
  destruct (init_cruise (sg_analyses s) (deviation s) (w_prev w1) x h0 law (sg_conds s)) as [[c' k']|] eqn:Ei; [|discriminate].
  apply some_inj in E. subst w0. cbn [set_kind set_cur w_cur w_kind] in B1, B2, B3, B4, B5.
  assert (Q : exists h, resolve_altitude h0 (w_prev w1) = Some h /\ (forall i, vz (pos c' i) = - h) /\
      (exists law', k' = Cruising h0 law' \/ k' = Cruising (Some h) law') /\ timed k' /\
      (speed_set (Cruising h0 law) -> speed_set k') /\ (pitch_held (sg_settings s) (Cruising h0 law) -> pitch_held (sg_settings s) k')).
  { unfold init_cruise in Ei. destruct (resolve_altitude h0 (w_prev w1)) as [h|]; [|discriminate]. exists h. split; [reflexivity|].
    destruct law; try destruct (resolve_pitch _ _); try discriminate; cbv zeta in Ei; injection Ei as <- <-;
      (split; [intro i; reflexivity|split; [eexists; first [left; reflexivity|right; reflexivity]|split; [exact Logic.I|split; intro X; exact X]]]). }
  destruct Q as (h & R & Z & (law' & Kq) & Tk & Sk & Pk).
  assert (K : kept (sg_settings s) w1 w) by (apply (st_kept _ _ _ _ S); rewrite B5; exact Tk).
  exists h, c', k'. split; [exact R|]. split; [reflexivity|].
  assert (Z0 : zof w 0%nat = - h).
  { refine (seg_height0 _ _ _ _ _ Hu S K _ _ _).
    - rewrite (k_kind _ _ _ K), B5, Hk. destruct Kq as [-> | ->]; cbn; auto.
    - rewrite Hk. exact R.
    - unfold zof. rewrite B1. apply Z. }
  split; [|split; [|split; [|split]]].
  - intro i. unfold altitude. rewrite (st_alt _ _ _ _ S). destruct (st_good _ _ _ _ S) as (F & _).
    rewrite (f_alt _ _ _ _ (F i)). fold (zof w i).
    pose proof (k_z _ _ _ K i) as Kz. unfold zof in Kz at 3 4. rewrite Z0, B1, !Z in Kz. lra.
  - intro i. unfold since_start. rewrite (st_time _ _ _ _ S). fold (tof w i) (tof w 0%nat).
    rewrite (k_time _ _ _ K). unfold tof. now rewrite B3.
  - intro Hs. rewrite (st_vel _ _ _ _ S), (k_vel _ _ _ K); [exact B2|]. rewrite B5. apply Sk. exact Hs.
  - intros Hp i. unfold pitch. rewrite (st_rot _ _ _ _ S). fold (pitch_of w i). rewrite (k_pitch _ _ _ K).
    + unfold pitch_of. now rewrite B4.
    + rewrite B5. apply Pk. exact Hp.
  - exact K.
Qed.

(** ** Vertical hover and transition *)
Lemma hover_story : forall s b w w1 h0 altf rate dz vs, usable s -> story s b w w1 ->
  (sg_kind s = Hover_climb h0 altf rate /\ dz = 1 /\ vs = -1 \/ sg_kind s = Hover_descent h0 altf rate /\ dz = -1 /\ vs = 1) ->
  let x := xof (sg_settings s) (sg_n s) in
  exists alt0, resolve_altitude h0 (w_prev w1) = Some alt0 /\
    (forall i, altitude b i = x i * (altf - alt0) + alt0) /\
    (forall i, vel (sg_conds b) i = V3 0 (vy (vel (sg_conds s) i)) (vs * rate)) /\
    (forall i, since_start b i = x i * (dz * (altf - alt0) / rate)) /\ kept (sg_settings s) w1 w.
Proof.
  intros s b w w1 h0 altf rate dz vs Hu S Hk x.
  destruct (other_story _ _ _ _ Hu S) as (nu' & w0 & N1 & N2 & E & B1 & B2 & B3 & B4 & B5); [destruct Hk as [[-> _]|[-> _]]; reflexivity|].
  assert (Ei : exists c', init_hover_vertical dz vs (w_prev w1) x h0 altf rate (sg_conds s) = Some c' /\
     w0 = set_cur c' (World (w_prev w1) (sg_n s) (sg_kind s) nu' (sg_conds s)) /\ start_altitude (sg_kind s) = h0 /\ speed_set (sg_kind s)).
  { destruct Hk as [(Hk & -> & ->)|(Hk & -> & ->)]; rewrite Hk in E |- *; unfold init_conditions in E; cbn [w_kind w_cur w_prev w_num] in E;
      cbv zeta in E; rewrite N1 in E; fold x in E;
      destruct (init_hover_vertical _ _ (w_prev w1) x h0 altf rate (sg_conds s)) as [c'|]; try discriminate;
      apply some_inj in E; exists c'; (split; [reflexivity|split; [exact E|split; [reflexivity|exact Logic.I]]]). }
  destruct Ei as (c' & Ei & -> & H0 & HS). cbn [set_cur w_cur w_kind] in B1, B2, B3, B4, B5.
  assert (K : kept (sg_settings s) w1 w).
  { apply (st_kept _ _ _ _ S). rewrite B5. destruct (sg_kind s) as [| ? []| | | | | | | | |]; try contradiction; exact Logic.I. }
  unfold init_hover_vertical in Ei. destruct (resolve_altitude h0 (w_prev w1)) as [alt0|] eqn:R; [|discriminate].
  cbv zeta in Ei. apply some_inj in Ei. exists alt0. split; [reflexivity|].
  assert (X0 : x 0%nat = 0) by (destruct Hu as [[X _] _]; exact X).
  assert (Z1 : forall i, zof w1 i = - (x i * (altf - alt0) + alt0)) by (intro i; unfold zof; rewrite B1, Ei; reflexivity).
  assert (Z0 : zof w 0%nat = - alt0).
  { refine (seg_height0 _ _ _ _ _ Hu S K _ _ _).
    - left. rewrite (k_kind _ _ _ K), B5. reflexivity.
    - rewrite H0. exact R.
    - rewrite Z1, X0. ring. }
  split; [|split; [|split]].
  - intro i. unfold altitude. rewrite (st_alt _ _ _ _ S). destruct (st_good _ _ _ _ S) as (F & _).
    rewrite (f_alt _ _ _ _ (F i)). fold (zof w i).
    pose proof (k_z _ _ _ K i) as Kz. rewrite Z0, !Z1, X0 in Kz. lra.
  - intro i. rewrite (st_vel _ _ _ _ S), (k_vel _ _ _ K); [|rewrite B5; exact HS]. rewrite B2, Ei. reflexivity.
  - intro i. unfold since_start. rewrite (st_time _ _ _ _ S). fold (tof w i) (tof w 0%nat).
    rewrite (k_time _ _ _ K). unfold tof. rewrite B3, Ei. cbn. rewrite X0. ring.
  - exact K.
Qed.
Lemma transition_story : forall s b w w1 h0 altf angle v0 ax T0 Tf, usable s -> story s b w w1 ->
  sg_kind s = Transition_climb h0 altf angle v0 ax T0 Tf ->
  let x := xof (sg_settings s) (sg_n s) in
  exists alt0 T c', resolve_altitude h0 (w_prev w1) = Some alt0 /\ resolve_pitch T0 (w_prev w1) = Some T /\
    init_transition_climb (w_prev w1) x h0 altf angle v0 ax T0 Tf (sg_conds s) = Some c' /\
    (forall i, altitude b i = x i * (altf - alt0) + alt0) /\
    vel (sg_conds b) = vel c' /\
    (forall i, since_start b i = time c' i - time c' 0%nat) /\
    (unpack_skipped (sg_settings s) = true -> forall i, pitch b i = vy (rot c' i)) /\ kept (sg_settings s) w1 w.
Proof.
  intros s b w w1 h0 altf angle v0 ax T0 Tf Hu S Hk x.
  destruct (other_story _ _ _ _ Hu S) as (nu' & w0 & N1 & N2 & E & B1 & B2 & B3 & B4 & B5); [rewrite Hk; reflexivity|].
  rewrite Hk in E. unfold init_conditions in E; cbn [w_kind w_cur w_prev w_num] in E; cbv zeta in E; rewrite N1 in E; fold x in E.
  destruct (init_transition_climb (w_prev w1) x h0 altf angle v0 ax T0 Tf (sg_conds s)) as [c'|] eqn:Ei; [|discriminate].
  apply some_inj in E. subst w0. cbn [set_cur w_cur w_kind] in B1, B2, B3, B4, B5.
  assert (K : kept (sg_settings s) w1 w) by (apply (st_kept _ _ _ _ S); rewrite B5; exact Logic.I).
  pose proof Ei as Ei'. unfold init_transition_climb in Ei'.
  destruct (resolve_altitude h0 (w_prev w1)) as [alt0|] eqn:R; [|discriminate].
  destruct (resolve_pitch T0 (w_prev w1)) as [T|] eqn:RT; [|discriminate].
  match type of Ei' with match ?m with _ => _ end = _ => destruct m as [v|] eqn:Ev; [|discriminate] end.
  cbv zeta in Ei'. apply some_inj in Ei'. exists alt0, T, c'. split; [reflexivity|]. split; [reflexivity|]. split; [reflexivity|].
  assert (X0 : x 0%nat = 0) by (destruct Hu as [[X _] _]; exact X).
  assert (Z1 : forall i, zof w1 i = - (x i * (altf - alt0) + alt0)) by (intro i; unfold zof; rewrite B1, Ei'; reflexivity).
  assert (Z0 : zof w 0%nat = - alt0).
  { refine (seg_height0 _ _ _ _ _ Hu S K _ _ _).
    - left. rewrite (k_kind _ _ _ K), B5, Hk. reflexivity.
    - rewrite Hk. exact R.
    - rewrite Z1, X0. ring. }
  split; [|split; [|split; [|split]]].
  - intro i. unfold altitude. rewrite (st_alt _ _ _ _ S). destruct (st_good _ _ _ _ S) as (F & _).
    rewrite (f_alt _ _ _ _ (F i)). fold (zof w i).
    pose proof (k_z _ _ _ K i) as Kz. rewrite Z0, !Z1, X0 in Kz. lra.
  - rewrite (st_vel _ _ _ _ S), (k_vel _ _ _ K); [exact B2|]. rewrite B5. exact Logic.I.
  - intro i. unfold since_start. rewrite (st_time _ _ _ _ S). fold (tof w i) (tof w 0%nat).
    rewrite (k_time _ _ _ K). unfold tof. now rewrite B3.
  - intros Hp i. unfold pitch. rewrite (st_rot _ _ _ _ S). fold (pitch_of w i). rewrite (k_pitch _ _ _ K).
    + unfold pitch_of. now rewrite B4.
    + left. exact Hp.
  - exact K.
Qed.

(** ** Distances *)
Lemma flown_const : forall s b w w1 v, usable s -> story s b w w1 -> timed (w_kind w1) ->
  integrates_constants (sg_settings s) (sg_n s) -> (forall i, point b i -> ground_speed b i = v) ->
  distance_flown b = v * elapsed b.
Proof.
  intros s b w w1 v Hu S Hk Hi Hv.
  assert (K : kept (sg_settings s) w1 w) by (apply (st_kept _ _ _ _ S); exact Hk).
  assert (C : clock_ok w) by (apply (st_clock _ _ _ _ S); intro X; destruct (w_kind w1); contradiction).
  assert (NI : nd_I (w_num w) = Iof (sg_settings s) (sg_n s)).
  { destruct (k_ndx _ _ _ K) as [_ ->]. destruct Hu as [Hz _]. destruct (st_init _ _ _ _ S) as (pr & E & _).
    destruct (initialize_sets (sg_analyses s) (sg_settings s) (sg_unknowns s) (World pr (sg_n s) (sg_kind s) (sg_numerics s) (sg_conds s)) _ Hz E) as (_ & _ & _ & _ & _ & X). exact X. }
  unfold distance_flown, elapsed. rewrite (st_range _ _ _ _ S), (st_time _ _ _ _ S), (st_n _ _ _ _ S).
  rewrite (st_flown _ _ _ _ S (last_row (sg_n s))), (st_n' _ _ _ _ S). unfold mulv.
  rewrite (Sum_ext _ _ (fun j => (v * (tof w (last_row (sg_n s)) - tof w 0%nat)) * Iof (sg_settings s) (sg_n s) (last_row (sg_n s)) j)).
  - rewrite Sum_scal. assert (Hs : Sum (sg_n s) (Iof (sg_settings s) (sg_n s) (last_row (sg_n s))) = 1) by exact Hi.
    rewrite Hs. unfold tof. ring.
  - intros j Hj. rewrite (C _ _), NI, (st_n' _ _ _ _ S).
    assert (G : vx (vel (w_cur w) j) = v).
    { rewrite <- (Hv j); [unfold ground_speed; now rewrite (st_vel _ _ _ _ S)|]. unfold point. rewrite (st_n _ _ _ _ S). exact Hj. }
    rewrite G. unfold last_row. ring.
Qed.

(** ** Inherited altitudes *)
Lemma timed_first : forall s b w w1, usable s -> story s b w w1 -> timed (sg_kind s) ->
  resolve_altitude (start_altitude (sg_kind s)) (w_prev w1) = Some (altitude b 0%nat).
Proof.
  intros s b w w1 Hu S Hk.
  assert (X0 : xof (sg_settings s) (sg_n s) 0%nat = 0) by (destruct Hu as [[X _] _]; exact X).
  destruct (sg_kind s) as [h altf law|h law|h altf r|h altf r|h altf an v0 ax T0 Tf| | | | | | ] eqn:E; try contradiction; cbn [start_altitude].
  - destruct (climb_story _ _ _ _ _ _ _ Hu S E) as (a & R & A & _). rewrite R, A, X0. f_equal. ring.
  - destruct (cruise_story _ _ _ _ _ _ Hu S E) as (a & c' & k' & R & _ & A & _). rewrite R, A. reflexivity.
  - destruct (hover_story _ _ _ _ h altf r 1 (-1) Hu S) as (a & R & A & _); [left; auto|]. rewrite R, A, X0. f_equal. ring.
  - destruct (hover_story _ _ _ _ h altf r (-1) 1 Hu S) as (a & R & A & _); [right; auto|]. rewrite R, A, X0. f_equal. ring.
  - destruct (transition_story _ _ _ _ _ _ _ _ _ _ _ Hu S E) as (a & T & c' & R & _ & _ & A & _). rewrite R, A, X0. f_equal. ring.
Qed.
Lemma mission_inherit : forall segs out, Forall usable segs -> evaluate_mission segs = Some out ->
  forall k s a b, nth_error segs (S k) = Some s -> nth_error out k = Some a -> nth_error out (S k) = Some b ->
    timed (sg_kind s) -> start_altitude (sg_kind s) = None ->
    altitude b 0%nat = altitude a (last_row (sg_n a)).
Proof.
  intros segs out Hu H k s a b X Y Z Hk Hn.
  destruct (mission_pairs _ _ Hu H k s a b X Y Z) as (pa & w & h & C & Ca & Ha).
  assert (Us : usable s) by (rewrite Forall_forall in Hu; apply Hu; exact (nth_error_In _ _ X)).
  destruct (story_from _ _ _ _ _ Us C) as (w1 & S & P).
  pose proof (timed_first _ _ _ _ Us S Hk) as T. rewrite Hn, P in T. cbn in T. apply some_inj in T.
  rewrite T. unfold altitude. rewrite Ca.
  destruct (override_same (start_altitude (w_kind w)) (sg_n a) pa) as (_ & _ & O & _). rewrite O, (Ha _). unfold last_row. ring.
Qed.
