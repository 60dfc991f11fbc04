(** * Proofs about evaluating segments and missions *)
From Coq Require Import Reals List Bool Lra Lia.
From Verif Require Import M_Opt M_Rot M_Mission M_Segments S_Mission.
Import ListNotations.
Local Open Scope R_scope.
Local Open Scope list_scope.

Lemma Sum_ext : forall n f g, (forall j, (j < n)%nat -> f j = g j) -> Sum n f = Sum n g.
Proof.
  induction n as [|n IH]; intros f g H; cbn; [reflexivity|].
  rewrite (IH f g), (H n); [reflexivity|lia|intros; apply H; lia].
Qed.
Lemma Sum_zero : forall n f, (forall j, (j < n)%nat -> f j = 0) -> Sum n f = 0.
Proof.
  induction n as [|n IH]; intros f H; cbn; [reflexivity|].
  rewrite IH, H by (intros; try apply H; lia). ring.
Qed.
Lemma Sum_scal : forall n a f, Sum n (fun j => a * f j) = a * Sum n f.
Proof. induction n as [|n IH]; intros a f; cbn; [ring|rewrite IH; ring]. Qed.
Lemma Sum_plus : forall n f g, Sum n (fun j => f j + g j) = Sum n f + Sum n g.
Proof. induction n as [|n IH]; intros f g; cbn; [ring|rewrite IH; ring]. Qed.
Lemma mulv_zero_row : forall n A v i, (forall j, A i j = 0) -> mulv n A v i = 0.
Proof. intros n A v i H. unfold mulv. apply Sum_zero. intros. rewrite H. ring. Qed.

(** ** Invariants of the steps *)
Definition nd_ok (w : world) : Prop :=
  nd_x (w_num w) 0%nat = 0 /\ forall j, nd_I (w_num w) 0%nat j = 0.
Definition t_ok (w : world) : Prop := forall j, t_I (w_num w) 0%nat j = 0.

(** first row of the entries that are chained, height apart *)
Definition firsts (c : conds) : list R :=
  [time c 0%nat; mass c 0%nat; range c 0%nat; lat c 0%nat; lon c 0%nat;
   vx (pos c 0%nat); vy (pos c 0%nat)].
Definition first_z (c : conds) : R := vz (pos c 0%nat).

Lemma firsts_eq : forall c c', time c' 0%nat = time c 0%nat -> mass c' 0%nat = mass c 0%nat ->
  range c' 0%nat = range c 0%nat -> lat c' 0%nat = lat c 0%nat -> lon c' 0%nat = lon c 0%nat ->
  vx (pos c' 0%nat) = vx (pos c 0%nat) -> vy (pos c' 0%nat) = vy (pos c 0%nat) ->
  firsts c' = firsts c.
Proof. intros. unfold firsts. congruence. Qed.

(** steps of iterate after the initials *)
Definition later_step (s : step) : Prop :=
  match s with
  | S_unpack | S_differentials_time | S_differentials_optimized | S_acceleration
  | S_integrate_velocity | S_altitude | S_atmosphere | S_gravity | S_freestream | S_orientations
  | S_thrust | S_aerodynamics | S_weights | S_forces | S_ground_forces | S_forces_ground
  | S_velocities | S_differentials_throttle | S_battery => True
  | _ => False
  end.

Ltac dmatch :=
  repeat match goal with
  | H : Some _ = Some _ |- _ => injection H as <-
  | H : None = Some _ |- _ => discriminate H
  | H : context [match ?x with _ => _ end] |- _ => destruct x eqn:?; cbn beta iota in H
  end.


Ltac split_matches H :=
  repeat match type of H with
  | Some (_, _) = Some (_, _) => injection H as <- <-
  | Some _ = Some _ => injection H as <-
  | None = Some _ => discriminate H
  | match ?x with _ => _ end = Some _ => destruct x eqn:?
  | (let '(_, _) := ?x in _) = Some _ => destruct x eqn:?
  end.

Lemma nd_ok_same : forall w w', nd_ok w -> nd_x (w_num w') = nd_x (w_num w) ->
  nd_I (w_num w') = nd_I (w_num w) -> nd_ok w'.
Proof. intros w w' [A B] E1 E2. split; [rewrite E1|rewrite E2]; assumption. Qed.

Ltac rfl := first [reflexivity | cbn; congruence].
Ltac fin := split; [apply firsts_eq; cbn; rfl|split; [rfl|split; [rfl|split; [rfl|]]]];
  eapply nd_ok_same; [eassumption|reflexivity|reflexivity].

Lemma unpack_keeps : forall an st u w w', nd_ok w -> unpack an st u w = Some w' ->
  firsts (w_cur w') = firsts (w_cur w) /\ w_prev w' = w_prev w /\ w_n w' = w_n w /\
  w_kind w' = w_kind w /\ nd_ok w'.
Proof.
  intros an st u [p n k nu c] w' Hn H. unfold unpack in H. cbn [w_num w_cur w_n w_kind w_prev] in H.
  assert (T : forall t0 tf, timeline (nd_x nu 0%nat) t0 tf = t0).
  { intros. unfold timeline. destruct Hn as [Hx _]. cbn in Hx. rewrite Hx. ring. }
  assert (K : forall h0 f a c', altitude_unknown_step an (temperature_deviation st) p h0 f a u c = Some c' ->
            firsts c' = firsts c).
  { intros h0 f a c' E. unfold altitude_unknown_step in E. split_matches E.
    apply firsts_eq; reflexivity. }
  destruct k as [h altf law|h law| | | | | | | | | ]; try destruct law; split_matches H;
    try fin;
    try (split; [cbn [set_cur w_cur]; eapply K; eassumption|split; [reflexivity|split; [reflexivity|split; [reflexivity|]]]];
         eapply nd_ok_same; [eassumption|reflexivity|reflexivity]).
Qed.

Lemma later_keeps : forall an st u s w w', later_step s -> nd_ok w -> run_step an st u s w = Some w' ->
  firsts (w_cur w') = firsts (w_cur w) /\ w_prev w' = w_prev w /\ w_n w' = w_n w /\
  w_kind w' = w_kind w /\ nd_ok w'.
Proof.
  intros an st u s w w' Hs Hn H.
  destruct s; cbn in Hs; try contradiction; clear Hs; unfold run_step in H; cbv zeta in H.
  all: try (injection H as <-; fin).
  - split_matches H; fin.
  - destruct w as [p n k nu c]; cbn [w_kind w_prev w_num w_cur w_n] in H.
    destruct k; try (injection H as <-; fin).
    destruct (throttle_differentials n nu p alt0 altf c) eqn:E; [|discriminate].
    injection H as <-. unfold throttle_differentials in E. split_matches E.
    split; [|split; [reflexivity|split; [reflexivity|split; [reflexivity|]]]];
      [|eapply nd_ok_same; [eassumption|reflexivity|reflexivity]].
    apply firsts_eq; try reflexivity. cbn. destruct Hn as [Hx _]. cbn in Hx. rewrite Hx. ring.
  - destruct (unpack_skipped st); [injection H as <-; fin|]. now apply unpack_keeps in H.
  - destruct w as [p n k nu c]; cbn [w_kind w_prev w_num w_cur w_n] in H.
    destruct k; try (injection H as <-; fin);
      (destruct (optimized_differentials n alt0 altf nu c) as [[nu' c']|] eqn:E; [|discriminate]);
      injection H as <-; unfold optimized_differentials in E; split_matches E; fin.
  - split_matches H; fin.
  - unfold update_thrust in H.
    destruct (an_energy an (w_cur w)) as [[[F m] [[f a]|]] b]; injection H as <-; fin.
  - unfold update_aerodynamics in H. destruct (an_aero an (w_cur w)). injection H as <-. fin.
  - unfold update_weights in H. destruct (has_add (w_cur w)); injection H as <-; fin.
  - split_matches H; fin.
Qed.

(** the differentials steps set the time operators; the others leave them *)
Lemma t_ok_set : forall an st u s w w',
  (s = S_differentials_time \/ s = S_differentials_optimized /\
   match w_kind w with Mach_angle _ _ _ _ | Dynp_angle _ _ _ _ => True | _ => False end) ->
  nd_ok w -> run_step an st u s w = Some w' -> t_ok w'.
Proof.
  intros an st u s [p n k nu c] w' Hs [Hx HI] H. cbn in Hx, HI.
  destruct Hs as [->|[-> Hk]].
  - cbn in H. injection H as <-. intro j. cbn. rewrite HI. ring.
  - cbn in H, Hk.
    destruct k; try contradiction;
      (destruct (optimized_differentials n alt0 altf nu c) as [[nu' c']|] eqn:E; [|discriminate]);
      injection H as <-; unfold optimized_differentials in E; split_matches E;
      intro j; cbn; rewrite HI; ring.
Qed.
Lemma t_ok_keep : forall an st u s w w', later_step s -> nd_ok w -> t_ok w ->
  run_step an st u s w = Some w' -> t_ok w'.
Proof.
  intros an st u s w w' Hs Hn Ht H.
  assert (Q : w_num w' = w_num w -> t_ok w') by (intros E j; rewrite E; apply Ht).
  destruct s; cbn in Hs; try contradiction; try (eapply t_ok_set; eauto; fail);
    unfold run_step in H; cbv zeta in H; try (injection H as <-; apply Q; reflexivity).
  - split_matches H; apply Q; reflexivity.
  - split_matches H; apply Q; reflexivity.
  - destruct (unpack_skipped st); [injection H as <-; exact Ht|].
    apply Q. unfold unpack in H. cbv zeta in H. split_matches H; reflexivity.
  - destruct w as [p n k nu c]; destruct k; cbn in H; try (injection H as <-; apply Q; reflexivity);
      (eapply (t_ok_set an st u S_differentials_optimized); [|exact Hn|exact H]; right; split; [reflexivity|exact Logic.I]).
  - split_matches H; apply Q; reflexivity.
  - split_matches H; apply Q; reflexivity.
Qed.

(** ** The height of the first control point *)
Definition solves_altitude (k : kind) : Prop :=
  match k with Mach_angle _ _ _ _ | Dynp_angle _ _ _ _ => True | _ => False end.
Lemma solves_dec : forall k, solves_altitude k \/ ~ solves_altitude k.
Proof. destruct k; cbn; auto. Qed.

(** the previous segment's end already has the height this segment was told to start from *)
Definition prev_ok (w : world) : Prop :=
  match w_prev w, start_altitude (w_kind w) with
  | Some (np, p), Some h => vz (pos p (np - 1)%nat) = - h
  | _, _ => True
  end.
Definition z_good (w : world) : Prop :=
  match w_prev w with
  | Some (np, p) => first_z (w_cur w) = vz (pos p (np - 1)%nat)
  | None => True
  end.

Lemma z_keep : forall an st u s w w', later_step s -> nd_ok w -> prev_ok w ->
  ~ (solves_altitude (w_kind w) /\ s = S_unpack) -> z_good w ->
  run_step an st u s w = Some w' -> z_good w'.
Proof.
  intros an st u s w w' Hs Hn Hp Hk Hz H.
  assert (Q : w_prev w' = w_prev w -> first_z (w_cur w') = first_z (w_cur w) -> z_good w').
  { intros E1 E2. unfold z_good in *. rewrite E1, E2. exact Hz. }
  destruct s; cbn in Hs; try contradiction; clear Hs; unfold run_step in H; cbv zeta in H.
  all: try (injection H as <-; apply Q; reflexivity).
  - split_matches H; apply Q; reflexivity.
  - destruct w as [p n k nu c]; cbn [w_kind w_prev w_num w_cur w_n] in *.
    destruct k; try (injection H as <-; apply Q; reflexivity).
    destruct (throttle_differentials n nu p alt0 altf c) eqn:E; [|discriminate].
    injection H as <-. unfold throttle_differentials in E.
    unfold z_good. cbn [set_cur w_prev w_cur]. destruct p as [[np p]|]; [|exact Logic.I].
    unfold prev_ok in Hp; cbn in Hp.
    destruct (resolve_altitude alt0 (Some (np, p))) as [a|] eqn:Ra; [|discriminate].
    injection E as <-. unfold first_z. cbn [set_alt pos put_altitude_z set_pos vz with_z set_time].
    rewrite mulv_zero_row.
    2:{ intro j. destruct Hn as [_ HI]. cbn in HI. rewrite HI. ring. }
    destruct alt0 as [h|]; cbn in Ra; injection Ra as <-; [rewrite Hp|]; ring.
  - destruct w as [p n k nu c]; cbn [w_kind w_prev w_num w_cur w_n] in *.
    destruct (unpack_skipped st); [injection H as <-; exact Hz|].
    unfold unpack in H. cbn [w_kind w_prev w_num w_cur w_n] in H.
    destruct k; try (exfalso; apply Hk; split; [exact Logic.I|reflexivity]); split_matches H; apply Q; reflexivity.
  - destruct w as [p n k nu c]; cbn [w_kind w_prev w_num w_cur w_n] in *.
    destruct k; try (injection H as <-; apply Q; reflexivity).
    all: destruct (optimized_differentials n alt0 altf nu c) as [[nu' c']|] eqn:E; [|discriminate].
    all: injection H as <-; unfold optimized_differentials in E.
    all: unfold z_good; cbn [set_num set_cur w_prev w_cur]; destruct p as [[np p]|]; [|exact Logic.I].
    all: unfold prev_ok in Hp; cbn in Hp; destruct alt0 as [h|]; [|discriminate].
    all: injection E as <- <-; unfold first_z; cbn [set_alt pos put_altitude_z set_pos vz with_z set_time].
    all: rewrite Hp, mulv_zero_row; [ring|].
    all: intro j; destruct Hn as [_ HI]; cbn in HI; rewrite HI; ring.
  - split_matches H; apply Q; reflexivity.
  - unfold update_thrust in H.
    destruct (an_energy an (w_cur w)) as [[[F m] [[f a]|]] b]; injection H as <-; apply Q; reflexivity.
  - unfold update_aerodynamics in H. destruct (an_aero an (w_cur w)). injection H as <-. apply Q; reflexivity.
  - unfold update_weights in H. destruct (has_add (w_cur w)); injection H as <-; apply Q; reflexivity.
  - split_matches H; apply Q; reflexivity.
Qed.
Lemma z_set : forall an st u w w', solves_altitude (w_kind w) -> nd_ok w -> prev_ok w ->
  run_step an st u S_differentials_optimized w = Some w' -> z_good w'.
Proof.
  intros an st u [p n k nu c] w' Hk Hn Hp H. cbn [w_kind] in Hk.
  unfold run_step in H; cbv zeta in H; cbn [w_kind w_prev w_num w_cur w_n] in *.
  destruct k; try contradiction.
  all: destruct (optimized_differentials n alt0 altf nu c) as [[nu' c']|] eqn:E; [|discriminate].
  all: injection H as <-; unfold optimized_differentials in E.
  all: unfold z_good; cbn [set_num set_cur w_prev w_cur]; destruct p as [[np p]|]; [|exact Logic.I].
  all: unfold prev_ok in Hp; cbn in Hp; destruct alt0 as [h|]; [|discriminate].
  all: injection E as <- <-; unfold first_z; cbn [set_alt pos put_altitude_z set_pos vz with_z set_time].
  all: rewrite Hp, mulv_zero_row; [ring|].
  all: intro j; destruct Hn as [_ HI]; cbn in HI; rewrite HI; ring.
Qed.

(** ** Runs of later steps *)
Lemma run_steps_app : forall an st u a b w,
  run_steps an st u (a ++ b) w =
  match run_steps an st u a w with Some w' => run_steps an st u b w' | None => None end.
Proof.
  intros an st u a; induction a as [|s a IH]; intros b w; cbn; [reflexivity|].
  destruct (run_step an st u s w); auto.
Qed.

Lemma prev_ok_same : forall w w', prev_ok w -> w_prev w' = w_prev w -> w_kind w' = w_kind w -> prev_ok w'.
Proof. intros w w' H E1 E2. unfold prev_ok in *. rewrite E1, E2. exact H. Qed.

Lemma run_later : forall an st u l w w', Forall later_step l -> nd_ok w -> run_steps an st u l w = Some w' ->
  firsts (w_cur w') = firsts (w_cur w) /\ w_prev w' = w_prev w /\ w_n w' = w_n w /\
  w_kind w' = w_kind w /\ nd_ok w' /\ (t_ok w -> t_ok w') /\
  (prev_ok w -> ~ (solves_altitude (w_kind w) /\ In S_unpack l) -> z_good w -> z_good w').
Proof.
  intros an st u l; induction l as [|s l IH]; intros w w' Hl Hn H; cbn in H.
  - injection H as <-. repeat split; auto; apply Hn.
  - inversion Hl as [|? ? Hs Hl']; subst.
    destruct (run_step an st u s w) as [w1|] eqn:E; [|discriminate].
    destruct (later_keeps _ _ _ _ _ _ Hs Hn E) as (A1 & A2 & A3 & A4 & A5).
    destruct (IH _ _ Hl' A5 H) as (B1 & B2 & B3 & B4 & B5 & B6 & B7).
    repeat split; try congruence; try apply B5.
    + intro Ht. apply B6. exact (t_ok_keep _ _ _ _ _ _ Hs Hn Ht E).
    + intros Hp Hk Hz. apply B7.
      * exact (prev_ok_same _ _ Hp A2 A4).
      * rewrite A4. intros [K1 K2]. apply Hk. split; [exact K1|now right].
      * refine (z_keep _ _ _ _ _ _ Hs Hn Hp _ Hz E). intros [K1 K2]. apply Hk. split; [exact K1|left; auto].
Qed.

Lemma table_shape : forall st k, exists a d b,
  (if battery_in_iterate st then [S_battery] else []) ++ S_unpack :: conditions_table k
  = a ++ d :: b ++ [S_planet] /\ Forall later_step a /\ Forall later_step b /\ ~ In S_unpack b /\
  later_step d /\ d <> S_unpack /\
  (d = S_differentials_time \/ d = S_differentials_optimized /\ solves_altitude k) /\
  (solves_altitude k -> d = S_differentials_optimized).
Proof.
  intros st k.
  assert (F : forall l, Forall later_step l -> Forall later_step ((if battery_in_iterate st then [S_battery] else []) ++ l)).
  { intros l Hl. destruct (battery_in_iterate st); cbn; auto. constructor; cbn; auto. }
  assert (NI : forall l, ~ In S_unpack l <-> Forall (fun s => s <> S_unpack) l).
  { intro l. rewrite Forall_forall. split; [intros H x Hx E; subst; auto|intros H Hx; apply (H _ Hx); reflexivity]. }
  pose (B := if battery_in_iterate st then [S_battery] else []). fold B. fold B in F.
  destruct k as [h altf law|h law| | | | | | | | | ]; [|destruct law|..];
    cbn [conditions_table];
    match goal with
    | |- context [S_unpack :: S_differentials_time :: ?r] =>
        exists (B ++ [S_unpack]), S_differentials_time, (removelast r)
    | |- context [S_unpack :: S_differentials_optimized :: ?r] =>
        exists (B ++ [S_unpack]), S_differentials_optimized, (removelast r)
    | |- context [S_unpack :: S_velocities :: S_differentials_throttle :: S_differentials_time :: ?r] =>
        exists (B ++ [S_unpack; S_velocities; S_differentials_throttle]), S_differentials_time, (removelast r)
    end; (split; [rewrite <- app_assoc; reflexivity|]);
    (split; [apply F; repeat apply Forall_cons; try exact Logic.I; apply Forall_nil|]);
    (split; [repeat apply Forall_cons; try exact Logic.I; apply Forall_nil|]);
    (split; [apply NI; repeat apply Forall_cons; try discriminate; apply Forall_nil|]);
    (split; [exact Logic.I|split; [discriminate|split; [|cbn; intros; try contradiction; reflexivity]]]); cbn; auto.
Qed.

(** ** One iteration *)
Definition joined_firsts (np : nat) (p : conds) : list R :=
  let l := (np - 1)%nat in
  [time p l; mass p l; range p l; lat p l; lon p l; vx (pos p l); vy (pos p l)].

Lemma override_twice : forall h np p, override_last h np (override_last h np p) = override_last h np p.
Proof.
  intros [h|] np p; [|reflexivity]. unfold override_last.
  match goal with |- set_pos ?f (set_pos ?g p) = _ => assert (E : f = g) end.
  { apply FunctionalExtensionality.functional_extensionality. intro i. cbn.
    destruct (Nat.eqb i (np - 1)); reflexivity. }
  rewrite E. reflexivity.
Qed.

Lemma initials_run : forall an st u w np p, w_prev w = Some (np, p) ->
  exists w1, run_steps an st u initials_table w = Some w1 /\
    let p' := override_last (start_altitude (w_kind w)) np p in
    w_prev w1 = Some (np, p') /\ w_n w1 = w_n w /\ w_kind w1 = w_kind w /\ w_num w1 = w_num w /\
    firsts (w_cur w1) = joined_firsts np p' /\ z_good w1 /\ prev_ok w1.
Proof.
  intros an st u [pr n k nu c] np p E. cbn in E. subst pr.
  eexists. split; [reflexivity|]. cbv zeta. repeat (split; [reflexivity|]).
  assert (EL : forall f : conds -> nat -> R,
     (forall q i, f (set_pos q p) i = f p i) ->
     f (override_last (start_altitude k) np p) (np - 1)%nat = f p (np - 1)%nat).
  { intros f Hf. unfold override_last. destruct (start_altitude k); [apply Hf|reflexivity]. }
  split; [|split].
  - unfold firsts, joined_firsts. cbn. unfold vplus, vminus. cbn.
    rewrite !(EL time), !(EL mass), !(EL lat), !(EL lon) by reflexivity.
    repeat (f_equal; try ring).
  - unfold z_good. cbn. unfold first_z. cbn. ring.
  - unfold prev_ok. cbn. destruct (start_altitude k) as [h|]; [|exact Logic.I]. cbn.
    rewrite Nat.eqb_refl. reflexivity.
Qed.

Lemma planet_keep : forall an st u w w', t_ok w -> run_step an st u S_planet w = Some w' ->
  firsts (w_cur w') = firsts (w_cur w) /\ first_z (w_cur w') = first_z (w_cur w) /\
  w_prev w' = w_prev w /\ w_n w' = w_n w /\ w_kind w' = w_kind w /\ w_num w' = w_num w.
Proof.
  intros an st u w w' Ht H. unfold run_step in H. injection H as <-.
  split; [|repeat split].
  unfold update_planet_position. cbv zeta. apply firsts_eq; cbn [set_cur w_cur]; try reflexivity.
  - cbn [set_lon set_lat lat lon]. rewrite mulv_zero_row by exact Ht. unfold Rdiv. ring.
  - cbn [set_lon set_lat lat lon]. rewrite mulv_zero_row by exact Ht. unfold Rdiv. ring.
Qed.

(** everything after the initials *)
Definition rest_of_iterate (st : settings) (k : kind) : list step :=
  (if battery_in_iterate st then [S_battery] else []) ++ S_unpack :: conditions_table k.
Lemma rest_run : forall an st u w1 w', nd_ok w1 ->
  run_steps an st u (rest_of_iterate st (w_kind w1)) w1 = Some w' ->
  w_prev w' = w_prev w1 /\ w_n w' = w_n w1 /\ w_kind w' = w_kind w1 /\ nd_ok w' /\ t_ok w' /\
  firsts (w_cur w') = firsts (w_cur w1) /\ (prev_ok w1 -> z_good w1 -> z_good w').
Proof.
  intros an st u w1 w' N1 H. unfold rest_of_iterate in H.
  destruct (table_shape st (w_kind w1)) as (a & d & b & Et & Ha & Hb & Hnb & Hd & Hdu & Hd1 & Hd2).
  rewrite Et in H. change (a ++ d :: b ++ [S_planet]) with (a ++ [d] ++ b ++ [S_planet]) in H.
  rewrite run_steps_app in H.
  destruct (run_steps an st u a w1) as [w2|] eqn:E2; [|discriminate].
  destruct (run_later _ _ _ _ _ _ Ha N1 E2) as (A1 & A2 & A3 & A4 & A5 & _ & A7).
  cbn [app] in H. cbn [run_steps] in H.
  destruct (run_step an st u d w2) as [w3|] eqn:E3; [|discriminate].
  destruct (later_keeps _ _ _ _ _ _ Hd A5 E3) as (B1 & B2 & B3 & B4 & B5).
  assert (T3 : t_ok w3).
  { eapply t_ok_set; [|exact A5|exact E3]. rewrite A4. exact Hd1. }
  rewrite run_steps_app in H.
  destruct (run_steps an st u b w3) as [w4|] eqn:E4; [|discriminate].
  destruct (run_later _ _ _ _ _ _ Hb B5 E4) as (C1 & C2 & C3 & C4 & C5 & C6 & C7).
  cbn [run_steps] in H.
  destruct (run_step an st u S_planet w4) as [w5|] eqn:E5; [|discriminate]. injection H as <-.
  destruct (planet_keep _ _ _ _ _ (C6 T3) E5) as (D1 & D2 & D3 & D4 & D5 & D6).
  split; [congruence|]. split; [congruence|]. split; [congruence|].
  split; [eapply nd_ok_same; [exact C5|now rewrite D6..]|].
  split; [intro j; rewrite D6; apply (C6 T3)|].
  split; [congruence|]. intros I7 I6.
  assert (P2 : prev_ok w2) by (eapply prev_ok_same; eauto).
  assert (P3 : prev_ok w3) by (eapply prev_ok_same; eauto).
  assert (Z3 : z_good w3).
  { destruct (solves_dec (w_kind w1)) as [K|K].
    - rewrite (Hd2 K) in E3. eapply z_set; [|exact A5|exact P2|exact E3]. rewrite A4. exact K.
    - eapply z_keep; [exact Hd|exact A5|exact P2| |apply A7|exact E3]; auto.
      + intros [_ K']. contradiction.
      + intros [K' _]. contradiction. }
  assert (Z4 : z_good w4).
  { apply C7; auto. intros [_ K']. contradiction. }
  unfold z_good in *. rewrite D3, D2. exact Z4.
Qed.

Lemma iterate_joins : forall an st u w w' np p, nd_ok w -> w_prev w = Some (np, p) ->
  run_steps an st u (iterate_steps st (w_kind w)) w = Some w' ->
  let p' := override_last (start_altitude (w_kind w)) np p in
  w_prev w' = Some (np, p') /\ w_n w' = w_n w /\ w_kind w' = w_kind w /\ nd_ok w' /\ t_ok w' /\
  firsts (w_cur w') = joined_firsts np p' /\ first_z (w_cur w') = vz (pos p' (np - 1)%nat).
Proof.
  intros an st u w w' np p Hn Hp H p'. unfold iterate_steps in H. rewrite run_steps_app in H.
  destruct (initials_run an st u w np p Hp) as (w1 & E1 & I1 & I2 & I3 & I4 & I5 & I6 & I7).
  fold p' in I1, I5. rewrite E1, <- I3 in H.
  assert (N1 : nd_ok w1) by (eapply nd_ok_same; [exact Hn|now rewrite I4..]).
  destruct (rest_run _ _ _ _ _ N1 H) as (A1 & A2 & A3 & A4 & A5 & A6 & A7).
  specialize (A7 I7 I6). unfold z_good in A7.
  replace (w_prev w') with (Some (np, p')) in A7 by congruence.
  repeat (split; [first [congruence|assumption]|]). exact A7.
Qed.

(** the first segment of a mission *)
Definition fresh_firsts (an : analyses) (st : settings) (c : conds) : list R :=
  let q := match segment_position st with Some q => q | None => (0, 0) end in
  [time c 0%nat; an_takeoff an; range c 0%nat; fst q; snd q; vx (pos c 0%nat); vy (pos c 0%nat)].
Lemma iterate_fresh : forall an st u w w', nd_ok w -> w_prev w = None ->
  run_steps an st u (iterate_steps st (w_kind w)) w = Some w' ->
  w_prev w' = None /\ w_n w' = w_n w /\ w_kind w' = w_kind w /\ nd_ok w' /\ t_ok w' /\
  firsts (w_cur w') = fresh_firsts an st (w_cur w).
Proof.
  intros an st u w w' Hn Hp H. unfold iterate_steps in H. rewrite run_steps_app in H.
  assert (X : exists w1, run_steps an st u initials_table w = Some w1 /\ w_prev w1 = None /\
    w_n w1 = w_n w /\ w_kind w1 = w_kind w /\ w_num w1 = w_num w /\
    firsts (w_cur w1) = fresh_firsts an st (w_cur w)).
  { destruct w as [pr n k nu c]. cbn in Hp. subst pr. eexists. split; [reflexivity|].
    repeat (split; [reflexivity|]). unfold firsts, fresh_firsts. cbn.
    unfold initialize_planet_position.
    destruct (segment_start_time st); destruct (segment_position st) as [[la lo]|]; cbn;
      repeat (f_equal; try ring). }
  destruct X as (w1 & E1 & I1 & I2 & I3 & I4 & I5). rewrite E1, <- I3 in H.
  assert (N1 : nd_ok w1) by (eapply nd_ok_same; [exact Hn|now rewrite I4..]).
  destruct (rest_run _ _ _ _ _ N1 H) as (A1 & A2 & A3 & A4 & A5 & A6 & _).
  repeat split; try congruence; try apply A4.
Qed.

(** ** Initialisation *)
Definition init_step (s : step) : Prop :=
  match s with
  | S_conditions | S_differentials_altitude | S_velocities | S_differentials_throttle | S_battery => True
  | _ => False
  end.
Lemma init_keeps : forall an st u s w w', init_step s -> run_step an st u s w = Some w' ->
  w_prev w' = w_prev w /\ w_n w' = w_n w /\ w_num w' = w_num w.
Proof.
  intros an st u s [p n k nu c] w' Hs H.
  destruct s; cbn in Hs; try contradiction; clear Hs; unfold run_step in H; cbv zeta in H.
  - unfold init_conditions in H. cbv zeta in H. cbn [w_kind w_prev w_num w_cur w_n] in H.
    destruct k; cbn beta iota in H; repeat split_matches H; repeat split.
  - injection H as <-. repeat split.
  - split_matches H; repeat split.
  - split_matches H; repeat split.
  - injection H as <-. repeat split.
Qed.
Lemma run_init : forall an st u l w w', Forall init_step l -> run_steps an st u l w = Some w' ->
  w_prev w' = w_prev w /\ w_n w' = w_n w /\ w_num w' = w_num w.
Proof.
  intros an st u l; induction l as [|s l IH]; intros w w' Hl H; cbn in H.
  - injection H as <-. auto.
  - inversion Hl; subst. destruct (run_step an st u s w) as [w1|] eqn:E; [|discriminate].
    destruct (init_keeps _ _ _ _ _ _ H2 E) as (A & B & C).
    destruct (IH _ _ H3 H) as (A' & B' & C'). repeat split; congruence.
Qed.
Lemma init_shape : forall st k, exists l, initialize_steps st k = S_differentials :: l /\ Forall init_step l.
Proof.
  intros st k. unfold initialize_steps.
  destruct k; cbn [init_table app]; destruct (battery_in_initialize st);
    (eexists; split; [reflexivity|]); repeat apply Forall_cons; try exact Logic.I; apply Forall_nil.
Qed.
Lemma initialize_sets : forall an st u w w', starts_at_zero st (w_n w) ->
  run_steps an st u (initialize_steps st (w_kind w)) w = Some w' ->
  w_prev w' = w_prev w /\ w_n w' = w_n w /\ nd_ok w' /\
  nd_x (w_num w') = fst (fst (discretization st (w_n w))) /\
  nd_D (w_num w') = snd (fst (discretization st (w_n w))) /\
  nd_I (w_num w') = snd (discretization st (w_n w)).
Proof.
  intros an st u w w' [Hx HI] H. destruct (init_shape st (w_kind w)) as (l & E & Hl). rewrite E in H.
  cbn [run_steps run_step] in H. destruct (run_init _ _ _ _ _ _ Hl H) as (A & B & C).
  cbn in A, B, C. unfold initialize_differentials in C.
  destruct (discretization st (w_n w)) as [[x D] J]. cbn in Hx, HI.
  unfold nd_ok. rewrite C. cbn. repeat split; auto.
Qed.

(** ** Iterations *)
Definition J (np : nat) (p : conds) (w : world) : Prop :=
  w_prev w = Some (np, p) /\ nd_ok w /\ t_ok w /\
  firsts (w_cur w) = joined_firsts np p /\ first_z (w_cur w) = vz (pos p (np - 1)%nat).

Lemma iterations_join : forall an st calls w w' np p, calls <> [] -> nd_ok w -> w_prev w = Some (np, p) ->
  run_iterations an st calls w = Some w' ->
  w_n w' = w_n w /\ w_kind w' = w_kind w /\
  J np (override_last (start_altitude (w_kind w)) np p) w'.
Proof.
  intros an st calls. induction calls as [|u calls IH]; intros w w' np p Hc Hn Hp H; [congruence|].
  cbn [run_iterations] in H.
  destruct (run_steps an st u (iterate_steps st (w_kind w)) w) as [w1|] eqn:E; [|discriminate].
  destruct (iterate_joins _ _ _ _ _ _ _ Hn Hp E) as (A1 & A2 & A3 & A4 & A5 & A6 & A7).
  destruct calls as [|v calls].
  - cbn in H. injection H as <-. unfold J. auto 8.
  - destruct (IH w1 w' np _ ltac:(discriminate) A4 A1 H) as (B1 & B2 & B3).
    rewrite A3, override_twice in B3. rewrite B1, B2. auto.
Qed.

Lemma horizontal_keep : forall an st u w w', t_ok w -> run_steps an st u finalize_steps w = Some w' ->
  firsts (w_cur w') = firsts (w_cur w) /\ first_z (w_cur w') = first_z (w_cur w) /\
  w_prev w' = w_prev w /\ w_n w' = w_n w /\ w_kind w' = w_kind w /\ w_num w' = w_num w.
Proof.
  intros an st u w w' Ht H. cbn in H. injection H as <-.
  split; [|repeat split].
  apply firsts_eq; try reflexivity; cbn; rewrite mulv_zero_row by exact Ht; ring.
Qed.

Lemma evaluate_joins : forall an st u calls w w' np p,
  starts_at_zero st (w_n w) -> calls <> [] -> w_prev w = Some (np, p) ->
  evaluate_segment an st u calls w = Some w' ->
  w_n w' = w_n w /\ J np (override_last (start_altitude (w_kind w')) np p) w'.
Proof.
  intros an st u calls w w' np p Hz Hc Hp H. unfold evaluate_segment in H.
  destruct (run_steps an st u (initialize_steps st (w_kind w)) w) as [w1|] eqn:E1; [|discriminate].
  destruct (initialize_sets _ _ _ _ _ Hz E1) as (A1 & A2 & A3 & _).
  destruct (run_iterations an st calls w1) as [w2|] eqn:E2; [|discriminate].
  rewrite Hp in A1.
  destruct (iterations_join _ _ _ _ _ _ _ Hc A3 A1 E2) as (B1 & B2 & C1 & C2 & C3 & C4 & C5).
  destruct (horizontal_keep _ _ _ _ _ C3 H) as (D1 & D2 & D3 & D4 & D5 & D6).
  split; [congruence|]. rewrite D5, B2. unfold J.
  split; [congruence|]. split; [eapply nd_ok_same; [exact C2|now rewrite D6..]|].
  split; [intro j; rewrite D6; apply C3|]. split; congruence.
Qed.

Lemma iterations_fresh : forall an st calls w w', calls <> [] -> nd_ok w -> w_prev w = None ->
  run_iterations an st calls w = Some w' ->
  w_n w' = w_n w /\ w_prev w' = None /\ t_ok w' /\ firsts (w_cur w') = fresh_firsts an st (w_cur w).
Proof.
  intros an st calls. induction calls as [|u calls IH]; intros w w' Hc Hn Hp H; [congruence|].
  cbn [run_iterations] in H.
  destruct (run_steps an st u (iterate_steps st (w_kind w)) w) as [w1|] eqn:E; [|discriminate].
  destruct (iterate_fresh _ _ _ _ _ Hn Hp E) as (A1 & A2 & A3 & A4 & A5 & A6).
  destruct calls as [|v calls].
  - cbn in H. injection H as <-. auto.
  - destruct (IH w1 w' ltac:(discriminate) A4 A1 H) as (B1 & B2 & B3 & B4).
    repeat split; try congruence; auto. rewrite B4.
    unfold fresh_firsts. unfold firsts, fresh_firsts in A6. cbn in A6. injection A6 as -> _ -> _ _ -> ->. reflexivity.
Qed.
Lemma evaluate_fresh : forall an st u calls w w',
  starts_at_zero st (w_n w) -> calls <> [] -> w_prev w = None ->
  evaluate_segment an st u calls w = Some w' ->
  w_n w' = w_n w /\ w_prev w' = None /\
  exists c, firsts (w_cur w') = fresh_firsts an st c.
Proof.
  intros an st u calls w w' Hz Hc Hp H. unfold evaluate_segment in H.
  destruct (run_steps an st u (initialize_steps st (w_kind w)) w) as [w1|] eqn:E1; [|discriminate].
  destruct (initialize_sets _ _ _ _ _ Hz E1) as (A1 & A2 & A3 & _).
  destruct (run_iterations an st calls w1) as [w2|] eqn:E2; [|discriminate].
  rewrite Hp in A1.
  destruct (iterations_fresh _ _ _ _ _ Hc A3 A1 E2) as (B1 & B2 & B3 & B4).
  destruct (horizontal_keep _ _ _ _ _ B3 H) as (D1 & D2 & D3 & D4 & D5 & D6).
  repeat split; try congruence. exists (w_cur w1). congruence.
Qed.

(** ** Missions *)

(** the segment with which the output of [run_mission (Some p)] starts *)
Definition looks_like (p q : segment) : Prop :=
  sg_n q = sg_n p /\ firsts (sg_conds q) = firsts (sg_conds p) /\
  first_z (sg_conds q) = first_z (sg_conds p).

Lemma override_firsts : forall h np p, (2 <= np)%nat ->
  firsts (override_last h np p) = firsts p /\ first_z (override_last h np p) = first_z p.
Proof.
  intros [h|] np p Hn; [|auto]. unfold firsts, first_z, override_last. cbn.
  destruct np as [|[|k]]; [lia|lia|]. cbn. auto.
Qed.

Lemma continues_of : forall a b, firsts (sg_conds b) = joined_firsts (sg_n a) (sg_conds a) ->
  first_z (sg_conds b) = vz (pos (sg_conds a) (sg_n a - 1)%nat) -> continues a b.
Proof.
  intros a b H Hz. unfold firsts, joined_firsts in H. injection H as E1 E2 E3 E4 E5 E6 E7.
  unfold first_z in Hz.
  constructor; unfold last_row; auto.
  destruct (pos (sg_conds b) 0%nat), (pos (sg_conds a) (sg_n a - 1)%nat). cbn in *. congruence.
Qed.

Lemma chained_cons : forall a b l, continues a b -> chained (b :: l) -> chained (a :: b :: l).
Proof.
  intros a b l Hc Hl before x y behind E. destruct before as [|z before]; cbn in E.
  - injection E as -> -> _. exact Hc.
  - injection E as _ E. eapply Hl; exact E.
Qed.
Lemma chained_one : forall a, chained [a].
Proof. intros a before x y behind E. destruct before as [|z [|? ?]]; discriminate. Qed.
Lemma chained_nil : chained [].
Proof. intros before x y behind E. destruct before; discriminate. Qed.

Lemma run_chained : forall segs p out, Forall usable segs -> (2 <= sg_n p)%nat ->
  run_mission (Some p) segs = Some out ->
  exists q rest, out = q :: rest /\ looks_like p q /\ chained out /\
                 length rest = length segs.
Proof.
  induction segs as [|s segs IH]; intros p out Hu Hp H.
  - cbn in H. injection H as <-. exists p, []. split; [reflexivity|].
    split; [unfold looks_like; auto|]. split; [apply chained_one|reflexivity].
  - cbn [run_mission] in H. inversion Hu as [|? ? [Hz [Hc Hn]] Hu']; subst.
    destruct (evaluate_segment _ _ _ _ _) as [w|] eqn:E; [|discriminate].
    destruct (evaluate_joins _ _ _ _ (World (Some (sg_n p, sg_conds p)) (sg_n s) (sg_kind s) (sg_numerics s) (sg_conds s)) _ (sg_n p) (sg_conds p) Hz Hc eq_refl E) as (En & J1 & J2 & J3 & J4 & J5).
    set (h := start_altitude (w_kind w)) in *.
    destruct (run_mission (Some (after s w)) segs) as [out'|] eqn:E'; [|discriminate].
    rewrite J1 in H. injection H as <-. cbn in En.
    destruct (IH (after s w) out' Hu' ltac:(cbn; rewrite En; exact Hn) E') as (q & rest & -> & (L1 & L2 & L3) & Hch & Hl).
    set (p' := with_conds (override_last h (sg_n p) (sg_conds p)) p).
    exists p', (q :: rest). split; [reflexivity|].
    destruct (override_firsts h (sg_n p) (sg_conds p) Hp) as [O1 O2].
    split; [unfold looks_like, p'; cbn; auto|]. split; [|cbn; congruence].
    apply chained_cons; [|exact Hch].
    apply continues_of; unfold p'; cbn [sg_n sg_conds with_conds].
    + rewrite L2. exact J4.
    + rewrite L3. exact J5.
Qed.

Lemma mission_chained : forall segs out, Forall usable segs ->
  evaluate_mission segs = Some out -> chained out /\ length out = length segs.
Proof.
  intros segs out Hu H. unfold evaluate_mission in H. destruct segs as [|s segs]; cbn [run_mission] in H.
  - injection H as <-. split; [apply chained_nil|reflexivity].
  - inversion Hu as [|? ? [Hz [Hc Hn]] Hu']; subst.
    destruct (evaluate_segment _ _ _ _ _) as [w|] eqn:E; [|discriminate].
    destruct (run_mission (Some (after s w)) segs) as [out'|] eqn:E'; [|discriminate].
    injection H as <-. cbn [app].
    destruct (evaluate_fresh _ _ _ _ (World None (sg_n s) (sg_kind s) (sg_numerics s) (sg_conds s)) _ Hz Hc eq_refl E) as (En & _ & _). cbn in En.
    destruct (run_chained segs (after s w) out' Hu' ltac:(cbn; rewrite En; exact Hn) E') as (q & rest & -> & _ & Hch & Hl).
    split; [exact Hch|cbn; congruence].
Qed.

(** ** Elapsed time *)
Lemma chained_tail : forall a l, chained (a :: l) -> chained l.
Proof. intros a l H before x y behind E. apply (H (a :: before) x y behind). cbn. congruence. Qed.
Lemma chained_head : forall a b l, chained (a :: b :: l) -> continues a b.
Proof. intros a b l H. exact (H [] a b l eq_refl). Qed.
Lemma chained_elapsed : forall l a, chained (a :: l) ->
  time (sg_conds (last l a)) (last_row (sg_n (last l a))) - time (sg_conds a) 0%nat
  = total_elapsed (a :: l).
Proof.
  induction l as [|b l IH]; intros a H.
  - cbn. unfold elapsed. ring.
  - assert (E : last (b :: l) a = last l b).
    { clear. revert a b. induction l as [|c l IHl]; intros a b; [reflexivity|].
      change (last (c :: l) a = last (c :: l) b). rewrite IHl. symmetry. apply IHl. }
    rewrite E. specialize (IH b (chained_tail _ _ H)). cbn [total_elapsed] in *.
    destruct (chained_head _ _ _ H) as [Ht _ _ _ _ _]. unfold elapsed at 1. lra.
Qed.

(** ** Battery energy *)
Lemma init_conditions_batt : forall an st u w w', init_conditions an st u w = Some w' ->
  batt (w_cur w') = batt (w_cur w).
Proof.
  intros an st u [p n k nu c] w' H. unfold init_conditions in H. cbv zeta in H.
  cbn [w_kind w_prev w_num w_cur w_n] in *.
  destruct k as [h altf law|h law| | | | | | | | | ]; cbn beta iota in H.
  - destruct (init_climb _ _ _ _ _ _ _ _) eqn:E in H; [|discriminate]. injection H as <-.
    unfold init_climb in E. split_matches E. destruct law; reflexivity.
  - destruct (init_cruise _ _ _ _ _ _ _) as [[c' k']|] eqn:E in H; [|discriminate]. injection H as <-.
    unfold init_cruise in E. cbv zeta in E. split_matches E; reflexivity.
  - destruct (init_hover_vertical _ _ _ _ _ _ _ _) eqn:E in H; [|discriminate]. injection H as <-.
    unfold init_hover_vertical in E. cbv zeta in E. split_matches E. reflexivity.
  - destruct (init_hover_vertical _ _ _ _ _ _ _ _) eqn:E in H; [|discriminate]. injection H as <-.
    unfold init_hover_vertical in E. cbv zeta in E. split_matches E. reflexivity.
  - destruct (init_transition_climb _ _ _ _ _ _ _ _ _ _) eqn:E in H; [|discriminate]. injection H as <-.
    unfold init_transition_climb in E. cbv zeta in E. split_matches E; reflexivity.
  - destruct (init_throttle_climb _ _ _ _ _) eqn:E in H; [|discriminate]. injection H as <-.
    unfold init_throttle_climb in E. split_matches E. reflexivity.
  - destruct (init_throttle_cruise _ _ _ _ _ _) as [[c' k']|] eqn:E in H; [|discriminate]. injection H as <-.
    unfold init_throttle_cruise in E. split_matches E. reflexivity.
  - destruct (altitude_unknown_step _ _ _ _ _ _ _ _) eqn:E in H; [|discriminate]. injection H as <-.
    unfold altitude_unknown_step in E. split_matches E. reflexivity.
  - destruct (altitude_unknown_step _ _ _ _ _ _ _ _) eqn:E in H; [|discriminate]. injection H as <-.
    unfold altitude_unknown_step in E. split_matches E. reflexivity.
  - destruct (init_ground _ _ _ _ _ _ _) eqn:E in H; [|discriminate]. injection H as <-.
    unfold init_ground in E. split_matches E. reflexivity.
  - destruct (init_ground _ _ _ _ _ _ _) eqn:E in H; [|discriminate]. injection H as <-.
    unfold init_ground in E. split_matches E. reflexivity.
Qed.
Lemma unpack_batt : forall an st u w w', unpack an st u w = Some w' -> batt (w_cur w') = batt (w_cur w).
Proof.
  intros an st u [p n k nu c] w' H. unfold unpack in H. cbv zeta in H.
  cbn [w_kind w_prev w_num w_cur w_n] in *.
  assert (K : forall h0 f a c', altitude_unknown_step an (temperature_deviation st) p h0 f a u c = Some c' ->
            batt c' = batt c).
  { intros h0 f a c' E. unfold altitude_unknown_step in E. split_matches E. reflexivity. }
  destruct k as [h altf law|h law| | | | | | | | | ]; try destruct law; split_matches H; try reflexivity;
    cbn [set_cur w_cur]; eapply K; eassumption.
Qed.

(** [obs] is what is observed of a battery, [J] what initialize_battery makes of the previous one *)
Section Carry.
Variables (Obs : Type) (obs : battery -> Obs) (J : settings -> nat -> battery -> Obs).
Hypothesis HJ : forall st np p c,
  obs (batt (initialize_battery (battery_discharge st) (battery_temperature st) (Some (np, p)) c)) = J st np (batt p).
Definition network_keeps (an : analyses) : Prop := forall c, obs (snd (an_energy an c)) = obs (batt c).
Definition batt0 (w : world) : Obs := obs (batt (w_cur w)).
Lemma energy_keep : forall an st u s w w', network_keeps an -> s <> S_battery ->
  run_step an st u s w = Some w' -> batt0 w' = batt0 w.
Proof.
  intros an st u s [p n k nu c] w' Ha Hs H.
  destruct s; try congruence; unfold run_step in H; cbv zeta in H;
    cbn [w_kind w_prev w_num w_cur w_n] in H; try (injection H as <-; reflexivity).
  - unfold batt0. f_equal. now rewrite (init_conditions_batt _ _ _ _ _ H).
  - split_matches H; reflexivity.
  - split_matches H; try reflexivity. unfold throttle_differentials in *.
    repeat match goal with E : context [match ?x with _ => _ end] |- _ => destruct x; try discriminate E end.
    match goal with E : Some _ = Some _ |- _ => injection E as <- end. reflexivity.
  - injection H as <-. unfold batt0. cbn. unfold initialize_time.
    destruct p as [[? ?]|]; [|destruct (segment_start_time st)]; reflexivity.
  - unfold initialize_inertial_position in H. destruct p as [[? ?]|]; injection H as <-; reflexivity.
  - injection H as <-. unfold batt0. cbn. unfold initialize_planet_position.
    destruct p as [[? ?]|]; [|destruct (segment_position st) as [[? ?]|]]; reflexivity.
  - destruct (unpack_skipped st); [injection H as <-; reflexivity|].
    unfold batt0. f_equal. now rewrite (unpack_batt _ _ _ _ _ H).
  - split_matches H; try reflexivity; unfold optimized_differentials in *;
      repeat match goal with E : context [match ?x with _ => _ end] |- _ => destruct x; try discriminate E end;
      match goal with E : Some _ = Some _ |- _ => injection E as <- <- end; reflexivity.
  - split_matches H; reflexivity.
  - injection H as <-. unfold batt0, set_cur. cbn [w_cur]. specialize (Ha c). unfold update_thrust.
    destruct (an_energy an c) as [[[F m] [[f a]|]] b]; exact Ha.
  - injection H as <-. unfold batt0, set_cur, update_aerodynamics. cbn [w_cur].
    destruct (an_aero an c); reflexivity.
  - injection H as <-. unfold batt0, set_cur, update_weights. cbn [w_cur].
    destruct (has_add c); reflexivity.
  - split_matches H; reflexivity.
Qed.

Definition prev_batt (w : world) : option (nat * battery) :=
  match w_prev w with Some (np, p) => Some (np, batt p) | None => None end.
Lemma prev_batt_keep : forall an st u s w w', run_step an st u s w = Some w' -> prev_batt w' = prev_batt w.
Proof.
  intros an st u s w w' H. unfold prev_batt.
  assert (Q : w_prev w' = w_prev w -> match w_prev w' with Some (np, p) => Some (np, batt p) | None => None end =
     match w_prev w with Some (np, p) => Some (np, batt p) | None => None end) by (intros ->; reflexivity).
  destruct s; unfold run_step in H; cbv zeta in H; try (injection H as <-; reflexivity).
  - unfold init_conditions in H. cbv zeta in H. apply Q.
    destruct (w_kind w); cbn beta iota in H; repeat split_matches H; reflexivity.
  - apply Q. split_matches H; reflexivity.
  - apply Q. split_matches H; reflexivity.
  - destruct w as [[[np p]|] n k nu c]; cbn in H; injection H as <-; cbn; [|reflexivity].
    unfold override_last. destruct (start_altitude k); reflexivity.
  - destruct (unpack_skipped st); [injection H as <-; reflexivity|].
    apply Q. unfold unpack in H. cbv zeta in H. repeat split_matches H; reflexivity.
  - apply Q. split_matches H; reflexivity.
  - apply Q. split_matches H; reflexivity.
  - apply Q. split_matches H; reflexivity.
Qed.
Definition energy_joined (st : settings) (w : world) : Prop :=
  forall np b, prev_batt w = Some (np, b) -> batt0 w = J st np b.
Lemma battery_step : forall an st u w w', run_step an st u S_battery w = Some w' -> energy_joined st w'.
Proof.
  intros an st u w w' H np b E. rewrite (prev_batt_keep _ _ _ _ _ _ H) in E. cbn in H. injection H as <-.
  unfold prev_batt in E. destruct (w_prev w) as [[np' p]|] eqn:Ew; [|discriminate].
  injection E as <- <-. unfold batt0. cbn [set_cur w_cur]. apply HJ.
Qed.
Lemma run_energy : forall an st u l w w', network_keeps an ->
  energy_joined st w \/ In S_battery l -> run_steps an st u l w = Some w' ->
  energy_joined st w' /\ prev_batt w' = prev_batt w.
Proof.
  intros an st u l; induction l as [|s l IH]; intros w w' Ha Hg H; cbn in H.
  - injection H as <-. destruct Hg as [Hg|[]]. auto.
  - destruct (run_step an st u s w) as [w1|] eqn:E; [|discriminate].
    pose proof (prev_batt_keep _ _ _ _ _ _ E) as Ep.
    assert (G : energy_joined st w1 \/ In S_battery l).
    { assert (D : s = S_battery \/ s <> S_battery) by (destruct s; (now left) || (right; discriminate)).
      destruct D as [->|D]; [left; eapply battery_step; exact E|].
      destruct Hg as [Hg|[Hg|Hg]]; [left|congruence|now right].
      intros np b Eb. rewrite (energy_keep _ _ _ _ _ _ Ha D E). apply Hg. congruence. }
    destruct (IH _ _ Ha G H) as [A B]. split; [exact A|congruence].
Qed.
Lemma run_iterations_energy : forall an st calls w w', network_keeps an ->
  energy_joined st w \/ (battery_in_iterate st = true /\ calls <> []) ->
  run_iterations an st calls w = Some w' -> energy_joined st w' /\ prev_batt w' = prev_batt w.
Proof.
  intros an st calls; induction calls as [|u calls IH]; intros w w' Ha Hg H; cbn [run_iterations] in H.
  - injection H as <-. destruct Hg as [Hg|[_ Hg]]; [auto|congruence].
  - destruct (run_steps an st u (iterate_steps st (w_kind w)) w) as [w1|] eqn:E; [|discriminate].
    destruct (run_energy an st u (iterate_steps st (w_kind w)) w w1 Ha) as [A B]; [|exact E|].
    + destruct Hg as [Hg|[Hb _]]; [now left|right].
      unfold iterate_steps. rewrite Hb. cbn. auto 8.
    + destruct (IH _ _ Ha (or_introl A) H) as [A' B']. split; [exact A'|congruence].
Qed.
Lemma steps_prev_batt : forall an st u l w w', run_steps an st u l w = Some w' -> prev_batt w' = prev_batt w.
Proof.
  intros an st u l. induction l as [|x l IH]; intros v v' X; cbn in X; [now injection X as <-|].
  destruct (run_step an st u x v) as [v1|] eqn:E'; [|discriminate].
  rewrite (IH _ _ X). eapply prev_batt_keep; exact E'.
Qed.
Lemma iterations_prev_batt : forall an st l w w', run_iterations an st l w = Some w' -> prev_batt w' = prev_batt w.
Proof.
  intros an st l. induction l as [|x l IH]; intros v v' X; cbn [run_iterations] in X; [now injection X as <-|].
  destruct (run_steps an st x (iterate_steps st (w_kind v)) v) as [v1|] eqn:E'; [|discriminate].
  rewrite (IH _ _ X). eapply steps_prev_batt; exact E'.
Qed.
Lemma evaluate_prev_batt : forall an st u calls w w', evaluate_segment an st u calls w = Some w' ->
  prev_batt w' = prev_batt w.
Proof.
  intros an st u calls w w' H. unfold evaluate_segment in H.
  destruct (run_steps an st u (initialize_steps st (w_kind w)) w) as [w1|] eqn:E1; [|discriminate].
  destruct (run_iterations an st calls w1) as [w2|] eqn:E2; [|discriminate].
  rewrite (steps_prev_batt _ _ _ _ _ _ H), (iterations_prev_batt _ _ _ _ _ E2).
  exact (steps_prev_batt _ _ _ _ _ _ E1).
Qed.
Lemma evaluate_energy : forall an st u calls w w', network_keeps an ->
  battery_in_initialize st = true \/ battery_in_iterate st = true -> calls <> [] ->
  evaluate_segment an st u calls w = Some w' -> energy_joined st w'.
Proof.
  intros an st u calls w w' Ha Hb Hc H. unfold evaluate_segment in H.
  destruct (run_steps an st u (initialize_steps st (w_kind w)) w) as [w1|] eqn:E1; [|discriminate].
  destruct (run_iterations an st calls w1) as [w2|] eqn:E2; [|discriminate].
  assert (G : energy_joined st w1 \/ battery_in_iterate st = true /\ calls <> []).
  { destruct Hb as [Hb|Hb]; [left|now right].
    apply (run_energy an st u (initialize_steps st (w_kind w)) w w1 Ha); [right|exact E1].
    unfold initialize_steps. rewrite Hb. apply in_or_app. right. now left. }
  destruct (run_iterations_energy _ _ _ _ _ Ha G E2) as [A B].
  exact (proj1 (run_energy an st u finalize_steps w2 w' Ha (or_introl A) H)).
Qed.


Lemma run_mission_head : forall segs p out, run_mission (Some p) segs = Some out ->
  exists q rest, out = q :: rest /\ sg_n q = sg_n p /\ batt (sg_conds q) = batt (sg_conds p) /\
    sg_settings q = sg_settings p /\ sg_analyses q = sg_analyses p.
Proof.
  intros [|s segs] p out H.
  - cbn in H. injection H as <-. exists p, []. auto.
  - cbn [run_mission] in H. destruct (evaluate_segment _ _ _ _ _) as [w|] eqn:E; [|discriminate].
    destruct (run_mission (Some (after s w)) segs) as [out'|] eqn:E'; [|discriminate].
    pose proof (evaluate_prev_batt _ _ _ _ _ _ E) as P.
    unfold prev_batt in P. cbn in P. destruct (w_prev w) as [[np c]|]; [|discriminate]. injection P as -> Pb.
    injection H as <-. cbn [app]. eexists _, _. split; [reflexivity|]. cbn. auto.
Qed.

Lemma run_mission_energy : forall segs p out, Forall (fun s => sg_calls s <> []) segs ->
  run_mission (Some p) segs = Some out ->
  forall before a b behind, out = before ++ a :: b :: behind -> carries_battery b ->
    network_keeps (sg_analyses b) -> obs (batt (sg_conds b)) = J (sg_settings b) (sg_n a) (batt (sg_conds a)).
Proof.
  induction segs as [|s segs IH]; intros p out Hc H before a b behind Ho Hb Ha.
  - cbn in H. injection H as <-. destruct before as [|? [|? ?]]; discriminate.
  - cbn [run_mission] in H. inversion Hc; subst.
    destruct (evaluate_segment _ _ _ _ _) as [w|] eqn:E; [|discriminate].
    destruct (run_mission (Some (after s w)) segs) as [out'|] eqn:E'; [|discriminate].
    destruct (run_mission_head _ _ _ E') as (q' & rest' & -> & R1 & R2 & R3 & R4).
    pose proof (evaluate_prev_batt _ _ _ _ _ _ E) as P. pose proof P as P0.
    unfold prev_batt in P. cbn in P. destruct (w_prev w) as [[np c]|]; [|discriminate]. injection P as -> Pb.
    cbn [app] in H. injection H as T.
    destruct before as [|x before]; cbn in T.
    + injection T as <- <- _. 
      rewrite R2, R3. cbn [after sg_conds with_conds sg_n sg_settings]. rewrite Pb.
      unfold carries_battery in Hb. rewrite R3 in Hb. rewrite R4 in Ha. cbn in Hb, Ha.
      apply (evaluate_energy _ _ _ _ _ _ Ha Hb H2 E). rewrite P0. reflexivity.
    + injection T as _ T. exact (IH (after s w) _ H3 E' before a b behind T Hb Ha).
Qed.
Lemma mission_energy : forall segs out, Forall (fun s => sg_calls s <> []) segs ->
  evaluate_mission segs = Some out ->
  forall before a b behind, out = before ++ a :: b :: behind -> carries_battery b ->
    network_keeps (sg_analyses b) -> obs (batt (sg_conds b)) = J (sg_settings b) (sg_n a) (batt (sg_conds a)).
Proof.
  intros [|s segs] out Hc H; unfold evaluate_mission in H; cbn [run_mission] in H.
  - injection H as <-. intros before a b behind E. destruct before; discriminate.
  - inversion Hc; subst. destruct (evaluate_segment _ _ _ _ _) as [w|] eqn:E; [|discriminate].
    destruct (run_mission (Some (after s w)) segs) as [out'|] eqn:E'; [|discriminate].
    injection H as <-. cbn [app]. exact (run_mission_energy _ _ _ H3 E').
Qed.
End Carry.
Lemma mission_battery_energy : forall segs out, Forall (fun s => sg_calls s <> []) segs ->
  evaluate_mission segs = Some out ->
  forall before a b behind, out = before ++ a :: b :: behind -> carries_battery b ->
    network_starts_from_stored_energy (sg_analyses b) -> energy_continues a b.
Proof.
  exact (mission_energy R (fun q => b_energy q 0%nat) (fun _ np q => b_energy q (np - 1)%nat)
           (fun st np p c => match battery_temperature st as t return
              (b_energy (batt (initialize_battery (battery_discharge st) t (Some (np, p)) c)) 0%nat
               = b_energy (batt p) (np - 1)%nat) with Some _ => eq_refl | None => eq_refl end)).
Qed.
Lemma mission_battery : forall segs out, Forall (fun s => sg_calls s <> []) segs ->
  evaluate_mission segs = Some out ->
  forall before a b behind, out = before ++ a :: b :: behind -> carries_battery b ->
    network_keeps_battery_start (sg_analyses b) -> battery_handed_on a b.
Proof.
  apply (mission_energy _ (fun q => battery_row q 0%nat)
           (fun st np q => handed_on st (battery_row q (np - 1)%nat))).
  intros st np p c. unfold initialize_battery, handed_on, battery_row.
  destruct (battery_temperature st); reflexivity.
Qed.

Lemma mission_start : forall s segs out, Forall usable (s :: segs) -> evaluate_mission (s :: segs) = Some out ->
  exists a rest, out = a :: rest /\ mass (sg_conds a) 0%nat = an_takeoff (sg_analyses s) /\
    (lat (sg_conds a) 0%nat, lon (sg_conds a) 0%nat)
    = match segment_position (sg_settings s) with Some q => q | None => (0, 0) end.
Proof.
  intros s segs out Hu H. unfold evaluate_mission in H. cbn [run_mission] in H.
  inversion Hu as [|? ? [Hz [Hc Hn]] Hu']; subst.
  destruct (evaluate_segment _ _ _ _ _) as [w|] eqn:E; [|discriminate].
  destruct (run_mission (Some (after s w)) segs) as [out'|] eqn:E'; [|discriminate].
  injection H as <-. cbn [app].
  destruct (evaluate_fresh _ _ _ _ (World None (sg_n s) (sg_kind s) (sg_numerics s) (sg_conds s)) _ Hz Hc eq_refl E) as (En & _ & c & F).
  cbn in En.
  destruct (run_chained segs (after s w) out' Hu' ltac:(cbn; rewrite En; exact Hn) E') as (q & rest & -> & (L1 & L2 & L3) & Hch & Hl).
  exists q, rest. split; [reflexivity|]. cbn in L2. rewrite F in L2. unfold firsts, fresh_firsts in L2.
  injection L2 as _ E2 _ E4 E5 _ _. split; [exact E2|]. rewrite E4, E5. symmetry. apply surjective_pairing.
Qed.

(** ** Heights at the joints *)
Lemma run_mission_kind : forall segs p out, run_mission (Some p) segs = Some out ->
  exists q rest, out = q :: rest /\ sg_kind q = sg_kind p.
Proof.
  intros [|s segs] p out H.
  - cbn in H. injection H as <-. exists p, []. auto.
  - cbn [run_mission] in H. destruct (evaluate_segment _ _ _ _ _) as [w|] eqn:E; [|discriminate].
    destruct (run_mission (Some (after s w)) segs) as [out'|] eqn:E'; [|discriminate].
    pose proof (evaluate_prev_batt _ _ _ _ _ _ E) as P.
    unfold prev_batt in P. cbn in P. destruct (w_prev w) as [[np c]|]; [|discriminate].
    injection H as <-. cbn [app]. eexists _, _. split; reflexivity.
Qed.
Lemma run_mission_height : forall segs p out, Forall usable segs -> (2 <= sg_n p)%nat ->
  run_mission (Some p) segs = Some out ->
  forall before a b behind h, out = before ++ a :: b :: behind -> start_altitude (sg_kind b) = Some h ->
    vz (pos (sg_conds a) (last_row (sg_n a))) = - h.
Proof.
  induction segs as [|s segs IH]; intros p out Hu Hp H before a b behind h Ho Hh.
  - cbn in H. injection H as <-. destruct before as [|? [|? ?]]; discriminate.
  - cbn [run_mission] in H. inversion Hu as [|? ? [Hz [Hc Hn]] Hu']; subst.
    destruct (evaluate_segment _ _ _ _ _) as [w|] eqn:E; [|discriminate].
    destruct (evaluate_joins _ _ _ _ (World (Some (sg_n p, sg_conds p)) (sg_n s) (sg_kind s) (sg_numerics s) (sg_conds s)) _ (sg_n p) (sg_conds p) Hz Hc eq_refl E) as (En & J1 & _). cbn in En.
    destruct (run_mission (Some (after s w)) segs) as [out'|] eqn:E'; [|discriminate].
    destruct (run_mission_kind _ _ _ E') as (q & rest & -> & Hk).
    rewrite J1 in H. cbn [app] in H. injection H as T.
    destruct before as [|x before]; cbn in T.
    + injection T as <- <- _. rewrite Hk in Hh. cbn in Hh. rewrite Hh. cbn.
      unfold last_row. rewrite Nat.eqb_refl. reflexivity.
    + injection T as _ T. refine (IH (after s w) _ Hu' _ E' before a b behind h T Hh). cbn. rewrite En. exact Hn.
Qed.
Lemma mission_height : forall segs out, Forall usable segs -> evaluate_mission segs = Some out ->
  forall before a b behind h, out = before ++ a :: b :: behind -> start_altitude (sg_kind b) = Some h ->
    vz (pos (sg_conds a) (last_row (sg_n a))) = - h.
Proof.
  intros [|s segs] out Hu H; unfold evaluate_mission in H; cbn [run_mission] in H.
  - injection H as <-. intros before a b behind h E. destruct before; discriminate.
  - inversion Hu as [|? ? [Hz [Hc Hn]] Hu']; subst.
    destruct (evaluate_segment _ _ _ _ _) as [w|] eqn:E; [|discriminate].
    destruct (evaluate_fresh _ _ _ _ (World None (sg_n s) (sg_kind s) (sg_numerics s) (sg_conds s)) _ Hz Hc eq_refl E) as (En & _ & _). cbn in En.
    destruct (run_mission (Some (after s w)) segs) as [out'|] eqn:E'; [|discriminate].
    injection H as <-. cbn [app]. refine (run_mission_height _ _ _ Hu' _ E'). cbn. rewrite En. exact Hn.
Qed.
