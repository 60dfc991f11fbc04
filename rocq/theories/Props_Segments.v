(** * C27, C28, C49: what the segments of a mission do *)
From Coq Require Import Reals List Bool Lra Lia.
From Verif Require Import M_Opt M_Rot S_Rot P_Rot M_Mission M_Segments S_Mission S_Segments P_Mission P_Segments
  Props_Frames Props_Mission.
Import ListNotations.
Local Open Scope R_scope.
Local Open Scope list_scope.

Lemma became_story : forall s b, became s b -> usable s /\ exists w w1, story s b w w1.
Proof.
  intros s b (segs & out & Hu & H & Hb). split; [exact (usable_of _ _ _ _ Hu Hb)|exact (story_of _ _ _ _ Hu H Hb)].
Qed.
Lemma after_story : forall a s b, became_after a s b -> became s b.
Proof. intros a s b (segs & out & k & Hu & H & X & Y & Z). exists segs, out. split; [exact Hu|split; [exact H|exists (S k); auto]]. Qed.

(** ** Altitudes *)
(** a segment with a start altitude starts there *)
Theorem C27_start : forall s b h, became s b -> scheduled (sg_kind s) -> start_altitude (sg_kind s) = Some h ->
  altitude b 0%nat = h.
Proof.
  intros s b h Hb Hk Hh. destruct (became_story _ _ Hb) as (Hu & w & w1 & S).
  pose proof (timed_first _ _ _ _ Hu S Hk) as T. rewrite Hh in T. cbn in T. injection T as T. auto.
Qed.
(** one without starts where the segment before it ends *)
Theorem C27_inherit : forall a s b, became_after a s b -> scheduled (sg_kind s) -> start_altitude (sg_kind s) = None ->
  altitude b 0%nat = altitude a (last_row (sg_n a)).
Proof.
  intros a s b (segs & out & k & Hu & H & X & Y & Z) Hk Hn. exact (mission_inherit _ _ Hu H k s a b X Y Z Hk Hn).
Qed.
(** climbs and descents: the altitude is affine in the dimensionless time and ends as asked *)
Theorem C27_altitude : forall s b hf, became s b -> asked_end (sg_kind s) = Some hf ->
  (forall i, altitude b i = altitude b 0%nat + fraction s i * (hf - altitude b 0%nat)) /\
  (ends_at_one (sg_settings s) (sg_n s) -> altitude b (last_row (sg_n s)) = hf).
Proof.
  intros s b hf Hb He. destruct (became_story _ _ Hb) as (Hu & w & w1 & S).
  assert (X0 : xof (sg_settings s) (sg_n s) 0%nat = 0) by (destruct Hu as [[X _] _]; exact X).
  assert (A : exists a, forall i, altitude b i = xof (sg_settings s) (sg_n s) i * (hf - a) + a).
  { destruct (sg_kind s) as [h altf law|h law|h altf r|h altf r|h altf an v0 ax T0 Tf| | | | | | ] eqn:E; try discriminate; cbn in He; injection He as ->.
    - destruct (climb_story _ _ _ _ _ _ _ Hu S E) as (a & R & A & _). exists a. exact A.
    - destruct (hover_story _ _ _ _ h hf r 1 (-1) Hu S) as (a & R & A & _); [left; auto|]. exists a. exact A.
    - destruct (hover_story _ _ _ _ h hf r (-1) 1 Hu S) as (a & R & A & _); [right; auto|]. exists a. exact A.
    - destruct (transition_story _ _ _ _ _ _ _ _ _ _ _ Hu S E) as (a & T & c' & R & _ & _ & A & _). exists a. exact A. }
  destruct A as [a A].
  split.
  - intro i. rewrite !A, X0. unfold fraction. fold (xof (sg_settings s) (sg_n s)). ring.
  - intro H1. rewrite A. replace (xof (sg_settings s) (sg_n s) (last_row (sg_n s))) with 1 by (symmetry; exact H1). ring.
Qed.
(** level segments stay at their altitude *)
Theorem C27_level : forall s b h law, became s b -> sg_kind s = Cruising h law -> forall i, altitude b i = altitude b 0%nat.
Proof.
  intros s b h law Hb E i. destruct (became_story _ _ Hb) as (Hu & w & w1 & S).
  destruct (cruise_story _ _ _ _ _ _ Hu S E) as (a & c' & k' & R & _ & A & _). now rewrite !A.
Qed.
(** the stored position has the stored altitude, except that the last point of a segment is moved
    to the altitude at which the next one is asked to start *)
Theorem C27_seam_refuted : forall a s b h, became_after a s b -> start_altitude (sg_kind b) = Some h ->
  altitude a (last_row (sg_n a)) <> h ->
  - vz (pos (sg_conds a) (last_row (sg_n a))) <> altitude a (last_row (sg_n a)).
Proof.
  intros a s b h (segs & out & k & Hu & H & X & Y & Z) Hh Ha.
  destruct (mission_pairs _ _ Hu H k s a b X Y Z) as (pa & w & hb & C & Ca & _).
  destruct C as (E & C1 & C2 & _). rewrite Ca. rewrite <- C2, Hh. cbn. unfold last_row. rewrite Nat.eqb_refl. cbn. rewrite Ropp_involutive.
  unfold last_row in Ha. auto.
Qed.

(** ** Speeds and rates of climbs and descents *)
Theorem C27_speed : forall s b h hf law i v, became s b -> sg_kind s = Climbing h hf law -> no_sideways s ->
  asked_speed s law (fraction s i) (altitude b i) = Some v -> possible law v -> air_speed b i = v.
Proof.
  intros s b h hf law i v Hb E Hy Hv Hp. destruct (became_story _ _ Hb) as (Hu & w & w1 & S).
  exact (climb_speed _ _ _ _ _ _ _ _ _ Hu S E Hy Hv Hp).
Qed.
Theorem C27_rate : forall s b h hf law i r, became s b -> sg_kind s = Climbing h hf law ->
  asked_rate law = Some r -> climb_rate b i = r.
Proof.
  intros s b h hf law i r Hb E Hr. destruct (became_story _ _ Hb) as (Hu & w & w1 & S).
  exact (climb_rate_asked _ _ _ _ _ _ _ _ _ Hu S E Hr).
Qed.
(** the altitude gained is the asked rate times the time taken, at every control point *)
Theorem C27_clock : forall s b h hf law r, became s b -> sg_kind s = Climbing h hf law ->
  asked_rate law = Some r -> r <> 0 -> integrates_constants (sg_settings s) (sg_n s) ->
  ends_at_one (sg_settings s) (sg_n s) ->
  forall i, altitude b i - altitude b 0%nat = r * since_start b i.
Proof.
  intros s b h hf law r Hb E Hr H0 Hi He. destruct (became_story _ _ Hb) as (Hu & w & w1 & S).
  exact (climb_clock _ _ _ _ _ _ _ _ Hu S E Hr H0 Hi He).
Qed.
Lemma mach_of : forall s b, became s b -> forall i, mach_number b i = air_speed b i / sound_at s (altitude b i) /\
  dynamic_pressure b i = 1 / 2 * density_at s (altitude b i) * air_speed b i ^ 2.
Proof.
  intros s b Hb i. destruct (became_story _ _ Hb) as (Hu & w & w1 & S).
  destruct (st_good _ _ _ _ S) as (F & _). specialize (F i).
  unfold mach_number, air_speed, sound_at, dynamic_pressure, density_at, altitude.
  rewrite (st_mach _ _ _ _ S), (st_speed _ _ _ _ S), (st_alt _ _ _ _ S), (st_dynp _ _ _ _ S).
  split.
  - rewrite (f_mach _ _ _ _ F), (f_sound _ _ _ _ F). reflexivity.
  - rewrite (f_dynp _ _ _ _ F), (f_rho _ _ _ _ F). reflexivity.
Qed.
(** the laws of Mach number fly that Mach number in the air at the altitude of the point *)
Definition asked_mach (law : climb_law) (x : R) : option R :=
  match law with
  | Mach_rate M _ | Mach_distance M _ => Some M
  | Linear_mach_rate M0 Mf _ | Descent_linear_mach_rate M0 Mf _ => Some (M0 + x * (Mf - M0))
  | _ => None
  end.
Theorem C27_mach : forall s b h hf law i M, became s b -> sg_kind s = Climbing h hf law -> no_sideways s ->
  asked_mach law (fraction s i) = Some M -> 0 < sound_at s (altitude b i) ->
  possible law (M * sound_at s (altitude b i)) -> mach_number b i = M.
Proof.
  intros s b h hf law i M Hb E Hy HM Hs Hp.
  destruct (mach_of _ _ Hb i) as [-> _].
  rewrite (C27_speed s b h hf law i (M * sound_at s (altitude b i)) Hb E Hy); [field; lra| |exact Hp].
  destruct law; cbn in HM; try discriminate; injection HM as <-; reflexivity.
Qed.
(** the laws of equivalent air speed fly the same dynamic pressure at every point: that of the
    asked speed at sea level *)
Theorem C27_equivalent : forall s b h hf law i e, became s b -> sg_kind s = Climbing h hf law -> no_sideways s ->
  (exists r, law = EAS_rate e r \/ law = Descent_EAS_rate e r) ->
  0 < density_at s (altitude b i) -> 0 < an_rho (sg_analyses s) 0 0 ->
  possible law (e / sqrt (density_at s (altitude b i) / an_rho (sg_analyses s) 0 0)) ->
  dynamic_pressure b i = 1 / 2 * an_rho (sg_analyses s) 0 0 * e ^ 2.
Proof.
  intros s b h hf law i e Hb E Hy (r & Hl) Hd H0 Hp.
  destruct (mach_of _ _ Hb i) as [_ ->].
  rewrite (C27_speed s b h hf law i (e / sqrt (density_at s (altitude b i) / an_rho (sg_analyses s) 0 0)) Hb E Hy);
    [|destruct Hl as [-> | ->]; reflexivity|exact Hp].
  set (d := density_at s (altitude b i)) in *. set (d0 := an_rho (sg_analyses s) 0 0) in *.
  assert (Q : 0 < d / d0) by (apply Rdiv_lt_0_compat; assumption).
  assert (q : sqrt (d / d0) ^ 2 = d / d0) by (rewrite <- Rsqr_pow2; apply Rsqr_sqrt; lra).
  assert (sqrt (d / d0) <> 0) by (apply Rgt_not_eq, sqrt_lt_R0; exact Q).
  replace ((e / sqrt (d / d0)) ^ 2) with (e ^ 2 / sqrt (d / d0) ^ 2) by (field; assumption).
  rewrite q. field. split; lra.
Qed.
(** the laws of calibrated air speed fly the speed of the formula at the air of the point *)
Theorem C27_calibrated : forall s b h hf cas r i, became s b -> no_sideways s ->
  let p := an_press (sg_analyses s) in let d := an_rho (sg_analyses s) in let dT := deviation s in
  (sg_kind s = Climbing h hf (CAS_rate cas r) ->
   let v := cas_speed cas (p (altitude b i) dT) (d (altitude b i) dT) (p 0 0) (d 0 0) in
   Rabs r <= v -> air_speed b i = v) /\
  (sg_kind s = Climbing h hf (Descent_CAS_rate cas r) ->
   let v := cas_speed cas (p (altitude b i) dT) (d (altitude b i) dT) (p 0 dT) (d 0 dT) in
   Rabs r <= v -> air_speed b i = v).
Proof.
  intros s b h hf cas r i Hb Hy p d dT. destruct (became_story _ _ Hb) as (Hu & w & w1 & S).
  split; intros E v Hv; rewrite (air_speed_norm _ _ _ _ i S);
    destruct (climb_story _ _ _ _ _ _ _ Hu S E) as (alt0 & Rs & A1 & A2 & A3 & K); cbv zeta in A1, A2;
    rewrite A2, Hy; unfold v, p, d, dT in *; rewrite A1 in *;
    cbn [climb_velocity climb_prepare fst snd press rho alt update_atmosphere set_visc set_sound set_rho set_temp set_press set_alt];
    apply norm_horizontal; rewrite ?Rabs_Ropp; exact Hv.
Qed.
(** the law of dynamic pressure takes the density at the altitudes stored when the evaluation
    starts, so it flies the asked pressure only where these are already right *)
Theorem C27_pressure : forall s b h hf q r i, became s b -> sg_kind s = Climbing h hf (Dynp_rate q r) -> no_sideways s ->
  let stored := density_at s (altitude s i) in
  0 < q -> 0 < stored -> Rabs r <= sqrt (2 * q / stored) ->
  dynamic_pressure b i = q * (density_at s (altitude b i) / stored).
Proof.
  intros s b h hf q r i Hb E Hy stored Hq Hs Hr. destruct (became_story _ _ Hb) as (Hu & w & w1 & S).
  destruct (mach_of _ _ Hb i) as [_ ->].
  assert (V : air_speed b i = sqrt (2 * q / stored)).
  { rewrite (air_speed_norm _ _ _ _ i S).
    destruct (climb_story _ _ _ _ _ _ _ Hu S E) as (alt0 & Rs & A1 & A2 & A3 & K); cbv zeta in A1, A2.
    rewrite A2, Hy.
    cbn [climb_velocity climb_prepare fst snd press rho alt update_atmosphere set_visc set_sound set_rho set_temp set_press set_alt].
    apply norm_horizontal. rewrite Rabs_Ropp. exact Hr. }
  rewrite V. assert (Q : 0 < 2 * q / stored) by (apply Rdiv_lt_0_compat; lra).
  rewrite <- Rsqr_pow2, Rsqr_sqrt by lra. field. lra.
Qed.
(** straight climbs over a given distance: the path has the slope asked for, and at constant
    speed the distance is flown exactly *)
Theorem C27_slope : forall s b h hf law d i, became s b -> sg_kind s = Climbing h hf law ->
  (exists v, law = Speed_distance v d \/ law = Mach_distance v d) -> d <> 0 ->
  climb_rate b i * d = ground_speed b i * (hf - altitude b 0%nat).
Proof.
  intros s b h hf law d i Hb E (v & Hl) Hd. destruct (became_story _ _ Hb) as (Hu & w & w1 & S).
  assert (X0 : xof (sg_settings s) (sg_n s) 0%nat = 0) by (destruct Hu as [[X _] _]; exact X).
  destruct (climb_story _ _ _ _ _ _ _ Hu S E) as (alt0 & Rs & A1 & A2 & A3 & K); cbv zeta in A1, A2.
  unfold climb_rate, ground_speed. rewrite A1, X0, !A2. cbn [vx vz].
  assert (T : sin (atan ((hf - alt0) / d)) * d = cos (atan ((hf - alt0) / d)) * (hf - alt0)).
  { pose proof (cos_atan ((hf - alt0) / d)) as C.
    pose proof (sin_atan ((hf - alt0) / d)) as Si. rewrite Si, C.
    assert (sqrt (1 + ((hf - alt0) / d)²) <> 0) by (apply Rgt_not_eq, sqrt_lt_R0; pose proof (Rle_0_sqr ((hf - alt0) / d)); lra).
    field. auto. }
  set (a := atan ((hf - alt0) / d)) in *. 
  destruct Hl as [-> | ->]; cbn [climb_velocity fst snd].
  - fold a. transitivity (v * (sin a * d)); [ring|rewrite T; ring].
  - fold a. match goal with |- context [v * ?m] => transitivity (v * m * (sin a * d)); [ring|rewrite T; ring] end.
Qed.
Theorem C27_distance : forall s b h hf v d, became s b -> sg_kind s = Climbing h hf (Speed_distance v d) ->
  0 < v -> 0 < d -> hf <> altitude b 0%nat -> integrates_constants (sg_settings s) (sg_n s) ->
  ends_at_one (sg_settings s) (sg_n s) -> distance_flown b = d.
Proof.
  intros s b h hf v d Hb E Hv Hd Hh Hi He. destruct (became_story _ _ Hb) as (Hu & w & w1 & S).
  assert (X0 : xof (sg_settings s) (sg_n s) 0%nat = 0) by (destruct Hu as [[X _] _]; exact X).
  assert (X1 : xof (sg_settings s) (sg_n s) (last_row (sg_n s)) = 1) by exact He.
  destruct (climb_story _ _ _ _ _ _ _ Hu S E) as (alt0 & Rs & A1 & A2 & A3 & K); cbv zeta in A1, A2, A3.
  assert (Ha : altitude b 0%nat = alt0) by (rewrite A1, X0; ring).
  assert (Tk : timed (w_kind w1)).
  { rewrite <- (st_kind1 _ _ _ _ S). destruct (st_init _ _ _ _ S) as (pr & Ei & _). rewrite E in Ei.
    destruct (climb_init _ _ _ _ _ _ _ _ _ _ _ Ei) as (? & _ & _ & _ & _ & Kk & _). rewrite (st_kind1 _ _ _ _ S), Kk. exact Logic.I. }
  set (t := (hf - alt0) / d). 
  rewrite (flown_const _ _ _ _ (cos (atan t) * v) Hu S Tk Hi).
  - unfold elapsed. fold (since_start b (last_row (sg_n b))). rewrite (st_n _ _ _ _ S), A3, X1, X0. cbn [climb_velocity snd]. fold t.
    assert (T0 : t <> 0) by (unfold t; intro Z; apply Hh; rewrite Ha; assert (hf - alt0 = t * d) by (unfold t; field; lra); unfold t in H; rewrite Z in H; lra).
    assert (C : 0 < cos (atan t)) by (destruct (atan_bound t); apply cos_gt_0; lra).
    assert (Si : sin (atan t) = t * cos (atan t)).
    { pose proof (tan_atan t) as Ta. unfold tan in Ta. rewrite <- Ta at 2. field. lra. }
    rewrite (Sum_ext _ _ (fun j => ((hf - alt0) / (sin (atan t) * v)) * Iof (sg_settings s) (sg_n s) (last_row (sg_n s)) j)).
    + rewrite Sum_scal. assert (Hs : Sum (sg_n s) (Iof (sg_settings s) (sg_n s) (last_row (sg_n s))) = 1) by exact Hi.
      rewrite Hs, Si. replace (hf - alt0) with (t * d) by (unfold t; field; lra). field. repeat split; lra.
    + intros j _. rewrite Si. field. repeat split; try lra.
  - intros i _. unfold ground_speed. rewrite A2. reflexivity.
Qed.

(** ** Level segments *)
Lemma cruise_facts : forall s b h law, became s b -> sg_kind s = Cruising h law ->
  exists h1 c' k' p, resolve_altitude h p = Some h1 /\
    init_cruise (sg_analyses s) (deviation s) p (fraction s) h law (sg_conds s) = Some (c', k') /\
    (forall i, altitude b i = h1) /\ (forall i, since_start b i = time c' i - time c' 0%nat) /\
    (speed_set (Cruising h law) -> vel (sg_conds b) = vel c') /\
    (pitch_held (sg_settings s) (Cruising h law) -> forall i, pitch b i = vy (rot c' i)) /\
    fraction s 0%nat = 0 /\ sg_n b = sg_n s /\
    (forall i, air_speed b i = norm (vel (sg_conds b) i)) /\
    (forall v, integrates_constants (sg_settings s) (sg_n s) -> (forall i, point b i -> ground_speed b i = v) ->
       distance_flown b = v * elapsed b).
Proof.
  intros s b h law Hb E. destruct (became_story _ _ Hb) as (Hu & w & w1 & S).
  destruct (cruise_story _ _ _ _ _ _ Hu S E) as (h1 & c' & k' & R & Ei & A1 & A2 & A3 & A4 & K).
  exists h1, c', k', (w_prev w1). split; [exact R|]. split; [exact Ei|]. split; [exact A1|]. split; [exact A2|].
  split; [exact A3|]. split; [exact A4|]. split; [destruct Hu as [[X _] _]; exact X|].
  split; [exact (st_n _ _ _ _ S)|]. split; [intro i; exact (air_speed_norm _ _ _ _ i S)|].
  intros v Hi Hv. refine (flown_const _ _ _ _ v Hu S _ Hi Hv).
  rewrite <- (k_kind _ _ _ K). rewrite (k_kind _ _ _ K).
  destruct (other_story _ _ _ _ Hu S) as (nu' & w0 & N1 & N2 & E0 & B1 & B2 & B3 & B4 & B5); [rewrite E; reflexivity|].
  rewrite B5. rewrite E in E0. unfold init_conditions in E0. cbn [w_kind] in E0. cbv zeta in E0.
  unfold init_cruise in E0. destruct (resolve_altitude h (w_prev (World (w_prev w1) (sg_n s) (Cruising h law) nu' (sg_conds s)))); [|discriminate].
  destruct law; try (injection E0 as <-; exact Logic.I);
    destruct (resolve_pitch _ _); try discriminate; injection E0 as <-; exact Logic.I.
Qed.
Lemma last_fraction : forall s, ends_at_one (sg_settings s) (sg_n s) -> fraction s (last_row (sg_n s)) = 1.
Proof. intros s H. exact H. Qed.
Ltac unfold_cruise Ei R :=
  unfold init_cruise in Ei; rewrite R in Ei; cbv zeta in Ei; injection Ei as <- <-.
Lemma norm_x : forall v, 0 <= v -> norm (V3 v 0 0) = v.
Proof. intros v H. unfold norm, vdot. cbn. replace (v * v + 0 * 0 + 0 * 0) with (v * v) by ring. apply sqrt_square, H. Qed.

Theorem C27_cruise : forall s b h v d, became s b -> sg_kind s = Cruising h (Cruise_speed v d) -> 0 < v ->
  (forall i, ground_speed b i = v) /\
  (no_sideways s -> no_vertical s -> forall i, air_speed b i = v) /\
  (ends_at_one (sg_settings s) (sg_n s) -> v * elapsed b = d /\
     (integrates_constants (sg_settings s) (sg_n s) -> distance_flown b = d)).
Proof.
  intros s b h v d Hb E Hv. destruct (cruise_facts _ _ _ _ Hb E) as (h1 & c' & k' & p & R & Ei & A1 & A2 & A3 & A4 & X0 & Hn & An & Fl).
  unfold_cruise Ei R. specialize (A3 Logic.I).
  assert (G : forall i, ground_speed b i = v) by (intro i; unfold ground_speed; rewrite A3; reflexivity).
  split; [exact G|]. split.
  - intros Hy Hz i. rewrite An, A3. cbn [vel set_time put_vx set_vel]. unfold with_x.
    change (norm (V3 v (vy (vel (sg_conds s) i)) (vz (vel (sg_conds s) i))) = v). rewrite Hy, Hz. apply norm_x. lra.
  - intro He. assert (T : v * elapsed b = d).
    { unfold elapsed. fold (since_start b (last_row (sg_n b))). rewrite Hn, A2. cbn [time set_time]. unfold timeline.
      rewrite X0, (last_fraction _ He). field. lra. }
    split; [exact T|]. intro Hi. rewrite (Fl v Hi (fun i _ => G i)). exact T.
Qed.
Theorem C27_cruise_mach : forall s b h M d, became s b -> sg_kind s = Cruising h (Cruise_mach M d) ->
  let a := sound_at s (altitude b 0%nat) in 0 < M -> 0 < a -> no_sideways s -> no_vertical s ->
  (forall i, mach_number b i = M) /\
  (ends_at_one (sg_settings s) (sg_n s) -> M * a * elapsed b = d /\
     (integrates_constants (sg_settings s) (sg_n s) -> distance_flown b = d)).
Proof.
  intros s b h M d Hb E a HM Ha Hy Hz. destruct (cruise_facts _ _ _ _ Hb E) as (h1 & c' & k' & p & R & Ei & A1 & A2 & A3 & A4 & X0 & Hn & An & Fl).
  unfold_cruise Ei R. specialize (A3 Logic.I).
  assert (Aa : a = an_sound (sg_analyses s) h1 (deviation s)) by (unfold a, sound_at; rewrite A1; reflexivity).
  assert (Q : 0 < M * a) by (apply Rmult_lt_0_compat; assumption).
  assert (G : forall i, ground_speed b i = M * a) by (intro i; unfold ground_speed; rewrite A3, Aa; reflexivity).
  split.
  - intro i. destruct (mach_of _ _ Hb i) as [-> _]. unfold sound_at. rewrite A1, <- Aa.
    assert (V : air_speed b i = M * a).
    { rewrite An, A3. change (norm (V3 (M * an_sound (sg_analyses s) h1 (deviation s)) (vy (vel (sg_conds s) i)) (vz (vel (sg_conds s) i))) = M * a).
      rewrite Hy, Hz, <- Aa. apply norm_x. lra. }
    rewrite V. field. lra.
  - intro He. assert (T : M * a * elapsed b = d).
    { unfold elapsed. fold (since_start b (last_row (sg_n b))). rewrite Hn, A2. cbn [time set_time]. unfold timeline.
      rewrite X0, (last_fraction _ He).
      cbn [sound update_atmosphere set_visc set_sound set_alt set_rho set_temp set_press alt]. rewrite <- Aa. field. split; lra. }
    split; [exact T|]. intro Hi. rewrite (Fl _ Hi (fun i _ => G i)). exact T.
Qed.
(** loiters and hovers last as long as asked *)
Definition asked_duration (law : cruise_law) : option R :=
  match law with
  | Loiter_speed _ d | Loiter_mach _ d | Loiter_dynp _ d | Hovering d => Some d
  | _ => None
  end.
Theorem C27_loiter : forall s b h law d, became s b -> sg_kind s = Cruising h law -> asked_duration law = Some d ->
  (forall i, since_start b i = fraction s i * d) /\
  (ends_at_one (sg_settings s) (sg_n s) -> elapsed b = d).
Proof.
  intros s b h law d Hb E Hd. destruct (cruise_facts _ _ _ _ Hb E) as (h1 & c' & k' & p & R & Ei & A1 & A2 & A3 & A4 & X0 & Hn & An & Fl).
  assert (A : forall i, since_start b i = fraction s i * d).
  { intro i. destruct law; cbn in Hd; try discriminate; injection Hd as ->; unfold_cruise Ei R;
    rewrite A2; cbn [time set_time]; unfold timeline; rewrite ?X0; ring. }
  split; [exact A|]. intro He. unfold elapsed. fold (since_start b (last_row (sg_n b))). rewrite Hn, A, (last_fraction _ He). ring.
Qed.
Theorem C27_loiter_speed : forall s b h d i, became s b ->
  (forall v, sg_kind s = Cruising h (Loiter_speed v d) -> ground_speed b i = v) /\
  (forall M, sg_kind s = Cruising h (Loiter_mach M d) -> ground_speed b i = M * sound_at s (altitude b i)) /\
  (sg_kind s = Cruising h (Hovering d) -> ground_speed b i = 0).
Proof.
  intros s b h d i Hb. split; [|split].
  - intros v E. destruct (cruise_facts _ _ _ _ Hb E) as (h1 & c' & k' & p & R & Ei & A1 & A2 & A3 & _).
    unfold_cruise Ei R. unfold ground_speed. rewrite (A3 Logic.I). reflexivity.
  - intros v E. destruct (cruise_facts _ _ _ _ Hb E) as (h1 & c' & k' & p & R & Ei & A1 & A2 & A3 & _).
    unfold_cruise Ei R. unfold ground_speed, sound_at. rewrite (A3 Logic.I), A1. reflexivity.
  - intros E. destruct (cruise_facts _ _ _ _ Hb E) as (h1 & c' & k' & p & R & Ei & A1 & A2 & A3 & _).
    unfold_cruise Ei R. unfold ground_speed. rewrite (A3 Logic.I). reflexivity.
Qed.
(** accelerated cruise: the speed follows the acceleration and ends as asked *)
Theorem C27_accelerate : forall s b h v0 vf ax, became s b -> sg_kind s = Cruising h (Cruise_accel v0 vf ax) -> ax <> 0 ->
  (forall i, ground_speed b i = v0 + ax * since_start b i) /\
  (ends_at_one (sg_settings s) (sg_n s) -> ground_speed b (last_row (sg_n s)) = vf).
Proof.
  intros s b h v0 vf ax Hb E Ha. destruct (cruise_facts _ _ _ _ Hb E) as (h1 & c' & k' & p & R & Ei & A1 & A2 & A3 & A4 & X0 & Hn & An & Fl).
  unfold_cruise Ei R. specialize (A3 Logic.I).
  assert (G : forall i, ground_speed b i = v0 + ax * since_start b i).
  { intro i. rewrite A2. unfold ground_speed. rewrite A3.
    change (v0 + (timeline (fraction s i) (time (sg_conds s) 0%nat) ((vf - v0) / ax + time (sg_conds s) 0%nat) - time (sg_conds s) 0%nat) * ax
      = v0 + ax * (timeline (fraction s i) (time (sg_conds s) 0%nat) ((vf - v0) / ax + time (sg_conds s) 0%nat)
                   - timeline (fraction s 0%nat) (time (sg_conds s) 0%nat) ((vf - v0) / ax + time (sg_conds s) 0%nat))).
    unfold timeline. rewrite X0. ring. }
  split; [exact G|]. intro He. rewrite G, A2. cbn [time set_time]. unfold timeline. rewrite X0, (last_fraction _ He). field. exact Ha.
Qed.
(** cruise and loiter at constant dynamic pressure use the density at the stored altitudes *)
Theorem C27_cruise_pressure : forall s b h law q i, became s b -> sg_kind s = Cruising h law ->
  (exists d, law = Cruise_dynp q d \/ law = Loiter_dynp q d) -> no_sideways s -> no_vertical s ->
  let stored := density_at s (altitude s i) in 0 < q -> 0 < stored ->
  dynamic_pressure b i = q * (density_at s (altitude b i) / stored).
Proof.
  intros s b h law q i Hb E (d & Hl) Hy Hz stored Hq Hs.
  destruct (cruise_facts _ _ _ _ Hb E) as (h1 & c' & k' & p & R & Ei & A1 & A2 & A3 & A4 & X0 & Hn & An & Fl).
  assert (Ss : speed_set (Cruising h law)) by (destruct Hl as [-> | ->]; exact Logic.I). specialize (A3 Ss).
  destruct (mach_of _ _ Hb i) as [_ ->].
  assert (Q : 0 < q / (stored * (1 / 2))) by (apply Rdiv_lt_0_compat; lra).
  assert (V : air_speed b i = sqrt (q / (stored * (1 / 2)))).
  { rewrite An, A3. transitivity (norm (V3 (sqrt (q / (stored * (1 / 2)))) (vy (vel (sg_conds s) i)) (vz (vel (sg_conds s) i)))).
    - destruct Hl as [-> | ->]; unfold_cruise Ei R; reflexivity.
    - rewrite Hy, Hz. apply norm_x, sqrt_pos. }
  rewrite V, <- Rsqr_pow2, Rsqr_sqrt by lra. field. lra.
Qed.
(** the time such a cruise takes is the asked distance over the ground speed of its first point *)
Theorem C27_pressure_time : forall s b h q d, became s b -> sg_kind s = Cruising h (Cruise_dynp q d) ->
  0 < q -> 0 < density_at s (altitude s 0%nat) -> ends_at_one (sg_settings s) (sg_n s) ->
  (ground_speed b 0%nat * elapsed b = d) /\
  (forall i, since_start b i = fraction s i * elapsed b).
Proof.
  intros s b h q d Hb E Hq Hs He.
  destruct (cruise_facts _ _ _ _ Hb E) as (h1 & c' & k' & p & R & Ei & A1 & A2 & A3 & A4 & X0 & Hn & An & Fl).
  unfold_cruise Ei R. specialize (A3 Logic.I).
  set (v0 := sqrt (q / (density_at s (altitude s 0%nat) * (1 / 2)))).
  assert (V : ground_speed b 0%nat = v0) by (unfold ground_speed; rewrite A3; reflexivity).
  assert (0 < v0) by (apply sqrt_lt_R0, Rdiv_lt_0_compat; lra).
  assert (T : forall i, since_start b i = fraction s i * (d / v0)).
  { intro i. rewrite A2. change (timeline (fraction s i) (time (sg_conds s) 0%nat) (d / v0 + time (sg_conds s) 0%nat)
      - timeline (fraction s 0%nat) (time (sg_conds s) 0%nat) (d / v0 + time (sg_conds s) 0%nat) = fraction s i * (d / v0)).
    unfold timeline. rewrite X0. ring. }
  assert (L : elapsed b = d / v0).
  { unfold elapsed. fold (since_start b (last_row (sg_n b))). rewrite Hn, T, (last_fraction _ He). ring. }
  rewrite V, L. split; [field; lra | exact T].
Qed.
(** vertical climbs and descents in hover *)
Theorem C27_hover_vertical : forall s b h hf r, became s b -> 0 < r -> ends_at_one (sg_settings s) (sg_n s) ->
  (sg_kind s = Hover_climb h hf r ->
   r * elapsed b = hf - altitude b 0%nat /\ forall i, climb_rate b i = r /\ ground_speed b i = 0 /\
     altitude b i - altitude b 0%nat = r * since_start b i) /\
  (sg_kind s = Hover_descent h hf r ->
   r * elapsed b = altitude b 0%nat - hf /\ forall i, climb_rate b i = - r /\ ground_speed b i = 0 /\
     altitude b i - altitude b 0%nat = - r * since_start b i).
Proof.
  intros s b h hf r Hb Hr He. destruct (became_story _ _ Hb) as (Hu & w & w1 & S).
  assert (X0 : xof (sg_settings s) (sg_n s) 0%nat = 0) by (destruct Hu as [[X _] _]; exact X).
  assert (X1 : xof (sg_settings s) (sg_n s) (last_row (sg_n s)) = 1) by exact He.
  split; intro E.
  - destruct (hover_story _ _ _ _ h hf r 1 (-1) Hu S) as (a & R & A1 & A2 & A3 & _); [left; auto|].
    split; [|intro i; unfold climb_rate, ground_speed; rewrite !A1, A2, A3, X0; cbn [vx vz]; split; [ring|split; [reflexivity|field; lra]]].
    unfold elapsed. fold (since_start b (last_row (sg_n b))). rewrite (st_n _ _ _ _ S), A3, A1, X0, X1. field. lra.
  - destruct (hover_story _ _ _ _ h hf r (-1) 1 Hu S) as (a & R & A1 & A2 & A3 & _); [right; auto|].
    split; [|intro i; unfold climb_rate, ground_speed; rewrite !A1, A2, A3, X0; cbn [vx vz]; split; [ring|split; [reflexivity|field; lra]]].
    unfold elapsed. fold (since_start b (last_row (sg_n b))). rewrite (st_n _ _ _ _ S), A3, A1, X0, X1. field. lra.
Qed.

(** ** C28: the pitch angle and the clock *)
(** The constant pitch rate cruise adds rate times stored start time to every pitch angle: with
    the zero times of a new segment it runs from the initial to the final angle ... *)
Theorem C28_pitch_rate : forall s b h T Tf r, became s b -> sg_kind s = Cruising h (Cruise_pitch (Some T) Tf r) -> r <> 0 ->
  let late := r * time (sg_conds s) 0%nat in
  (forall i, pitch b i = T + r * since_start b i + late) /\
  (ends_at_one (sg_settings s) (sg_n s) -> pitch b (last_row (sg_n s)) = Tf + late).
Proof.
  intros s b h T Tf r Hb E Hr late. destruct (cruise_facts _ _ _ _ Hb E) as (h1 & c' & k' & p & R & Ei & A1 & A2 & A3 & A4 & X0 & Hn & An & Fl).
  unfold_cruise Ei R.
  assert (A : forall i, pitch b i = r * timeline (fraction s i) (time (sg_conds s) 0%nat) ((Tf - T) / r + time (sg_conds s) 0%nat) + T).
  { intro i. rewrite A4; [reflexivity|]. right. exact Logic.I. }
  split.
  - intro i. rewrite A, A2. cbn [time set_time]. unfold timeline, late. rewrite X0. ring.
  - intro He. rewrite A. unfold timeline, late. rewrite (last_fraction _ He). field. exact Hr.
Qed.
(** ... and evaluated again, when it holds the times of the first evaluation, it does not, unless
    it starts at time zero *)
Theorem C28_again_refuted : forall s b h T Tf r, became s b -> sg_kind s = Cruising h (Cruise_pitch (Some T) Tf r) -> r <> 0 ->
  time (sg_conds s) 0%nat <> 0 -> pitch b 0%nat <> T.
Proof.
  intros s b h T Tf r Hb E Hr Ht. destruct (C28_pitch_rate _ _ _ _ _ _ Hb E Hr) as [A _]. rewrite A.
  unfold since_start. assert (r * time (sg_conds s) 0%nat <> 0) by (apply Rmult_integral_contrapositive; auto). lra.
Qed.
(** a pitch angle that is not given is inherited and stored *)
Theorem C28_inherit : forall a s b h Tf r, became_after a s b -> sg_kind s = Cruising h (Cruise_pitch None Tf r) -> r <> 0 ->
  time (sg_conds s) 0%nat = 0 ->
  pitch b 0%nat = pitch a (last_row (sg_n a)) /\
  exists h', sg_kind b = Cruising h' (Cruise_pitch (Some (pitch a (last_row (sg_n a)))) Tf r).
Proof.
  intros a s b h Tf r (segs & out & k & Hu & H & X & Y & Z) E Hr Ht.
  destruct (mission_pairs _ _ Hu H k s a b X Y Z) as (pa & w & hb & C & Ca & Ha).
  assert (Us : usable s) by (rewrite Forall_forall in Hu; apply Hu; exact (nth_error_In _ _ X)).
  destruct (story_from _ _ _ _ _ Us C) as (w1 & S & P).
  assert (X0 : xof (sg_settings s) (sg_n s) 0%nat = 0) by (destruct Us as [[X' _] _]; exact X').
  destruct (other_story _ _ _ _ Us S) as (nu' & w0 & N1 & N2 & E0 & B1 & B2 & B3 & B4 & B5); [rewrite E; reflexivity|].
  rewrite E in E0. unfold init_conditions in E0. cbn [w_kind w_cur w_prev w_num] in E0. cbv zeta in E0. rewrite N1 in E0.
  unfold init_cruise in E0. destruct (resolve_altitude h (w_prev w1)) as [h1|] eqn:R; [|discriminate].
  rewrite P in E0. cbn [resolve_pitch] in E0. cbv zeta in E0. injection E0 as <-.
  cbn [set_kind set_cur w_cur w_kind] in B4, B5.
  destruct (override_same (start_altitude (w_kind w)) (sg_n a) pa) as (_ & _ & _ & O & _).
  assert (La : pitch a (last_row (sg_n a)) = vy (rot pa (sg_n a - 1)%nat)) by (unfold pitch, last_row; rewrite Ca, O; reflexivity).
  rewrite La. split.
  - unfold pitch. rewrite (st_rot _ _ _ _ S). fold (pitch_of w 0%nat).
    assert (K : kept (sg_settings s) w1 w) by (apply (st_kept _ _ _ _ S); rewrite B5; exact Logic.I).
    rewrite (k_pitch _ _ _ K); [|rewrite B5; right; exact Logic.I]. unfold pitch_of. rewrite B4. cbn. unfold timeline. rewrite X0, Ht. ring.
  - exists h. rewrite (st_kind _ _ _ _ S), (st_kind1 _ _ _ _ S), B5. reflexivity.
Qed.
(** The accelerated transition (whose unknowns the user must not unpack, see M_Segments) has the
    same dependence *)
Theorem C28_transition : forall s b h v0 vf ax T Tf, became s b ->
  sg_kind s = Cruising h (Transition_pitch v0 vf ax (Some T) Tf) -> unpack_skipped (sg_settings s) = true ->
  ax <> 0 -> vf <> v0 ->
  let D := (vf - v0) / ax in
  (forall i, since_start b i = fraction s i * D) /\
  (forall i, ground_speed b i = v0 + ax * since_start b i) /\
  (forall i, pitch b i = T + (Tf - T) * (since_start b i + time (sg_conds s) 0%nat) / D).
Proof.
  intros s b h v0 vf ax T Tf Hb E Hs Ha Hv D. destruct (cruise_facts _ _ _ _ Hb E) as (h1 & c' & k' & p & R & Ei & A1 & A2 & A3 & A4 & X0 & Hn & An & Fl).
  unfold_cruise Ei R. specialize (A3 Logic.I). specialize (A4 (or_introl Hs)).
  assert (A : forall i, since_start b i = fraction s i * D).
  { intro i. rewrite A2. cbn [time set_time]. unfold timeline, D. rewrite X0. ring. }
  assert (HD : D <> 0) by (unfold D; apply Rmult_integral_contrapositive; split; [lra|apply Rinv_neq_0_compat; exact Ha]).
  split; [exact A|]. split.
  - intro i. rewrite A. unfold ground_speed. rewrite A3.
    change (v0 + (timeline (fraction s i) (time (sg_conds s) 0%nat) ((vf - v0) / ax + time (sg_conds s) 0%nat) - time (sg_conds s) 0%nat) * ax
      = v0 + ax * (fraction s i * D)). unfold timeline, D. ring.
  - intro i. rewrite A4, A.
    change ((if Rltb T Tf then T + timeline (fraction s i) (time (sg_conds s) 0%nat) (D + time (sg_conds s) 0%nat) * (Tf - T) / (D + time (sg_conds s) 0%nat - time (sg_conds s) 0%nat)
             else T - timeline (fraction s i) (time (sg_conds s) 0%nat) (D + time (sg_conds s) 0%nat) * (T - Tf) / (D + time (sg_conds s) 0%nat - time (sg_conds s) 0%nat))
      = T + (Tf - T) * (fraction s i * D + time (sg_conds s) 0%nat) / D).
    unfold timeline. destruct (Rltb T Tf); field; repeat split; try lra; exact HD.
Qed.
(** The climbing transition restarts its clock, which the chaining undoes: pitch and elapsed
    time do not depend on the stored times.  Along the path it accelerates over the given
    distance. *)
Theorem C28_climb_transition : forall s b h hf angle v ax T Tf, became s b ->
  sg_kind s = Transition_climb h hf angle (Some v) ax (Some T) Tf -> unpack_skipped (sg_settings s) = true ->
  ends_at_one (sg_settings s) (sg_n s) ->
  0 < v -> 0 < ax -> 0 < angle < PI / 2 -> altitude b 0%nat < hf ->
  (forall i, pitch b i = T + fraction s i * (Tf - T)) /\
  (forall i, since_start b i = fraction s i * elapsed b) /\
  v * elapsed b + ax * elapsed b ^ 2 / 2 = (hf - altitude b 0%nat) / sin angle.
Proof.
  intros s b h hf angle v ax T Tf Hb E Hs He Hv Ha Hg Hh. destruct (became_story _ _ Hb) as (Hu & w & w1 & S).
  assert (X0 : xof (sg_settings s) (sg_n s) 0%nat = 0) by (destruct Hu as [[X _] _]; exact X).
  assert (X1 : xof (sg_settings s) (sg_n s) (last_row (sg_n s)) = 1) by exact He.
  destruct (transition_story _ _ _ _ _ _ _ _ _ _ _ Hu S E) as (a & T' & c' & R & RT & Ei & A1 & A2 & A3 & A4 & _).
  specialize (A4 Hs). cbn in RT. injection RT as <-.
  unfold init_transition_climb in Ei. rewrite R in Ei. cbn [resolve_pitch] in Ei. cbv zeta in Ei.
  assert (Ea : altitude b 0%nat = a) by (rewrite A1, X0; ring). rewrite Ea in *. clear Ea.
  assert (V : sqrt (vdot (V3 v 0 0) (V3 v 0 0)) = v).
  { unfold vdot. cbn. replace (v * v + 0 * 0 + 0 * 0) with (v * v) by ring. apply sqrt_square. lra. }
  rewrite V in Ei.
  assert (Sg : 0 < sin angle) by (apply sin_gt_0; lra).
  assert (Cg : 0 < cos angle) by (apply cos_gt_0; lra).
  assert (Ds : sqrt ((hf - a) ^ 2 + ((hf - a) / tan angle) ^ 2) = (hf - a) / sin angle).
  { replace ((hf - a) ^ 2 + ((hf - a) / tan angle) ^ 2) with (((hf - a) / sin angle) * ((hf - a) / sin angle) * (Rsqr (sin angle) + Rsqr (cos angle))).
    - rewrite sin2_cos2, Rmult_1_r. apply sqrt_square. apply Rlt_le, Rdiv_lt_0_compat; lra.
    - unfold tan, Rsqr. field. split; lra. }
  rewrite Ds in Ei. set (d := (hf - a) / sin angle) in *.
  assert (Hd : 0 < d) by (apply Rdiv_lt_0_compat; lra).
  set (e := (- v + sqrt (v ^ 2 + 2 * ax * d)) / ax) in *.
  assert (Q : 0 < 2 * ax * d) by (apply Rmult_lt_0_compat; [lra|exact Hd]).
  assert (Q2 : 0 <= v ^ 2 + 2 * ax * d) by (pose proof (pow2_ge_0 v); lra).
  assert (Re : ax * e + v = sqrt (v ^ 2 + 2 * ax * d)) by (unfold e; field; lra).
  assert (Sq : (ax * e + v) ^ 2 = v ^ 2 + 2 * ax * d) by (rewrite Re, <- Rsqr_pow2; apply Rsqr_sqrt; exact Q2).
  assert (Hk : v * e + ax * e ^ 2 / 2 = d).
  { assert (2 * ax * (v * e + ax * e ^ 2 / 2) = 2 * ax * d) by (ring_simplify; ring_simplify in Sq; lra).
    apply Rmult_eq_reg_l with (2 * ax); [exact H|lra]. }
  assert (He0 : e <> 0) by (intro Z; rewrite Z in Hk; lra).
  apply some_inj in Ei.
  assert (Ts : forall i, since_start b i = xof (sg_settings s) (sg_n s) i * e).
  { intro i. rewrite A3, Ei. cbn. rewrite X0. ring. }
  assert (El : elapsed b = e).
  { unfold elapsed. fold (since_start b (last_row (sg_n b))). rewrite (st_n _ _ _ _ S), Ts, X1. ring. }
  rewrite El. split; [|split; [exact Ts|exact Hk]].
  intro i. rewrite A4, Ei. cbn. unfold fraction. fold (xof (sg_settings s) (sg_n s)). field. lra.
Qed.
(** but its first point does not have the given speed: the horizontal part of it is projected on
    the path again, and the vertical part is zero *)
Theorem C28_transition_start_refuted : forall s b h hf angle v ax T Tf, became s b ->
  sg_kind s = Transition_climb h hf angle (Some v) ax (Some T) Tf -> no_sideways s ->
  0 < v -> 0 < angle < PI / 2 -> air_speed b 0%nat <> v.
Proof.
  intros s b h hf angle v ax T Tf Hb E Hy Hv Hg. destruct (became_story _ _ Hb) as (Hu & w & w1 & S).
  assert (X0 : xof (sg_settings s) (sg_n s) 0%nat = 0) by (destruct Hu as [[X _] _]; exact X).
  destruct (transition_story _ _ _ _ _ _ _ _ _ _ _ Hu S E) as (a & T' & c' & R & RT & Ei & A1 & A2 & A3 & A4 & _).
  rewrite (air_speed_norm _ _ _ _ 0 S), A2.
  unfold init_transition_climb in Ei. rewrite R in Ei. cbn [resolve_pitch] in Ei. cbv zeta in Ei. apply some_inj in Ei. rewrite Ei.
  assert (Cg : 0 < cos angle) by (apply cos_gt_0; lra).
  cbn [vel set_time put_vz put_vx set_vel put_altitude_z set_pos set_alt put_pitch set_rot]. unfold with_x, with_z. cbn [vx vy vz].
  rewrite Hy, X0.
  match goal with |- norm (V3 ?x ?y ?z) <> _ => replace x with (v * cos angle) by ring; replace z with 0 by ring end.
  rewrite norm_x by (apply Rlt_le, Rmult_lt_0_compat; lra).
  assert (cos angle < 1) by (rewrite <- cos_0; apply cos_decreasing_1; lra). nra.
Qed.

(** ** C49: coherence *)
Theorem C49_coherent : forall s b, became s b -> forall i, coherent (sg_analyses s) (deviation s) (sg_conds b) i /\
  total_f (sg_conds b) i = applied (sg_kind b) (sg_conds b) i.
Proof.
  intros s b (segs & out & Hu & H & Hb) i. destruct (mission_each _ _ Hu H _ _ Hb) as (pr & w & h & C).
  destruct (story_from _ _ _ _ _ (usable_of _ _ _ _ Hu Hb) C) as (w1 & S & _).
  destruct (st_good _ _ _ _ S) as (F & W & T). specialize (F i). specialize (W i). specialize (T i).
  destruct C as (_ & _ & Ck & _ & _ & Cc). rewrite Cc, Ck. destruct F.
  destruct h as [h|]; (split; [constructor; assumption|exact T]).
Qed.
(** and the position agrees with the altitude, except where the next segment has moved it *)
Theorem C49_position : forall s b, became s b -> forall i, (i < last_row (sg_n b))%nat ->
  vz (pos (sg_conds b) i) = - altitude b i.
Proof.
  intros s b (segs & out & Hu & H & Hb) i Hi. destruct (mission_each _ _ Hu H _ _ Hb) as (pr & w & h & C).
  destruct (story_from _ _ _ _ _ (usable_of _ _ _ _ Hu Hb) C) as (w1 & S & _).
  destruct (st_good _ _ _ _ S) as (F & _). specialize (F i).
  unfold altitude. rewrite (st_alt _ _ _ _ S), (f_alt _ _ _ _ F), Ropp_involutive.
  destruct C as (_ & Cn & _ & _ & _ & Cc). rewrite Cc. rewrite Cn in Hi. unfold last_row in Hi.
  destruct h as [h|]; [|reflexivity]. cbn. destruct (Nat.eqb_spec i (w_n w - 1)); [lia|reflexivity].
Qed.

(** ** Cases *)
Definition runs (segs : list segment) : bool := match evaluate_mission segs with Some _ => true | None => false end.
Lemma runs_out : forall segs, runs segs = true -> exists out, evaluate_mission segs = Some out.
Proof. unfold runs. intros segs H. destruct (evaluate_mission segs) as [out|]; [eauto|discriminate]. Qed.
Lemma mission_length : forall segs out, Forall usable segs -> evaluate_mission segs = Some out -> length out = length segs.
Proof. intros segs out U H. apply (C20_chained segs out U H). Qed.
Lemma runs_became : forall segs k s, Forall usable segs -> runs segs = true -> nth_error segs k = Some s -> exists b, became s b.
Proof.
  intros segs k s Hu Hr Hk. destruct (runs_out _ Hr) as (out & H).
  destruct (nth_error out k) as [b|] eqn:E.
  - exists b, segs, out. repeat split; auto. exists k. auto.
  - apply nth_error_None in E. rewrite (mission_length _ _ Hu H) in E.
    assert (nth_error segs k = None) by (apply nth_error_None; exact E). congruence.
Qed.
Definition tour_settings (skip : bool) : settings :=
  Settings 0 0 None (Some (10, 20)) two_points true false true None skip.
Definition tour_segment (an : analyses) (skip : bool) (k : kind) : segment :=
  Segment (tour_settings skip) an 2 k ex_numerics zero_conds ex_unknowns [ex_unknowns; ex_unknowns].
(** air that thins with height *)
Definition thin_air : analyses :=
  Analyses (fun h _ => 100000 - 10 * h) (fun h _ => 288 - h / 200) (fun h _ => (100000 - 8 * h) / 100000) (fun h _ => 340 - h / 300) (fun _ _ => 1)
    (fun _ => 10) 6000000 1000 900
    (fun _ => (fun _ => 1 / 2, fun _ => 1 / 20)) 20 (3 / 2)
    (fun c => (fun _ => V3 1000 0 0, fun _ => 1 / 2, None, batt c)).
Definition tour_kinds : list (bool * kind) :=
  [(false, Hover_climb (Some 0) 100 2);
   (true, Transition_climb None 200 (1 / 10) (Some 20) 1 (Some (1 / 20)) (1 / 10));
   (false, Climbing None 1000 (Speed_rate 100 5));
   (false, Climbing None 1500 (Speed_angle 100 (1 / 20)));
   (false, Climbing None 2000 (Linear_speed_rate 100 150 5));
   (false, Climbing None 2500 (Speed_distance 100 10000));
   (false, Climbing None 3000 (Mach_rate (1 / 2) 5));
   (false, Climbing None 3500 (Linear_mach_rate (1 / 2) (3 / 5) 5));
   (false, Climbing None 4000 (Mach_distance (3 / 5) 20000));
   (false, Climbing None 4500 (EAS_rate 100 5));
   (false, Climbing None 5000 (CAS_rate 100 5));
   (false, Climbing None 5500 (Dynp_rate 5000 5));
   (false, Cruising None (Cruise_speed 200 100000));
   (false, Cruising (Some 5600) (Cruise_mach (1 / 2) 100000));
   (false, Cruising None (Cruise_dynp 5000 100000));
   (false, Cruising None (Cruise_accel 100 200 2));
   (false, Cruising None (Loiter_speed 200 600));
   (false, Cruising None (Loiter_mach (1 / 2) 600));
   (false, Cruising None (Loiter_dynp 5000 600));
   (false, Cruising None (Cruise_pitch (Some (1 / 20)) (1 / 10) (1 / 100)));
   (false, Cruising None (Cruise_pitch None (1 / 20) (- (1 / 100))));
   (true, Cruising None (Transition_pitch 100 50 (-1) (Some (1 / 20)) (1 / 10)));
   (false, Climbing None 4000 (Descent_EAS_rate 100 5));
   (false, Climbing None 3000 (Descent_CAS_rate 100 5));
   (false, Climbing None 2000 (Descent_linear_mach_rate (3 / 5) (1 / 2) 5));
   (false, Climbing None 1000 (Descent_speed_rate 100 5));
   (false, Climbing None 100 (Descent_speed_angle 100 (1 / 20)));
   (false, Cruising None (Hovering 60));
   (false, Hover_descent None 0 2)].
Definition tour : list segment := map (fun p => tour_segment thin_air (fst p) (snd p)) tour_kinds.
Lemma tour_usable : forall an skip k, usable (tour_segment an skip k).
Proof. intros an skip k. split; [|split; [discriminate|cbn; lia]]. split; [reflexivity|]. intro j. destruct j; reflexivity. Qed.
Lemma tour_runs : Forall usable tour /\ runs tour = true.
Proof.
  split; [|lazy; reflexivity]. unfold tour. apply Forall_forall. intros s H. apply in_map_iff in H.
  destruct H as (p & <- & _). apply tour_usable.
Qed.
(** every segment of the tour meets what C27, C28 and C49 ask of it *)
Lemma tour_became : forall skip k, In (skip, k) tour_kinds -> exists b, became (tour_segment thin_air skip k) b.
Proof.
  intros skip k H. destruct tour_runs as [U E]. destruct (In_nth_error _ _ H) as (n & N).
  apply (runs_became tour n); auto. unfold tour. rewrite nth_error_map, N. reflexivity.
Qed.
Example C27_case :
  (forall skip k, In (skip, k) tour_kinds -> let s := tour_segment thin_air skip k in
     (exists b, became s b) /\ scheduled (sg_kind s) /\ no_sideways s /\ no_vertical s /\
     ends_at_one (sg_settings s) (sg_n s) /\ integrates_constants (sg_settings s) (sg_n s)) /\
  (exists b, became (tour_segment thin_air false (Cruising None (Cruise_speed 200 100000))) b /\
     elapsed b = 500 /\ distance_flown b = 100000 /\ air_speed b 1%nat = 200).
Proof.
  assert (O : forall s, ends_at_one (tour_settings s) 2) by reflexivity.
  assert (I1 : forall s, integrates_constants (tour_settings s) 2).
  { intro s. unfold integrates_constants. cbn. ring. }
  split.
  - intros skip k H s. split; [apply tour_became, H|].
    split; [repeat (destruct H as [H|H]; [injection H as <- <-; exact Logic.I|]); destruct H|].
    split; [intro i; reflexivity|]. split; [intro i; reflexivity|]. split; [apply O|apply I1].
  - destruct (tour_became false (Cruising None (Cruise_speed 200 100000))) as (b & Hb); [do 12 right; left; reflexivity|].
    exists b. split; [exact Hb|]. destruct (C27_cruise _ _ _ _ _ Hb eq_refl) as (_ & V & D); [lra|].
    destruct (D (O _)) as [T F]. split; [lra|]. split; [apply F, I1|]. apply V; intro i; reflexivity.
Qed.
Example C27_inherit_case : exists a b, became_after a (tour_segment thin_air false (Cruising None (Cruise_speed 200 100000))) b /\
  altitude b 1%nat = 5500.
Proof.
  destruct tour_runs as [U E]. destruct (runs_out _ E) as (out & H). pose proof (mission_length _ _ U H) as L.
  destruct (nth_error out 11) as [a|] eqn:A; [|apply nth_error_None in A; rewrite L in A; cbn in A; lia].
  destruct (nth_error out 12) as [b|] eqn:B; [|apply nth_error_None in B; rewrite L in B; cbn in B; lia].
  exists a, b. assert (P : became_after a (tour_segment thin_air false (Cruising None (Cruise_speed 200 100000))) b)
    by (exists tour, out, 11%nat; auto).
  split; [exact P|]. rewrite (C27_level _ _ _ _ (after_story _ _ _ P) eq_refl), (C27_inherit _ _ _ P Logic.I eq_refl).
  assert (Q : became (tour_segment thin_air false (Climbing None 5500 (Dynp_rate 5000 5))) a)
    by (exists tour, out; split; [exact U|split; [exact H|exists 11%nat; auto]]).
  destruct (C27_altitude _ _ 5500 Q eq_refl) as [_ K].
  destruct (became_story _ _ Q) as (_ & w & w1 & S). rewrite (st_n _ _ _ _ S). apply K. reflexivity.
Qed.
(** A new segment asked for a dynamic pressure does not fly at it: the air speed is that of the
    stored altitudes, which are zero. *)
Theorem C27_pressure_refuted : exists s b h hf q r, became s b /\ sg_kind s = Climbing (Some h) hf (Dynp_rate q r) /\
  sg_conds s = zero_conds /\ 0 < q /\ 0 < r /\ (forall i, 0 < density_at s (altitude b i)) /\
  dynamic_pressure b 1%nat <> q.
Proof.
  set (s := tour_segment thin_air false (Climbing (Some 0) 5500 (Dynp_rate 5000 5))).
  destruct (runs_became [s] 0 s) as (b & Hb); [repeat constructor; try (intro j; destruct j; reflexivity); try discriminate|vm_compute; reflexivity|reflexivity|].
  exists s, b, 0, 5500, 5000, 5. split; [exact Hb|]. split; [reflexivity|]. split; [reflexivity|]. split; [lra|]. split; [lra|].
  destruct (C27_altitude _ _ 5500 Hb eq_refl) as [A _].
  assert (A0 : altitude b 0%nat = 0) by (apply (C27_start _ _ 0 Hb); [exact Logic.I|reflexivity]).
  assert (AA : forall i, altitude b i = match i with O => 0 | _ => 5500 end).
  { intro i. rewrite A, A0. unfold fraction. cbn. destruct i; ring. }
  split.
  - intro i. rewrite AA. unfold density_at. cbn. destruct i; lra.
  - assert (D : density_at s (altitude s 1%nat) = 1) by (unfold density_at, altitude; cbn; lra).
    rewrite (C27_pressure _ _ _ _ _ _ 1 Hb eq_refl); [|intro j; reflexivity|lra|rewrite D; lra|].
    + rewrite D, AA. unfold density_at. cbn. lra.
    + rewrite D. rewrite Rabs_pos_eq by lra. replace (2 * 5000 / 1) with (100 * 100) by field. rewrite sqrt_square; lra.
Qed.
Example C28_case :
  let s := tour_segment thin_air false (Cruising None (Cruise_pitch (Some (1 / 20)) (1 / 10) (1 / 100))) in
  exists b, became s b /\ time (sg_conds s) 0%nat = 0 /\ pitch b 0%nat = 1 / 20 /\ pitch b 1%nat = 1 / 10.
Proof.
  intro s. destruct (tour_became false (Cruising None (Cruise_pitch (Some (1 / 20)) (1 / 10) (1 / 100)))) as (b & Hb); [do 19 right; left; reflexivity|].
  exists b. split; [exact Hb|]. split; [reflexivity|].
  destruct (C28_pitch_rate _ _ _ _ _ _ Hb eq_refl) as [A B]; [lra|]. split.
  - rewrite A. unfold since_start. cbn. lra.
  - specialize (B eq_refl). change (pitch b 1%nat = 1 / 10 + 1 / 100 * 0) in B. lra.
Qed.
(** the second evaluation of a segment that starts at 100 s *)
Example C28_again_case :
  let s := Segment (tour_settings false) thin_air 2 (Cruising (Some 1000) (Cruise_pitch (Some (1 / 20)) (1 / 10) (1 / 100)))
    ex_numerics (set_time (fun i => match i with O => 100 | _ => 105 end) zero_conds) ex_unknowns [ex_unknowns] in
  exists b, became s b /\ pitch b 0%nat = 1 / 20 + 1.
Proof.
  intro s. destruct (runs_became [s] 0 s) as (b & Hb); [repeat constructor; try (intro j; destruct j; reflexivity); try discriminate|vm_compute; reflexivity|reflexivity|].
  exists b. split; [exact Hb|]. destruct (C28_pitch_rate _ _ _ _ _ _ Hb eq_refl) as [A B]; [lra|].
  rewrite A. unfold since_start. cbn. lra.
Qed.
Example C28_transition_case :
  (exists b, became (tour_segment thin_air true (Cruising None (Transition_pitch 100 50 (-1) (Some (1 / 20)) (1 / 10)))) b) /\
  exists b, became (tour_segment thin_air true (Transition_climb (Some 0) 200 (1 / 10) (Some 20) 1 (Some (1 / 20)) (1 / 10))) b /\
    altitude b 0%nat < 200 /\ pitch b 1%nat = 1 / 10.
Proof.
  split; [apply tour_became; do 21 right; left; reflexivity|].
  set (s := tour_segment thin_air true (Transition_climb (Some 0) 200 (1 / 10) (Some 20) 1 (Some (1 / 20)) (1 / 10))).
  destruct (runs_became [s] 0 s) as (b & Hb); [repeat constructor; try (intro j; destruct j; reflexivity); try discriminate|vm_compute; reflexivity|reflexivity|].
  exists b. split; [exact Hb|].
  assert (A0 : altitude b 0%nat = 0) by (apply (C27_start _ _ 0 Hb); [exact Logic.I|reflexivity]). rewrite A0. split; [lra|].
  pose proof PI2_1.
  destruct (C28_climb_transition _ _ _ _ _ _ _ _ _ Hb eq_refl eq_refl eq_refl) as (P & _); try lra.
  rewrite P. unfold fraction. cbn. lra.
Qed.
Example C49_case : exists s b, became s b /\ (0 < last_row (sg_n b))%nat.
Proof.
  destruct (tour_became false (Cruising None (Cruise_speed 200 100000))) as (b & Hb); [do 12 right; left; reflexivity|].
  exists (tour_segment thin_air false (Cruising None (Cruise_speed 200 100000))), b. split; [exact Hb|].
  destruct (became_story _ _ Hb) as (_ & w & w1 & S). rewrite (st_n _ _ _ _ S). cbn. lia.
Qed.

Print Assumptions C27_start.
Print Assumptions C27_inherit.
Print Assumptions C27_altitude.
Print Assumptions C27_level.
Print Assumptions C27_seam_refuted.
Print Assumptions C27_speed.
Print Assumptions C27_rate.
Print Assumptions C27_clock.
Print Assumptions C27_mach.
Print Assumptions C27_equivalent.
Print Assumptions C27_calibrated.
Print Assumptions C27_pressure.
Print Assumptions C27_slope.
Print Assumptions C27_distance.
Print Assumptions C27_cruise.
Print Assumptions C27_cruise_mach.
Print Assumptions C27_loiter.
Print Assumptions C27_loiter_speed.
Print Assumptions C27_accelerate.
Print Assumptions C27_cruise_pressure.
Print Assumptions C27_hover_vertical.
Print Assumptions C28_pitch_rate.
Print Assumptions C28_again_refuted.
Print Assumptions C28_inherit.
Print Assumptions C28_transition.
Print Assumptions C28_climb_transition.
Print Assumptions C28_transition_start_refuted.
Print Assumptions C49_coherent.
Print Assumptions C49_position.
Print Assumptions C27_pressure_refuted.
Print Assumptions C27_pressure_time.
