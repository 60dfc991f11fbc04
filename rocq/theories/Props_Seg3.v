(** * C158-C161: charging, noise tracks, the way over the globe, single points *)
From Coq Require Import Reals Lra Psatz List Arith Lia Bool ZArith.
From Verif Require Import PyBase M_Opt M_Rot M_Mission M_Segments P_Opt P_Mission P_Cheb M_Seg2 S_Seg2.
Import ListNotations.
Local Open Scope R_scope.
Local Open Scope list_scope.

(** ** C158: charging and the first state of a battery *)
(** charging takes the time in which the pack's charging power delivers the missing energy and a quarter more *)
Theorem C158_energy e emax own k t nets g : charging_power g <> 0 -> exists d,
  charge_duration (Some (e, emax)) own k t false (nets ++ [g]) = Ok d /\ d * charging_power g = 5 / 4 * (emax - e).
Proof.
  intro P. exists ((emax - e) * (5 / 4) / charging_power g). split; [|field; exact P].
  unfold charge_duration. rewrite fold_left_app. cbn [fold_left]. destruct nets; reflexivity.
Qed.
(** discharging takes the time given *)
Theorem C158_discharge before own k t nets : charge_duration before own k t true nets = Ok t.
Proof. reflexivity. Qed.
(** the clock of the segment *)
Theorem C158_times n nu d c : clock n nu -> let c' := charge_times d nu c in
  time c' 0%nat = time c 0%nat /\ passed c' 0 (final n) = d /\ forall i j, passed c' i j = (nd_x nu j - nd_x nu i) * d.
Proof. intros (N & X0 & X1 & _) c'. unfold c', charge_times, passed. cbn. rewrite X0, X1. repeat split; intros; ring. Qed.
(** the user's margin is not used *)
Theorem C158_margin_refuted before own k k' t x nets : charge_duration before own k t x nets = charge_duration before own k' t x nets.
Proof. reflexivity. Qed.
(** a mission that begins by charging does not charge *)
Theorem C158_first_refuted e k t nets g n nu c : charging_power g <> 0 -> clock n nu ->
  charge_duration None (Some e) k t false (nets ++ [g]) = Ok 0 /\ forall i, time (charge_times 0 nu c) i = time c 0%nat.
Proof.
  intros P K. split; [|intro i; unfold charge_times; cbn; ring]. unfold charge_duration. rewrite fold_left_app. cbn [fold_left].
  replace ((e - e) * (5 / 4) / charging_power g) with 0 by (field; exact P). destruct nets; reflexivity.
Qed.
(** of several packs only the last is given its time *)
Theorem C158_packs_refuted e emax own k t nets nets' g : charge_duration (Some (e, emax)) own k t false (nets ++ [g]) = charge_duration (Some (e, emax)) own k t false (nets' ++ [g]).
Proof. unfold charge_duration. rewrite !fold_left_app. cbn [fold_left]. destruct nets, nets'; reflexivity. Qed.
(** more energy than capacity (after ageing): time runs backward *)
Theorem C158_backward_refuted e emax own k t nets g d n nu c : 0 < charging_power g -> emax < e -> clock n nu ->
  charge_duration (Some (e, emax)) own k t false (nets ++ [g]) = Ok d -> time (charge_times d nu c) (final n) < time (charge_times d nu c) 0%nat.
Proof.
  intros P L K E. destruct (C158_energy e emax own k t nets g ltac:(lra)) as (d' & E' & Q). rewrite E' in E. inversion E. subst d'.
  destruct (C158_times n nu d c K) as (_ & T & _). unfold passed in T. assert (d < 0) by nra. lra.
Qed.
(** no energy known *)
Theorem C158_unknown k t g nets : charge_duration None None k t false (g :: nets) = Err UnboundLocalError.
Proof. reflexivity. Qed.
(** the first state: what the segment says, else the air's temperature, the full capacity, a fresh battery; nothing else is changed *)
Theorem C158_initial air full a b dev : pa_deviation a = Some dev -> exists b' soc, initial_battery air full a b = Ok (b', soc) /\
  (forall i, b_pack_temp b' i = get (pa_temperature a) (air dev) /\ b_cell_temp b' i = get (pa_temperature a) (air dev)) /\
  b_max_aged b' = get (pa_max_aged a) full /\ b_discharge b' = get (pa_discharge a) true /\
  match pa_energy a with
  | Some e => (forall i, b_energy b' i = e) /\ b_max_initial b' = e /\ (forall i, b_throughput b' i = get (pa_throughput a) 0) /\
              b_fade b' = get (pa_fade a) 1 /\ b_growth b' = get (pa_growth a) 1 /\ b_day b' = get (pa_day a) 0%Z /\
              (b_max_aged b' <> 0 -> exists s, soc = Some s /\ s * b_max_aged b' = e)
  | None => soc = None /\ b_energy b' = b_energy b /\ b_max_initial b' = b_max_initial b /\ b_throughput b' = b_throughput b /\
            b_fade b' = b_fade b /\ b_growth b' = b_growth b /\ b_day b' = b_day b
  end.
Proof.
  intro D. unfold initial_battery. rewrite D. destruct (pa_energy a) as [e|]; do 2 eexists; (split; [reflexivity|]); cbn.
  - repeat (split; [intros; try split; reflexivity|]). intro N. exists (e / get (pa_max_aged a) full). split; [reflexivity|field; exact N].
  - repeat split; reflexivity.
Qed.
(** and without a temperature deviation it fails *)
Theorem C158_deviation_refuted air full a b : pa_deviation a = None -> initial_battery air full a b = Err UnboundLocalError.
Proof. intro D. unfold initial_battery. rewrite D. reflexivity. Qed.
Example C158_case : charge_duration (Some (600, 1000)) None 2 1 false [Charger 1 2 4 5] = Ok (25 / 2).
Proof. unfold charge_duration, charging_power. cbn. f_equal. field. Qed.

(** ** C159: tracks flown for noise measurements *)
Lemma ceil_up x : x <= IZR (Rceil x).
Proof. unfold Rceil. rewrite minus_IZR. destruct (archimed (- x)). lra. Qed.
Lemma ceil_near x : IZR (Rceil x) < x + 1.
Proof. unfold Rceil. rewrite minus_IZR. destruct (archimed (- x)). lra. Qed.
(** the clock that a segment of constant vertical speed is given *)
Lemma constant_clock n nu c w : whole n nu -> w <> 0 -> (forall j, (j < n)%nat -> vz (vel c j) = w) ->
  forall i, time (update_differentials_altitude n nu c) i = time c 0%nat + nd_x nu i * ((vz (pos c (n - 1)%nat) - vz (pos c 0%nat)) / w).
Proof.
  intros W H E i. unfold update_differentials_altitude. cbn. f_equal. f_equal. unfold whole, final in W.
  rewrite (Sum_ext n _ (fun j => (vz (pos c (n - 1)%nat) - vz (pos c 0%nat)) / w * nd_I nu (n - 1)%nat j)).
  - rewrite Sum_scal, W. ring.
  - intros j L. rewrite E by exact L. field. exact H.
Qed.
(** take-off: from 35 ft on, past the microphone at 6500 m and 500 m further, with as many points as half seconds *)
Theorem C159_climb n nu v angle c : 0 < v -> 0 < angle < PI / 2 -> Z.of_nat n = climb_points v angle -> clock n nu -> whole n nu ->
  let c' := update_differentials_altitude n nu (climb_noise n nu v angle c) in
  alt c' 0%nat = 10668 / 1000 /\ (forall i, vx (vel c' i) = v * cos angle /\ - vz (vel c' i) = v * sin angle) /\
  passed c' 0 (final n) = INR n / 2 /\ 7000 <= v * cos angle * passed c' 0 (final n) /\
  forall i, alt c' i - alt c' 0%nat = tan angle * (v * cos angle * passed c' 0 i) /\ vz (pos c' i) = - alt c' i.
Proof.
  intros V A Z K W c'. assert (K' := K). destruct K as (N & X0 & X1 & I0). pose proof PI_RGT_0.
  assert (S0 : 0 < sin angle) by (apply sin_gt_0; lra). assert (C0 : 0 < cos angle) by (apply cos_gt_0; lra).
  assert (T : forall i, time c' i = time c 0%nat + nd_x nu i * (INR n / 2)).
  { intro i. unfold c'. rewrite (constant_clock n nu _ (- v * sin angle) W); [| nra |intros; reflexivity]. unfold climb_noise. cbn. f_equal. f_equal. unfold final in X1. rewrite X0, X1. field. split; lra. }
  assert (P : forall i, passed c' 0 i = nd_x nu i * (INR n / 2)) by (intro i; unfold passed; rewrite !T, X0; ring).
  assert (Al : forall i, alt c' i = nd_x nu i * (v * sin angle * (1 / 2) * INR n) + 10668 / 1000) by (intro i; unfold c', update_differentials_altitude, climb_noise; cbn; ring).
  split; [rewrite Al, X0; ring|]. split; [intro i; unfold c', update_differentials_altitude, climb_noise; cbn; split; ring|]. split; [rewrite P, X1; ring|]. split.
  - rewrite P, X1. pose proof (ceil_up ((6500 + 500) / (v * cos angle) / (1 / 2) + 1)) as U. fold (climb_points v angle) in U. rewrite <- Z, <- INR_IZR_INZ in U.
    assert (VC : 0 < v * cos angle) by (apply Rmult_lt_0_compat; assumption). apply Rmult_le_compat_l with (r := v * cos angle) in U; [|lra].
    replace (v * cos angle * ((6500 + 500) / (v * cos angle) / (1 / 2) + 1)) with (14000 + v * cos angle) in U by (field; lra). lra.
  - intro i. split; [|reflexivity]. rewrite !Al, P, X0. unfold tan. field. lra.
Qed.
(** for every clock (the segment keeps the default Chebyshev points, Numerics.py 53) some step takes more than half a second *)
Lemma some_step (t : col) (m : nat) : INR m / 2 < t m - t 0%nat -> exists i, (i < m)%nat /\ 1 / 2 < t (S i) - t i.
Proof.
  induction m as [|m IH]; intro H; [cbn in H; lra|]. rewrite S_INR in H. destruct (Rlt_dec (1 / 2) (t (S m) - t m)) as [D|D]; [exists m; split; [lia|exact D]|].
  destruct IH as (i & L & P); [lra|]. exists i. split; [lia|exact P].
Qed.
Theorem C159_step_refuted n nu v angle c : 0 < v -> 0 < angle < PI / 2 -> Z.of_nat n = climb_points v angle -> clock n nu -> whole n nu ->
  let c' := update_differentials_altitude n nu (climb_noise n nu v angle c) in exists i, (i + 1 < n)%nat /\ 1 / 2 < passed c' i (S i).
Proof.
  intros V A Z K W c'. destruct (C159_climb n nu v angle c V A Z K W) as (_ & _ & P & _). fold c' in P. destruct K as (N & _).
  destruct (some_step (time c') (n - 1)) as (i & L & Q).
  - unfold passed, final in P. rewrite P. assert (EN : INR n = INR (n - 1) + 1) by (rewrite <- S_INR; f_equal; lia). lra.
  - exists i. split; [lia|exact Q].
Qed.
(** landing: the last 4000 m of a straight approach that ends at 50 ft; evenly spaced points are at most half a second apart *)
Theorem C159_descent n nu v angle c : 0 < v -> 0 < angle < PI / 2 -> Z.of_nat n = descent_points v angle -> clock n nu -> whole n nu ->
  let c' := update_differentials_altitude n nu (descent_noise nu v angle c) in
  alt c' (final n) = 1524 / 100 /\ (forall i, vx (vel c' i) = v * cos angle /\ vz (vel c' i) = v * sin angle) /\ v * cos angle * passed c' 0 (final n) = 4000 /\
  (forall i, alt c' 0%nat - alt c' i = tan angle * (v * cos angle * passed c' 0 i)) /\
  (forall i, v * cos angle * passed c' i (final n) = 2000 -> alt c' i = 1524 / 100 + 2000 * tan angle) /\
  (even n nu -> forall i, (i + 1 < n)%nat -> 0 < passed c' i (S i) <= 1 / 2).
Proof.
  intros V A Z K W c'. destruct K as (N & X0 & X1 & I0). pose proof PI_RGT_0.
  assert (S0 : 0 < sin angle) by (apply sin_gt_0; lra). assert (C0 : 0 < cos angle) by (apply cos_gt_0; lra). assert (VC : 0 < v * cos angle) by (apply Rmult_lt_0_compat; assumption).
  assert (T : forall i, time c' i = time c 0%nat + nd_x nu i * (4000 / (v * cos angle))).
  { intro i. unfold c'. rewrite (constant_clock n nu _ (v * sin angle) W); [| nra |intros; cbn; rewrite sin_neg; ring]. unfold descent_noise. cbn. f_equal. f_equal. unfold final in X1. rewrite X0, X1. unfold tan. field. lra. }
  assert (P : forall i j, passed c' i j = (nd_x nu j - nd_x nu i) * (4000 / (v * cos angle))) by (intros; unfold passed; rewrite !T; ring).
  assert (Al : forall i, alt c' i = 1524 / 100 + (1 - nd_x nu i) * (4000 * tan angle)) by (intro i; unfold c', update_differentials_altitude, descent_noise; cbn; field).
  split; [rewrite Al, X1; ring|]. split; [intro i; unfold c', update_differentials_altitude, descent_noise; cbn; rewrite sin_neg, cos_neg; split; ring|].
  split; [rewrite P, X0, X1; field; lra|]. split; [intro i; rewrite !Al, P, X0; field; lra|]. split.
  - intros i Q. rewrite P, X1 in Q. rewrite Al. replace (v * cos angle * ((1 - nd_x nu i) * (4000 / (v * cos angle)))) with ((1 - nd_x nu i) * 4000) in Q by (field; lra). assert (1 - nd_x nu i = / 2) by lra. rewrite H0. field.
  - intros E i L. rewrite P, !E by lia. assert (M : 0 < INR (n - 1)) by (apply lt_0_INR; lia).
    rewrite S_INR. replace (((INR i + 1) / INR (n - 1) - INR i / INR (n - 1)) * (4000 / (v * cos angle))) with (4000 / (v * cos angle) / INR (n - 1)) by (field; lra).
    pose proof (ceil_up (4000 / (v * cos angle) / (1 / 2) + 1)) as U. fold (descent_points v angle) in U. rewrite <- Z, <- INR_IZR_INZ in U.
    assert (EN : INR n = INR (n - 1) + 1) by (rewrite <- S_INR; f_equal; lia). rewrite EN in U. set (q := 4000 / (v * cos angle)) in *.
    assert (Q0 : 0 < q) by (apply Rdiv_lt_0_compat; lra). replace (q / (1 / 2) + 1) with (2 * q + 1) in U by field.
    split; [apply Rdiv_lt_0_compat; assumption|]. apply Rmult_le_reg_r with (INR (n - 1)); [exact M|]. unfold Rdiv at 1. rewrite Rmult_assoc, Rinv_l by lra. lra.
Qed.
Lemma even_clock m : (2 <= m)%nat -> let nu := Numerics (fun i => INR i / INR (m - 1)) (fun _ _ => 0) (fun i j => if Nat.eqb i (m - 1) then if Nat.eqb j 0 then 1 else 0 else 0) INR (fun _ _ => 0) (fun _ _ => 0) in
  clock m nu /\ whole m nu /\ even m nu.
Proof.
  intros L nu. assert (0 < INR (m - 1)) by (apply lt_0_INR; lia). split; [|split].
  - repeat split; [lia|cbn; field; lra|cbn; unfold final; field; lra|]. intro j. unfold nu. cbn [nd_I]. destruct (Nat.eqb 0 (m - 1)) eqn:Q; [apply Nat.eqb_eq in Q; lia|reflexivity].
  - unfold whole, final. cbn. rewrite Nat.eqb_refl. rewrite (Sum_one m _ 0%nat); [reflexivity|lia|]. intros j _ N. destruct j; [lia|reflexivity].
  - intros i _. reflexivity.
Qed.
Example C159_case : exists n nu, Z.of_nat n = climb_points 100 (PI / 3) /\ clock n nu /\ whole n nu /\ even n nu.
Proof.
  assert (E : (2 <= climb_points 100 (PI / 3))%Z).
  { unfold climb_points. rewrite cos_PI3. pose proof (ceil_up ((6500 + 500) / (100 * (1 / 2)) / (1 / 2) + 1)) as U. apply le_IZR. lra. }
  exists (Z.to_nat (climb_points 100 (PI / 3))). eexists. split; [apply Z2Nat.id; lia|]. apply even_clock. lia.
Qed.

(** ** C160: latitude and longitude *)
Section Globe.
Variable an : analyses.
Variables (n : nat) (nu : numerics) (c : conds).
(** angle flown over the ground up to point i, in degrees *)
Definition flown (i : nat) : R := integral n nu (angular an c) i * (180 / PI).
(** along a meridian, latitude changes by the angle flown and longitude not at all *)
Theorem C160_meridian i : let c' := update_planet_position an 0 n nu c in lat c' i = lat c 0%nat + flown i /\ lon c' i = lon c 0%nat.
Proof.
  intro c'. pose proof PI_RGT_0. unfold c', update_planet_position, flown, integral. cbn. split.
  - f_equal. unfold Rdiv at 1. f_equal; [|unfold deg; field; lra]. apply mulv_ext. intros j _. rewrite cos_0. unfold angular. ring.
  - rewrite sin_0. rewrite (mulv_ext n _ _ (fun _ => 0)); [|intros; unfold Rdiv; ring]. unfold mulv. rewrite Sum_zero by (intros; ring). unfold Rdiv. ring.
Qed.
Lemma sine_course psi i : sin psi = 0 -> lon (update_planet_position an psi n nu c) i = lon c 0%nat.
Proof.
  intro E. unfold update_planet_position. cbn. rewrite E. rewrite (mulv_ext n _ _ (fun _ => 0)); [|intros; unfold Rdiv; ring]. unfold mulv. rewrite Sum_zero by (intros; ring). unfold Rdiv. ring.
Qed.
Theorem C160_south i : let c' := update_planet_position an PI n nu c in lat c' i = lat c 0%nat - flown i /\ lon c' i = lon c 0%nat.
Proof.
  intro c'. split; [|apply sine_course, sin_PI]. unfold c'.
  pose proof PI_RGT_0. unfold update_planet_position, flown, integral. cbn. rewrite cos_PI.
  rewrite (mulv_ext n _ _ (fun j => -1 * angular an c j)) by (intros; unfold angular; ring). rewrite mulv_scal. unfold deg. field. lra.
Qed.
(** to the east, longitude changes by the angle flown *)
Theorem C160_east i : let c' := update_planet_position an (PI / 2) n nu c in lat c' i = lat c 0%nat /\ lon c' i = lon c 0%nat + flown i.
Proof.
  intro c'. pose proof PI_RGT_0. unfold c', update_planet_position, flown, integral. cbn. rewrite cos_PI2, sin_PI2.
  assert (Z : forall k, mulv n (t_I nu) (fun j => speed c j / (alt c j + an_radius an) * cos (vy (rot c j) - alpha c j) * 0) k / deg = 0).
  { intro k. rewrite (mulv_ext n _ _ (fun _ => 0)) by (intros; ring). unfold mulv. rewrite Sum_zero by (intros; ring). unfold Rdiv. ring. }
  split; [rewrite Z; ring|]. f_equal. unfold Rdiv at 1. f_equal; [|unfold deg; field; lra]. apply mulv_ext. intros j _. rewrite Z, cos_0. unfold angular, Rdiv. rewrite Rinv_1. ring.
Qed.
End Globe.
(** which is right on the equator only: at latitude phi a parallel is shorter by cos phi *)
Theorem C160_parallel_refuted an n nu c i phi : lat c 0%nat = phi -> 0 < phi < 90 -> 0 < flown an n nu c i ->
  let c' := update_planet_position an (PI / 2) n nu c in lon c' i - lon c 0%nat < flown an n nu c i / cos (phi * (PI / 180)).
Proof.
  intros L H F c'. destruct (C160_east an n nu c i) as (_ & E). fold c' in E. rewrite E. pose proof PI_RGT_0.
  assert (C1 : 0 < cos (phi * (PI / 180))) by (apply cos_gt_0; nra).
  assert (C2 : cos (phi * (PI / 180)) < 1). { rewrite <- cos_0. apply cos_decreasing_1; nra. }
  replace (lon c 0%nat + flown an n nu c i - lon c 0%nat) with (flown an n nu c i) by ring.
  apply Rmult_lt_reg_r with (cos (phi * (PI / 180))); [exact C1|]. replace (flown an n nu c i / cos (phi * (PI / 180)) * cos (phi * (PI / 180))) with (flown an n nu c i) by (field; lra). nra.
Qed.
(** a level flight at constant speed and altitude covers a positive angle *)
Example C160_case an nu c : an_radius an = 6000000 -> (forall j, t_I nu 1%nat j = 1 / 2) ->
  let c0 := set_speed (fun _ => 100) (set_alt (fun _ => 0) (set_alpha (fun _ => 0) (set_rot (fun _ => V3 0 0 0) c))) in 0 < flown an 2 nu c0 1.
Proof.
  intros R0 I1 c0. pose proof PI_RGT_0. unfold flown, integral, mulv, angular, c0. cbn. rewrite !I1, R0. rewrite Rminus_0_r, cos_0.
  apply Rmult_lt_0_compat; [lra|]. apply Rdiv_lt_0_compat; lra.
Qed.
(** and to the north-east the cosine of degrees can turn longitude to the west *)
Theorem C160_oblique_refuted an c : 0 < an_radius an -> exists nu v, let c0 := set_speed (fun _ => v) (set_alt (fun _ => 0) (set_alpha (fun _ => 0) (set_rot (fun _ => V3 0 0 0) c))) in
  let c' := update_planet_position an (PI / 4) 2 nu c0 in
  0 < v /\ (forall j, 0 <= t_I nu 1%nat j) /\ (forall j, t_I nu 0%nat j = 0) /\ lat c 0%nat < lat c' 1%nat /\ lon c' 1%nat < lon c 0%nat.
Proof.
  intro A. pose proof PI_RGT_0 as P. set (nu := Numerics INR (fun _ _ => 0) (fun i _ => INR i / 2) INR (fun _ _ => 0) (fun i _ => INR i / 2)).
  assert (S4 : 0 < sin (PI / 4)) by (apply sin_gt_0; lra). assert (E4 : cos (PI / 4) = sin (PI / 4)) by (rewrite cos_PI4, sin_PI4; reflexivity).
  assert (D0 : 0 < deg) by (unfold deg; lra). set (w := 2 * (PI / 3) * deg / sin (PI / 4)). exists nu, (w * an_radius an). intros c0 c'.
  assert (W : 0 < w) by (unfold w; apply Rdiv_lt_0_compat; [apply Rmult_lt_0_compat; [lra|exact D0]|exact S4]).
  assert (L0 : lat c0 0%nat = lat c 0%nat) by reflexivity. assert (O0 : lon c0 0%nat = lon c 0%nat) by reflexivity.
  set (ld := fun i : nat => w * an_radius an / (0 + an_radius an) * cos (0 - 0) * cos (PI / 4)).
  assert (LD : forall i, ld i = 2 * (PI / 3) * deg) by (intro i; unfold ld; rewrite Rminus_0_r, cos_0, E4; unfold w; field; split; lra).
  assert (LA0 : mulv 2 (t_I nu) ld 0%nat / deg = 0) by (unfold mulv, nu; cbn; field; lra).
  assert (LA1 : mulv 2 (t_I nu) ld 1%nat / deg = 2 * (PI / 3)) by (unfold mulv, nu; cbn [t_I Sum INR]; rewrite !LD; field; lra).
  assert (LT : lat c' 1%nat = lat c 0%nat + 2 * (PI / 3)) by (change (lat c 0%nat + mulv 2 (t_I nu) ld 1%nat / deg = lat c 0%nat + 2 * (PI / 3)); rewrite LA1; reflexivity).
  set (md := fun i : nat => w * an_radius an / (0 + an_radius an) * cos (0 - 0) * sin (PI / 4) / cos (mulv 2 (t_I nu) ld i / deg)).
  assert (LN : lon c' 1%nat = lon c 0%nat + mulv 2 (t_I nu) md 1%nat / deg) by reflexivity.
  assert (C3 : cos (2 * (PI / 3)) = - 1 / 2) by apply cos_2PI3.
  assert (M0 : md 0%nat = 2 * (PI / 3) * deg) by (unfold md; rewrite LA0, Rminus_0_r, cos_0; unfold w; field; split; lra).
  assert (M1 : md 1%nat = - (4 * (PI / 3) * deg)) by (unfold md; rewrite LA1, Rminus_0_r, cos_0, C3; unfold w; field; split; lra).
  split; [apply Rmult_lt_0_compat; assumption|]. split; [intro j; unfold nu; cbn; lra|]. split; [intro j; unfold nu; cbn; lra|].
  split; [rewrite LT; lra|]. rewrite LN. unfold mulv, nu. cbn [t_I Sum INR]. rewrite M0, M1.
  replace ((0 + 1 / 2 * (2 * (PI / 3) * deg) + 1 / 2 * - (4 * (PI / 3) * deg)) / deg) with (- (PI / 3)) by (field; lra). lra.
Qed.

(** ** C161: points and ranges that are solved for *)
(** a solved point obeys Newton's law in the plane of flight, with lift, drag, thrust and weight *)
Theorem C161_newton c i : 0 < mass c i -> residual_forces (update_forces c) i = (0, 0) ->
  let F := vplus (vplus (vplus (mapply (w2i c i) (lift_f c i)) (mapply (w2i c i) (drag_f c i))) (mapply (b2i c i) (thrust_f c i))) (weight_f c i) in
  vx F = mass c i * vx (acc c i) /\ vz F = mass c i * vz (acc c i).
Proof.
  intros M E F. unfold residual_forces in E. assert (E1 := f_equal fst E). assert (E2 := f_equal snd E). cbn [fst snd] in E1, E2.
  change (total_f (update_forces c) i) with F in E1, E2. change (mass (update_forces c) i) with (mass c i) in E1, E2. change (acc (update_forces c) i) with (acc c i) in E1, E2.
  split; [assert (X : vx F / mass c i = vx (acc c i)) by lra; rewrite <- X|assert (X : vz F / mass c i = vz (acc c i)) by lra; rewrite <- X]; field; lra.
Qed.
(** the state it is solved at is the one asked for; an altitude that is not given is that of the point before *)
Theorem C161_state altitude prev v ax az c c' : single_point altitude prev v ax az c = Ok c' -> forall i,
  acc c' i = V3 ax 0 az /\ vx (vel c' i) = v /\ alt c' i = - vz (pos c' i) /\
  (forall h, altitude = Some h -> alt c' i = h) /\ (forall n p, altitude = None -> prev = Some (n, p) -> alt c' i = - vz (pos p (n - 1)%nat)).
Proof.
  intros E i. unfold single_point in E. destruct (resolve_altitude altitude prev) as [h|] eqn:Q; [|discriminate]. inversion E. subst c'. cbn.
  split; [reflexivity|]. split; [reflexivity|]. split; [ring|]. split.
  - intros h' ->. cbn in Q. inversion Q. reflexivity.
  - intros n p -> ->. cbn in Q. inversion Q as [Q']. lra.
Qed.
Theorem C161_unknown v ax az c : single_point None None v ax az c = Err AttributeError.
Proof. reflexivity. Qed.
(** weight is the take-off mass's *)
Theorem C161_weight c i : vz (weight_f (single_weights c) i) = mass c 0%nat * grav c i /\ vx (weight_f (single_weights c) i) = vx (weight_f c i).
Proof. split; reflexivity. Qed.
(** without propulsion only the vertical balance is solved *)
Theorem C161_glide c i : 0 < mass c i -> residual_force c i = 0 -> vz (total_f c i) = mass c i * vz (acc c i).
Proof. intros M E. unfold residual_force in E. assert (X : vz (total_f c i) / mass c i = vz (acc c i)) by lra. rewrite <- X. field. lra. Qed.
Theorem C161_glide_refuted c i : 0 < mass c i -> exists c', mass c' = mass c /\ acc c' = acc c /\ residual_force c' i = 0 /\ vx (total_f c' i) <> mass c' i * vx (acc c' i).
Proof.
  intro M. exists (set_total_f (fun j => V3 (mass c j * vx (acc c j) + 1) 0 (mass c j * vz (acc c j))) c). cbn. repeat split; [|lra].
  unfold residual_force. cbn. field. lra.
Qed.
(** a range solved for: the residual vanishes exactly when the target is met; if more distance leaves strictly less, one distance only meets it, and the residual's
    sign says on which side of it one is *)
Theorem C161_range (landing : R -> R) target : 0 < target -> (forall d d', d < d' -> landing d' < landing d) -> forall d0, target_residual (landing d0) target = 0 ->
  landing d0 = target /\ forall d, (target_residual (landing d) target = 0 <-> d = d0) /\ (0 < target_residual (landing d) target <-> d < d0).
Proof.
  intros T M d0 E. assert (Z : forall x, target_residual x target = 0 <-> x = target).
  { intro x. unfold target_residual. split; intro H; [|subst; unfold Rdiv; ring]. apply (Rmult_eq_compat_r target) in H. unfold Rdiv in H. rewrite Rmult_assoc, Rinv_l in H by lra. lra. }
  assert (S : forall x, 0 < target_residual x target <-> target < x).
  { intro x. unfold target_residual. split; intro H; [|apply Rdiv_lt_0_compat; lra]. apply (Rmult_lt_compat_r target) in H; [|exact T]. unfold Rdiv in H. rewrite Rmult_assoc, Rinv_l in H by lra. lra. }
  apply Z in E. split; [exact E|]. intro d. rewrite Z, S. rewrite <- E. split.
  - split; [|intros ->; reflexivity]. intro H. destruct (Rtotal_order d d0) as [X|[X|X]]; [pose proof (M _ _ X); lra|exact X|pose proof (M _ _ X); lra].
  - split; [|apply M]. intro H. destruct (Rtotal_order d d0) as [X|[X|X]]; [exact X|subst; lra|pose proof (M _ _ X); lra].
Qed.
Example C161_case : (forall d d', d < d' -> 2000 - d' < 2000 - d) /\ target_residual (2000 - 500) 1500 = 0.
Proof. split; [intros; lra|]. unfold target_residual. field. Qed.
Example C161_point c : exists c', single_point (Some 1000) None 50 0 0 c = Ok c'.
Proof. eexists. reflexivity. Qed.
Print Assumptions C158_energy.
Print Assumptions C158_discharge.
Print Assumptions C158_times.
Print Assumptions C158_margin_refuted.
Print Assumptions C158_first_refuted.
Print Assumptions C158_packs_refuted.
Print Assumptions C158_backward_refuted.
Print Assumptions C158_unknown.
Print Assumptions C158_initial.
Print Assumptions C158_deviation_refuted.
Print Assumptions C159_climb.
Print Assumptions C159_step_refuted.
Print Assumptions C159_descent.
Print Assumptions C160_meridian.
Print Assumptions C160_south.
Print Assumptions C160_east.
Print Assumptions C160_parallel_refuted.
Print Assumptions C160_oblique_refuted.
Print Assumptions C161_newton.
Print Assumptions C161_state.
Print Assumptions C161_unknown.
Print Assumptions C161_weight.
Print Assumptions C161_glide.
Print Assumptions C161_glide_refuted.
Print Assumptions C161_range.
