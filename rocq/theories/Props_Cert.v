(** C219: certification noise levels. *)
From Coq Require Import Reals List Bool ZArith Lra Lia.
From Verif Require Import PyBase M_Opt P_Opt M_Noise P_Noise M_Mesh2 Props_Mesh2 M_Cert.
Import ListNotations.
Local Open Scope R_scope.

Lemma n_points_ge t z : (z < n_points t)%Z <-> IZR z < 2 * t + 1.
Proof. unfold n_points. rewrite lt_ceil. split; lra. Qed.
Lemma n_points_le t z : (n_points t <= z)%Z <-> 2 * t + 1 <= IZR z.
Proof. unfold n_points. rewrite ceil_le. split; lra. Qed.

(** The number of control points asked for: at least one and at most 200.  Up
    to 99.5 s of flight they are at most half a second apart when evenly spread,
    and one fewer would not be enough; longer flights get 200, further apart. *)
Theorem C219_points t :
  0 <= t ->
  (1 <= control_points t <= 200)%nat /\
  (t <= 995 / 10 -> t <= 1 / 2 * (INR (control_points t) - 1) /\ 1 / 2 * (INR (control_points t) - 2) < t) /\
  (995 / 10 < t -> control_points t = 200%nat /\ 1 / 2 * (INR 200 - 1) < t).
Proof.
  intro T. assert (N1 : (1 <= n_points t)%Z).
  { assert (0 < n_points t)%Z by (apply n_points_ge; lra). lia. }
  unfold control_points. rewrite Z.abs_eq by lia. split; [lia|]. split; intro H.
  - assert (N2 : (n_points t <= 200)%Z) by (apply n_points_le; lra).
    rewrite Z.min_r by lia. rewrite INR_IZR_INZ, Z2Nat.id by lia.
    assert (A : 2 * t + 1 <= IZR (n_points t)) by (apply n_points_le; lia).
    assert (B : IZR (n_points t - 1) < 2 * t + 1) by (apply n_points_ge; lia).
    rewrite minus_IZR in B. lra.
  - assert (N2 : (200 < n_points t)%Z) by (apply n_points_ge; lra).
    rewrite Z.min_l by lia. split; [reflexivity|].
    assert (E : INR 200 = 200) by (rewrite INR_IZR_INZ; reflexivity). lra.
Qed.

(** Specification of a fit: [np.polyfit] returns the coefficients of a cubic
    whose squared errors add up to the least possible. *)
Definition cubic_at (c : cubic) (h : R) : R :=
  let '(c0, c1, c2, c3) := c in c0 * h ^ 3 + c1 * h ^ 2 + c2 * h + c3.
Definition errors (c : cubic) (track : list (R * R)) : R :=
  sum (map (fun p => (cubic_at c (fst p) - snd p) ^ 2) track).
Definition least_squares (fit : list (R * R) -> cubic) : Prop :=
  forall track c, errors (fit track) track <= errors c track.

Lemma sum_cons x l : sum (x :: l) = x + sum l.
Proof. reflexivity. Qed.
Lemma sum_sq_pos (g : R * R -> R) l : 0 <= sum (map (fun p => g p ^ 2) l).
Proof.
  induction l as [|a t IH]; [cbn; lra|]. cbn [map]. rewrite sum_cons. pose proof (pow2_ge_0 (g a)). lra.
Qed.
Lemma sum_sq_zero (g : R * R -> R) l :
  sum (map (fun p => g p ^ 2) l) <= 0 -> forall p, In p l -> g p = 0.
Proof.
  induction l as [|a t IH]; intros S p I; [destruct I|]. cbn [map] in S. rewrite sum_cons in S.
  pose proof (sum_sq_pos g t). pose proof (pow2_ge_0 (g a)). destruct I as [->|I].
  - nra.
  - apply IH; [lra|exact I].
Qed.

(** A cubic with four zeros is zero. *)
Lemma four_zeros a b c d x1 x2 x3 x4 :
  x1 <> x2 -> x1 <> x3 -> x1 <> x4 -> x2 <> x3 -> x2 <> x4 -> x3 <> x4 ->
  a * x1 ^ 3 + b * x1 ^ 2 + c * x1 + d = 0 -> a * x2 ^ 3 + b * x2 ^ 2 + c * x2 + d = 0 ->
  a * x3 ^ 3 + b * x3 ^ 2 + c * x3 + d = 0 -> a * x4 ^ 3 + b * x4 ^ 2 + c * x4 + d = 0 ->
  a = 0 /\ b = 0 /\ c = 0 /\ d = 0.
Proof.
  intros N12 N13 N14 N23 N24 N34 E1 E2 E3 E4.
  assert (Z : forall u v, u <> 0 -> u * v = 0 -> v = 0).
  { intros u v U M. apply Rmult_integral in M. destruct M; [contradiction|assumption]. }
  assert (D12 : a * (x1 ^ 2 + x1 * x2 + x2 ^ 2) + b * (x1 + x2) + c = 0).
  { apply (Z (x1 - x2)); [lra|]. ring_simplify. ring_simplify in E1. ring_simplify in E2. lra. }
  assert (D13 : a * (x1 ^ 2 + x1 * x3 + x3 ^ 2) + b * (x1 + x3) + c = 0).
  { apply (Z (x1 - x3)); [lra|]. ring_simplify. ring_simplify in E1. ring_simplify in E3. lra. }
  assert (D14 : a * (x1 ^ 2 + x1 * x4 + x4 ^ 2) + b * (x1 + x4) + c = 0).
  { apply (Z (x1 - x4)); [lra|]. ring_simplify. ring_simplify in E1. ring_simplify in E4. lra. }
  assert (T3 : a * (x1 + x2 + x3) + b = 0).
  { apply (Z (x2 - x3)); [lra|]. ring_simplify. ring_simplify in D12. ring_simplify in D13. lra. }
  assert (T4 : a * (x1 + x2 + x4) + b = 0).
  { apply (Z (x2 - x4)); [lra|]. ring_simplify. ring_simplify in D12. ring_simplify in D14. lra. }
  assert (A : a = 0) by (apply (Z (x3 - x4)); [lra|]; lra).
  subst a. assert (b = 0) by lra. subst b. assert (c = 0) by lra. subst c. repeat split; lra.
Qed.

(** The sideline microphone is put where the aircraft passes 1000 ft (304.8 m),
    whenever the track is a cubic in height, a straight climb for one, and has
    four different heights. *)
Theorem C219_microphone (fit : list (R * R) -> cubic) (c : cubic) track p1 p2 p3 p4 :
  least_squares fit ->
  (forall p, In p track -> snd p = cubic_at c (fst p)) ->
  In p1 track -> In p2 track -> In p3 track -> In p4 track ->
  fst p1 <> fst p2 -> fst p1 <> fst p3 -> fst p1 <> fst p4 ->
  fst p2 <> fst p3 -> fst p2 <> fst p4 -> fst p3 <> fst p4 ->
  x_mic (fit track) = cubic_at c (3048 / 10).
Proof.
  intros L X I1 I2 I3 I4 N12 N13 N14 N23 N24 N34.
  assert (E : errors c track = 0).
  { unfold errors. clear - X. induction track as [|p t IH]; [reflexivity|]. cbn [map].
    rewrite sum_cons, (X p) by (left; reflexivity). rewrite IH.
    - ring.
    - intros q I. apply X. right; exact I. }
  assert (F : forall p, In p track -> cubic_at (fit track) (fst p) - snd p = 0).
  { apply (sum_sq_zero (fun p => cubic_at (fit track) (fst p) - snd p)).
    pose proof (L track c) as LL. rewrite E in LL. exact LL. }
  assert (G : forall p, In p track -> cubic_at (fit track) (fst p) = cubic_at c (fst p)).
  { intros p I. pose proof (F p I). pose proof (X p I). lra. }
  pose proof (G _ I1) as G1. pose proof (G _ I2) as G2. pose proof (G _ I3) as G3. pose proof (G _ I4) as G4.
  destruct (fit track) as [[[a b] e] d]. destruct c as [[[a' b'] e'] d']. unfold cubic_at in *.
  assert (Q : a - a' = 0 /\ b - b' = 0 /\ e - e' = 0 /\ d - d' = 0).
  { apply (four_zeros _ _ _ _ (fst p1) (fst p2) (fst p3) (fst p4)); auto; lra. }
  destruct Q as (Q1 & Q2 & Q3 & Q4). unfold x_mic.
  assert (a = a') by lra. assert (b = b') by lra. assert (e = e') by lra. assert (d = d') by lra. subst. ring.
Qed.

(** A straight climb at a slope is one: from (h0, x0), [slope] metres forward
    per metre up, the microphone is at x0 + slope·(304.8 - h0). *)
Theorem C219_straight (fit : list (R * R) -> cubic) h0 x0 slope track p1 p2 p3 p4 :
  least_squares fit ->
  (forall p, In p track -> snd p = x0 + slope * (fst p - h0)) ->
  In p1 track -> In p2 track -> In p3 track -> In p4 track ->
  fst p1 <> fst p2 -> fst p1 <> fst p3 -> fst p1 <> fst p4 ->
  fst p2 <> fst p3 -> fst p2 <> fst p4 -> fst p3 <> fst p4 ->
  x_mic (fit track) = x0 + slope * (3048 / 10 - h0).
Proof.
  intros L X I1 I2 I3 I4 N12 N13 N14 N23 N24 N34.
  rewrite (C219_microphone fit (0, 0, slope, x0 - slope * h0) track p1 p2 p3 p4); auto.
  - cbn. ring.
  - intros p I. rewrite (X p I). cbn. ring.
Qed.

(** The flyover level is that of the sound powers of climb and cutback
    together: the order does not matter, it is above the louder of the two and
    at most 10·log10 2 (3.01 dB) above it. *)
Theorem C219_together a b :
  p10 (together a b / 10) = p10 (a / 10) + p10 (b / 10) /\
  together a b = together b a /\
  Rmax a b < together a b <= Rmax a b + 10 * log10 2 /\ 10 * log10 2 < 302 / 100.
Proof.
  pose proof (p10_pos (a / 10)) as A. pose proof (p10_pos (b / 10)) as B. unfold together.
  split; [|split; [|split]].
  - replace (10 * log10 (p10 (a / 10) + p10 (b / 10)) / 10) with (log10 (p10 (a / 10) + p10 (b / 10))) by field.
    apply p10_log10. lra.
  - f_equal. f_equal. ring.
  - assert (M : p10 (a / 10) <= p10 (Rmax a b / 10) /\ p10 (b / 10) <= p10 (Rmax a b / 10)).
    { split; apply p10_le; [pose proof (Rmax_l a b)|pose proof (Rmax_r a b)]; lra. }
    assert (K : p10 (Rmax a b / 10) < p10 (a / 10) + p10 (b / 10)).
    { unfold Rmax. destruct (Rle_dec a b); lra. }
    pose proof (p10_pos (Rmax a b / 10)) as P. split.
    + assert (10 * log10 (p10 (Rmax a b / 10)) < 10 * log10 (p10 (a / 10) + p10 (b / 10)))
        by (apply level_lt; assumption).
      rewrite log10_p10 in H. lra.
    + assert (10 * log10 (p10 (a / 10) + p10 (b / 10)) <= 10 * log10 (2 * p10 (Rmax a b / 10)))
        by (apply level_le; lra).
      rewrite log10_mult, log10_p10 in H by lra. lra.
  - pose proof log2_hi. lra.
Qed.

Section Calls.
Variable fly fly_cutback : nat -> flown.
Variable fit : list (R * R) -> cubic.
Variable level_side : R -> flown -> R.
Variable level_climb level_cutback level_approach : flown -> R.

(** For flights that take time, each of the three calls returns the level of
    the segment as flown. *)
Theorem C219_levels n :
  0 <= w_end (fly n) ->
  snd (sideline fly fit level_side n) = Ok (level_side (x_mic (fit (w_track (fly n)))) (fly n)) /\
  snd (flyover fly fly_cutback level_climb level_cutback n)
    = Ok (together (level_climb (fly n)) (level_cutback (fly_cutback n))) /\
  snd (approach fly level_approach n) = Ok (level_approach (fly n)).
Proof.
  intro T. assert (N : negative (w_end (fly n)) = false).
  { unfold negative. apply Z.eqb_neq. assert (0 < n_points (w_end (fly n)))%Z by (apply n_points_ge; lra).
    rewrite Z.sgn_pos by assumption. discriminate. }
  unfold sideline, flyover, approach. cbn [snd]. rewrite N. auto.
Qed.

(** The points come too late: the new number of control points is put in the
    mission after it was flown, so the first level is that of the flight with
    the number there before, and only the second call uses the new one.  If the
    flight takes the same time however many points it has, all calls from the
    second on agree. *)
Theorem C219_late_refuted T n k :
  0 <= T -> (forall m, w_end (fly m) = T) ->
  let side m := level_side (x_mic (fit (w_track (fly m)))) (fly m) in
  let over m := together (level_climb (fly m)) (level_cutback (fly_cutback m)) in
  let new := control_points T in
  calls (approach fly level_approach) (S (S k)) n
  = Ok (level_approach (fly n)) :: repeat (Ok (level_approach (fly new))) (S k) /\
  calls (sideline fly fit level_side) (S (S k)) n
  = Ok (side n) :: repeat (Ok (side new)) (S k) /\
  calls (flyover fly fly_cutback level_climb level_cutback) (S (S k)) n
  = Ok (over n) :: repeat (Ok (over new)) (S k).
Proof.
  intros T0 C side over new.
  assert (L : forall (one : nat -> nat * result R) (lev : nat -> R),
     (forall m, one m = (new, Ok (lev m))) ->
     calls one (S (S k)) n = Ok (lev n) :: repeat (Ok (lev new)) (S k)).
  { intros one lev H.
    assert (G : forall j, calls one j new = repeat (Ok (lev new)) j).
    { induction j as [|j IH]; [reflexivity|]. cbn [calls repeat]. rewrite H, IH. reflexivity. }
    rewrite <- G. cbn [calls]. rewrite !H. reflexivity. }
  assert (F : forall m, 0 <= w_end (fly m)) by (intro m; rewrite C; exact T0).
  split; [|split]; [apply (L _ (fun m => level_approach (fly m)))|apply (L _ side)|apply (L _ over)];
    intro m; destruct (C219_levels m (F m)) as (A & B & D).
  - unfold approach. rewrite C. reflexivity.
  - rewrite (surjective_pairing (sideline fly fit level_side m)), A. cbn [sideline fst]. rewrite C. reflexivity.
  - rewrite (surjective_pairing (flyover _ _ _ _ m)), B. cbn [flyover fst]. rewrite C. reflexivity.
Qed.

(** A flight that ends more than a second before its start cannot be rated:
    the branch for it looks for an attribute that is not there. *)
Theorem C219_negative_refuted n :
  w_end (fly n) <= -1 ->
  snd (sideline fly fit level_side n) = Err AttributeError /\
  snd (flyover fly fly_cutback level_climb level_cutback n) = Err AttributeError.
Proof.
  intro T. assert (N : negative (w_end (fly n)) = true).
  { unfold negative. apply Z.eqb_eq. assert (n_points (w_end (fly n)) <= -1)%Z by (apply n_points_le; lra).
    apply Z.sgn_neg. lia. }
  unfold sideline, flyover. cbn [snd]. rewrite N. auto.
Qed.
End Calls.

(** A climb of 20 s flown with 4 points: 41 points are asked for, and the
    second call is the one to use them. *)
Example C219_case :
  control_points 20 = 41%nat /\
  calls (approach (fun m => mk_flown 20 (repeat (0, 0) m)) (fun f => INR (length (w_track f)))) 3 4
  = [Ok (INR 4); Ok (INR 41); Ok (INR 41)].
Proof.
  assert (E : control_points 20 = 41%nat).
  { unfold control_points, n_points. replace (20 / (1 / 2) + 1) with 41 by field. rewrite ceil_IZR. reflexivity. }
  split; [exact E|]. cbn [calls approach w_end]. unfold approach. cbn [w_end w_track]. rewrite E, !repeat_length. reflexivity.
Qed.

Print Assumptions C219_points.
Print Assumptions C219_microphone.
Print Assumptions C219_straight.
Print Assumptions C219_together.
Print Assumptions C219_levels.
Print Assumptions C219_late_refuted.
Print Assumptions C219_negative_refuted.
