(** C220: inflow of a propeller in a wing's wake.  C221: slices of a vehicle
    along Mach planes. *)
From Coq Require Import Reals List Bool Arith Lra Lia.
From Verif Require Import PyBase M_Opt P_Opt M_Noise M_Grid3 Props_Grid3 M_Xtra.
Import ListNotations.
Local Open Scope R_scope.

(** * C220 *)
Lemma azimuths_length Na : List.length (azimuths Na) = Na.
Proof. unfold azimuths. rewrite firstn_length, linspace_length. lia. Qed.
Lemma azimuths_nth Na j : (j < Na)%nat -> nth_error (azimuths Na) j = Some (2 * PI * INR j / INR Na).
Proof.
  intro H. unfold azimuths.
  assert (F : nth_error (firstn Na (linspace 0 (2 * PI) (Na + 1))) j = nth_error (linspace 0 (2 * PI) (Na + 1)) j).
  { rewrite <- (firstn_skipn Na (linspace 0 (2 * PI) (Na + 1))) at 2.
    rewrite nth_error_app1; [reflexivity|]. rewrite firstn_length, linspace_length. lia. }
  rewrite F, linspace_nth by lia. replace (Na + 1 - 1)%nat with Na by lia. f_equal.
  assert (0 < INR Na) by (apply lt_0_INR; lia). field. lra.
Qed.

Lemma map2_nth {A B C} (f : A -> B -> C) : forall l1 l2 i a b,
  nth_error l1 i = Some a -> nth_error l2 i = Some b -> nth_error (map2 f l1 l2) i = Some (f a b).
Proof.
  induction l1 as [|x l1 IH]; intros [|y l2] [|i] a b Ha Hb; cbn in *; try discriminate.
  - injection Ha as ->. injection Hb as ->. reflexivity.
  - apply IH; assumption.
Qed.
Lemma nth_repeat_some {A} (a : A) n i : (i < n)%nat -> nth_error (repeat a n) i = Some a.
Proof. intro H. apply nth_error_repeat. exact H. Qed.

(** One flight condition: at radius i and azimuth 2π·j/Na the wake is taken at
    the place of that blade element, r from the propeller's axis.  The axial
    velocity is the speed times the wake's; with (cos, sin) the way outwards
    and (-sin, cos) the way round, the radial and tangential velocities are
    the speed times the wake's components inwards and backwards (forwards for
    a propeller that turns the other way).  Outside the wake's points nan. *)
Theorem C220_inflow wake rotation V yc zc R0 radii Na out i j r :
  0 < R0 -> prop_inflow wake rotation [V] yc zc R0 radii Na = Ok out ->
  nth_error radii i = Some r -> (j < Na)%nat ->
  let psi := 2 * PI * INR j / INR Na in
  exists row, nth_error out i = Some row /\ List.length row = Na /\
    match wake (yc + r * cos psi, zc + r * sin psi) with
    | None => nth_error row j = Some None
    | Some (ua, uv, uw) =>
        exists va vt vr, nth_error row j = Some (Some (va, vt, vr)) /\
        va = V * ua /\ vr = - (V * (uv * cos psi + uw * sin psi)) /\
        vt = - (rotation * V * (uv * - sin psi + uw * cos psi))
    end.
Proof.
  intros R1 E Hr Hj psi. unfold prop_inflow in E. cbn [speeds_along bind] in E. injection E as <-.
  exists (map2 (fun V psi => inflow_at wake rotation V yc zc R0 r psi) (repeat V Na) (azimuths Na)).
  split; [apply (map_nth_error (fun r => map2 (fun V psi => inflow_at wake rotation V yc zc R0 r psi) (repeat V Na) (azimuths Na)) i radii Hr)|]. split.
  { assert (L : forall (l1 l2 : list R) f, List.length l1 = List.length l2 -> List.length (@map2 R R (option (R * R * R)) f l1 l2) = List.length l1).
    { induction l1 as [|x l1 IH]; intros [|y l2] f H; cbn in *; try discriminate; auto. }
    rewrite L; rewrite repeat_length; [reflexivity|]. now rewrite azimuths_length. }
  assert (N : nth_error (map2 (fun V psi => inflow_at wake rotation V yc zc R0 r psi) (repeat V Na) (azimuths Na)) j
     = Some (inflow_at wake rotation V yc zc R0 r psi)).
  { apply (map2_nth (fun V psi => inflow_at wake rotation V yc zc R0 r psi)); [apply nth_repeat_some; exact Hj|apply azimuths_nth; exact Hj]. }
  assert (P : station yc zc R0 r psi = (yc + r * cos psi, zc + r * sin psi)).
  { unfold station. f_equal; field; lra. }
  rewrite N. unfold inflow_at. rewrite P. destruct (wake _) as [[[ua uv] uw]|]; [|reflexivity].
  do 3 eexists. split; [reflexivity|]. unfold v_ax, v_tan, v_rad. repeat split; ring.
Qed.

(** Nothing is lost: in the disc's plane the two velocities have the size of the
    speed times the wake's velocity there. *)
Theorem C220_size wake rotation V yc zc R0 r psi ua uv uw va vt vr :
  rotation = 1 \/ rotation = -1 ->
  wake (station yc zc R0 r psi) = Some (ua, uv, uw) ->
  inflow_at wake rotation V yc zc R0 r psi = Some (va, vt, vr) ->
  vt ^ 2 + vr ^ 2 = V ^ 2 * (uv ^ 2 + uw ^ 2) /\ va ^ 2 + vt ^ 2 + vr ^ 2 = V ^ 2 * (ua ^ 2 + uv ^ 2 + uw ^ 2).
Proof.
  intros R1 W E. unfold inflow_at in E. rewrite W in E.
  assert (X : (v_ax V ua, v_tan rotation V uv uw psi, v_rad V uv uw psi) = (va, vt, vr)) by congruence.
  assert (X1 : va = v_ax V ua) by congruence. assert (X2 : vt = v_tan rotation V uv uw psi) by congruence.
  assert (X3 : vr = v_rad V uv uw psi) by congruence. clear X E.
  assert (S : sin psi ^ 2 = 1 - cos psi ^ 2).
  { pose proof (sin2_cos2 psi) as T. unfold Rsqr in T. cbn. lra. }
  assert (Q : vt ^ 2 + vr ^ 2 = V ^ 2 * (uv ^ 2 + uw ^ 2)).
  { rewrite X2, X3. unfold v_tan, v_rad.
    replace ((rotation * V * (- uw * cos psi + uv * sin psi)) ^ 2 + (V * (- uw * sin psi - uv * cos psi)) ^ 2)
      with (V ^ 2 * (rotation ^ 2 * (uw ^ 2 * cos psi ^ 2 - 2 * uw * uv * cos psi * sin psi + uv ^ 2 * sin psi ^ 2)
            + (uw ^ 2 * sin psi ^ 2 + 2 * uw * uv * sin psi * cos psi + uv ^ 2 * cos psi ^ 2))) by ring.
    assert (R2 : rotation ^ 2 = 1) by (destruct R1; subst; ring). rewrite R2, S. ring. }
  split; [exact Q|]. rewrite X1. unfold v_ax. nra.
Qed.

(** Sums of cosines and sines around the disc vanish. *)
Definition total (f : nat -> R) (n : nat) : R := fold_right Rplus 0 (map f (seq 0 n)).
Lemma total_S f n : total f (S n) = total f n + f n.
Proof.
  unfold total. rewrite seq_S, map_app. cbn [map plus]. generalize (map f (seq 0 n)). intro l.
  induction l as [|a t IH]; cbn; lra.
Qed.
Lemma cos_telescope h n : 2 * sin h * total (fun j => cos (2 * h * INR j)) n = sin ((2 * INR n - 1) * h) + sin h.
Proof.
  induction n as [|n IH].
  - unfold total. cbn. replace ((2 * 0 - 1) * h) with (- h) by ring. rewrite sin_neg. ring.
  - rewrite total_S, Rmult_plus_distr_l, IH, S_INR.
    replace ((2 * (INR n + 1) - 1) * h) with (2 * h * INR n + h) by ring.
    replace ((2 * INR n - 1) * h) with (2 * h * INR n - h) by ring.
    rewrite sin_plus, sin_minus. ring.
Qed.
Lemma sin_telescope h n : 2 * sin h * total (fun j => sin (2 * h * INR j)) n = cos h - cos ((2 * INR n - 1) * h).
Proof.
  induction n as [|n IH].
  - unfold total. cbn. replace ((2 * 0 - 1) * h) with (- h) by ring. rewrite cos_neg. ring.
  - rewrite total_S, Rmult_plus_distr_l, IH, S_INR.
    replace ((2 * (INR n + 1) - 1) * h) with (2 * h * INR n + h) by ring.
    replace ((2 * INR n - 1) * h) with (2 * h * INR n - h) by ring.
    rewrite cos_plus, cos_minus. ring.
Qed.
Lemma turn_sums Na : (2 <= Na)%nat ->
  total (fun j => cos (2 * PI * INR j / INR Na)) Na = 0 /\
  total (fun j => sin (2 * PI * INR j / INR Na)) Na = 0.
Proof.
  intro H. set (h := PI / INR Na).
  assert (N : 2 <= INR Na) by (apply (le_INR 2); exact H). pose proof PI_RGT_0 as P.
  assert (S : 0 < sin h).
  { apply sin_gt_0; unfold h.
    - apply Rmult_lt_0_compat; [lra|apply Rinv_0_lt_compat; lra].
    - apply Rmult_lt_reg_r with (INR Na); [lra|]. field_simplify; [|lra]. nra. }
  assert (E : (2 * INR Na - 1) * h = - h + 2 * PI) by (unfold h; field; lra).
  assert (X : forall g : R -> R, total (fun j => g (2 * PI * INR j / INR Na)) Na = total (fun j => g (2 * h * INR j)) Na).
  { intro g. unfold total. f_equal. apply map_ext. intro j. f_equal. unfold h. field. lra. }
  rewrite !X. pose proof (cos_telescope h Na) as C. pose proof (sin_telescope h Na) as D.
  rewrite E in C, D. rewrite sin_plus, cos_2PI, sin_2PI, sin_neg in C.
  rewrite cos_plus, cos_2PI, sin_2PI, cos_neg in D. split.
  - apply (Rmult_eq_reg_l (2 * sin h)); lra.
  - apply (Rmult_eq_reg_l (2 * sin h)); lra.
Qed.

Lemma total_lin a b f g n : total (fun j => a * f j + b * g j) n = a * total f n + b * total g n.
Proof.
  induction n as [|n IH]; [unfold total; cbn; ring|]. rewrite !total_S, IH. ring.
Qed.

(** A wake that is the same all over the disc neither drives nor brakes the
    propeller: around a turn the tangential velocities at a radius add up to
    zero, and the radial ones too. *)
Theorem C220_even rotation V uv uw Na :
  (2 <= Na)%nat ->
  let psi j := 2 * PI * INR j / INR Na in
  total (fun j => v_tan rotation V uv uw (psi j)) Na = 0 /\ total (fun j => v_rad V uv uw (psi j)) Na = 0.
Proof.
  intros H psi. destruct (turn_sums Na H) as [C S]. split.
  - transitivity (total (fun j => (rotation * V * - uw) * cos (psi j) + (rotation * V * uv) * sin (psi j)) Na).
    + unfold total. f_equal. apply map_ext. intro j. unfold v_tan. ring.
    + rewrite (total_lin _ _ (fun j => cos (psi j)) (fun j => sin (psi j))). unfold psi. rewrite C, S. ring.
  - transitivity (total (fun j => (V * - uv) * cos (psi j) + (V * - uw) * sin (psi j)) Na).
    + unfold total. f_equal. apply map_ext. intro j. unfold v_rad. ring.
    + rewrite (total_lin _ _ (fun j => cos (psi j)) (fun j => sin (psi j))). unfold psi. rewrite C, S. ring.
Qed.

(** Several flight conditions: the call fails, unless they are as many as the
    azimuths, and then azimuth j gets the speed of condition j. *)
Theorem C220_conditions_refuted wake rotation Vs yc zc R0 radii Na :
  (2 <= List.length Vs)%nat -> (2 <= Na)%nat ->
  (List.length Vs <> Na -> prop_inflow wake rotation Vs yc zc R0 radii Na = Err ValueError) /\
  (List.length Vs = Na -> exists out, prop_inflow wake rotation Vs yc zc R0 radii Na = Ok out /\
     forall i j r V ua uv uw, nth_error radii i = Some r -> nth_error Vs j = Some V ->
       wake (station yc zc R0 r (2 * PI * INR j / INR Na)) = Some (ua, uv, uw) ->
       exists row vt vr, nth_error out i = Some row /\ nth_error row j = Some (Some (V * ua, vt, vr))).
Proof.
  intros L N. destruct Vs as [|V1 [|V2 Vs]]; cbn in L; try lia. split; intro H.
  - unfold prop_inflow, speeds_along. rewrite (proj2 (Nat.eqb_neq _ _) H).
    destruct (Nat.eqb_spec Na 1); [lia|reflexivity].
  - unfold prop_inflow, speeds_along. rewrite (proj2 (Nat.eqb_eq _ _) H). cbn [bind].
    eexists. split; [reflexivity|]. intros i j r V ua uv uw Hr Hv W.
    exists (map2 (fun V psi => inflow_at wake rotation V yc zc R0 r psi) (V1 :: V2 :: Vs) (azimuths Na)).
    do 2 eexists. split; [apply (map_nth_error (fun r => map2 (fun V psi => inflow_at wake rotation V yc zc R0 r psi) (V1 :: V2 :: Vs) (azimuths Na)) i radii Hr)|].
    assert (J : (j < Na)%nat) by (rewrite <- H; apply nth_error_Some; congruence).
    rewrite (map2_nth (fun V psi => inflow_at wake rotation V yc zc R0 r psi) _ _ _ _ _ Hv (azimuths_nth Na j J)).
    unfold inflow_at. rewrite W. reflexivity.
Qed.

Example C220_case : exists out,
  prop_inflow (fun _ => Some (9 / 10, 0, - (1 / 10))) 1 [50] 3 0 1 [1 / 2; 1] 4 = Ok out /\ List.length out = 2%nat.
Proof. eexists. split; reflexivity. Qed.

(** * C221 *)
Lemma mach_asin m : 1 <= m -> sin (mach_angle m) = 1 / m /\ 0 < mach_angle m <= PI / 2.
Proof.
  intro H. unfold mach_angle. assert (B : 0 < 1 / m <= 1).
  { split; [apply Rmult_lt_0_compat; [lra|apply Rinv_0_lt_compat; lra]|].
    apply Rmult_le_reg_r with m; [lra|]. field_simplify; lra. }
  assert (S : sin (asin (1 / m)) = 1 / m) by (apply sin_asin; lra). pose proof (asin_bound (1 / m)) as A.
  split; [exact S|]. split; [|apply A].
  apply Rnot_le_lt. intro Q. assert (G : 0 <= sin (- asin (1 / m))) by (apply sin_ge_0; lra).
  rewrite sin_neg, S in G. lra.
Qed.

(** Without angle of attack the slicing plane is a Mach plane: it is square to
    (1/M, sqrt(1-1/M²)), the angle between it and the x-axis being the Mach
    angle; with an angle of attack it is turned by that angle. *)
Theorem C221_plane m aoa : 1 <= m ->
  let s := 1 / m in let c := sqrt (1 - (1 / m) ^ 2) in
  normal m 0 = (s, c) /\
  normal m aoa = (s * cos aoa - c * sin aoa, c * cos aoa + s * sin aoa) /\
  fst (normal m aoa) ^ 2 + snd (normal m aoa) ^ 2 = 1.
Proof.
  intros H s c. destruct (mach_asin m H) as [S B].
  assert (C : cos (mach_angle m) = c).
  { pose proof (sin2_cos2 (mach_angle m)) as T. unfold Rsqr in T. rewrite S in T.
    assert (P : 0 <= cos (mach_angle m)) by (apply cos_ge_0; lra).
    unfold c. rewrite <- (sqrt_pow2 _ P). f_equal. cbn. lra. }
  assert (C0 : cos (PI / 2 - mach_angle m) = s) by (rewrite cos_shift; exact S).
  assert (S0 : sin (PI / 2 - mach_angle m) = c) by (rewrite sin_shift; exact C).
  assert (A : normal m aoa = (s * cos aoa - c * sin aoa, c * cos aoa + s * sin aoa)).
  { unfold normal, roty. rewrite cos_plus, sin_plus, C0, S0. reflexivity. }
  split; [|split; [exact A|]].
  - unfold normal, roty. rewrite Rplus_0_r, C0, S0. reflexivity.
  - unfold normal. cbn [fst snd]. pose proof (sin2_cos2 (roty m aoa)) as T. unfold Rsqr in T. cbn. lra.
Qed.

(** Areas: in OpenVSP's order, each as seen along the x-axis, its area times
    the x-component of the plane's direction; one slice without area at the
    end is left out. *)
Theorem C221_areas m aoa cuts out :
  slices m aoa cuts = Ok out ->
  let areas := map (fun c => fst (fst c) * fst (normal m aoa)) cuts in
  (last areas 0 <> 0 /\ map snd out = areas) \/
  (last areas 0 = 0 /\ map snd out = removelast areas).
Proof.
  intros E areas. unfold slices in E.
  set (l := map (fun c => let '(area, x, z) := c in (x + z * tan (mach_angle m), area * cos (roty m aoa))) cuts) in E.
  assert (A : areas = map snd l).
  { unfold areas, l. rewrite map_map. apply map_ext. intros [[a x] z]. reflexivity. }
  rewrite A. clearbody l. clear A areas.
  destruct (rev l) as [|[x a] r] eqn:Q; [discriminate|].
  assert (L : l = rev r ++ [(x, a)]) by (rewrite <- (rev_involutive l), Q; reflexivity).
  assert (La : last (map snd l) 0 = a) by (rewrite L, map_app; cbn [map snd]; apply last_last).
  destruct (Req_EM_T a 0) as [Z|Z]; injection E as <-.
  - right. split; [congruence|]. rewrite L, map_app. cbn [map snd]. rewrite removelast_last. reflexivity.
  - left. split; [congruence|reflexivity].
Qed.

(** Places: a slice is put where its plane meets the axis only if its centre is
    on the axis or the Mach number is the square root of two: the tangent of
    the Mach angle is used (96) where its inverse belongs. *)
Theorem C221_places_refuted m x z a out p :
  1 < m -> a <> 0 -> slices m 0 [(a, x, z)] = Ok out -> In p out ->
  let n := normal m 0 in
  (fst n * fst p + snd n * 0 = fst n * x + snd n * z <-> z = 0 \/ m ^ 2 = 2).
Proof.
  intros H A E I n. destruct (mach_asin m ltac:(lra)) as [S B].
  assert (M : 0 < 1 / m < 1).
  { split; [apply Rmult_lt_0_compat; [lra|apply Rinv_0_lt_compat; lra]|].
    apply Rmult_lt_reg_r with m; [lra|]. field_simplify; lra. }
  assert (RO : roty m 0 = PI / 2 - mach_angle m) by (unfold roty; ring).
  assert (CR : cos (roty m 0) = 1 / m) by (rewrite RO, cos_shift; exact S).
  assert (SR : sin (roty m 0) = cos (mach_angle m)) by (rewrite RO, sin_shift; reflexivity).
  assert (T2 : cos (mach_angle m) ^ 2 = 1 - (1 / m) ^ 2).
  { pose proof (sin2_cos2 (mach_angle m)) as T. unfold Rsqr in T. rewrite S in T. cbn. lra. }
  assert (P : 0 < cos (mach_angle m)).
  { destruct (Rtotal_order (cos (mach_angle m)) 0) as [G|[G|G]]; [|rewrite G in T2; nra|exact G].
    assert (0 <= cos (mach_angle m)) by (apply cos_ge_0; lra). lra. }
  unfold slices in E. cbn [map rev app] in E.
  destruct (Req_EM_T (a * cos (roty m 0)) 0) as [Z|Z].
  { exfalso. rewrite CR in Z. apply Rmult_integral in Z. destruct Z; [contradiction|lra]. }
  assert (Eo : out = [(x + z * tan (mach_angle m), a * cos (roty m 0))]) by congruence. subst out. clear E.
  destruct I as [<-|[]]. unfold n, normal. cbn [fst snd]. rewrite CR, SR. unfold tan. rewrite S.
  set (s := 1 / m) in *. set (c := cos (mach_angle m)) in *.
  assert (K : s * (x + z * (s / c)) + c * 0 = s * x + c * z <-> z * (2 * s ^ 2 - 1) = 0).
  { split; intro Q.
    - assert (Q2 : s * (z * (s / c)) = c * z) by lra.
      assert (Q3 : s * s * z = c ^ 2 * z).
      { replace (s * s * z) with (s * (z * (s / c)) * c) by (field; lra). rewrite Q2. ring. }
      rewrite T2 in Q3. nra.
    - assert (Q3 : s * s * z = c ^ 2 * z) by (rewrite T2; nra).
      assert (Q4 : s * (z * (s / c)) = c * z).
      { replace (s * (z * (s / c))) with (s * s * z / c) by (field; lra). rewrite Q3. field. lra. }
      lra. }
  rewrite K. split; intro Q.
  - apply Rmult_integral in Q. destruct Q as [Q|Q]; [left; exact Q|right].
    assert (s ^ 2 * m ^ 2 = 1) by (unfold s; field; lra). nra.
  - destruct Q as [->|Q]; [ring|]. assert (s ^ 2 * m ^ 2 = 1) by (unfold s; field; lra). rewrite Q in *.
    assert (2 * s ^ 2 - 1 = 0) by lra. rewrite H1. ring.
Qed.

(** Every Mach number is cut along its own plane, in order, with its own angle
    of attack, or with the only one given. *)
Theorem C221_each cut aoas machs out :
  all_slices cut aoas 0 machs = Ok out ->
  List.length out = List.length machs /\
  forall i m, nth_error machs i = Some m ->
    exists aoa s, (aoas = [aoa] \/ ((2 <= List.length aoas)%nat /\ nth_error aoas i = Some aoa)) /\
      slices m aoa (cut (normal m aoa)) = Ok s /\ nth_error out i = Some s.
Proof.
  assert (G : forall machs k out, all_slices cut aoas k machs = Ok out ->
    List.length out = List.length machs /\
    forall i m, nth_error machs i = Some m ->
    exists aoa s, (aoas = [aoa] \/ ((2 <= List.length aoas)%nat /\ nth_error aoas (k + i) = Some aoa)) /\
      slices m aoa (cut (normal m aoa)) = Ok s /\ nth_error out i = Some s).
  { clear. induction machs as [|m t IH]; intros k out E.
    - cbn in E. injection E as <-. split; [reflexivity|]. intros [|i] m; discriminate.
    - cbn [all_slices] in E. destruct (aoa_of aoas k) as [aoa|e] eqn:A; [|discriminate]. cbn [bind] in E.
      destruct (slices m aoa (cut (normal m aoa))) as [s|e] eqn:Q; [|discriminate]. cbn [bind] in E.
      destruct (all_slices cut aoas (S k) t) as [rest|e] eqn:F; [|discriminate]. cbn [bind] in E. injection E as <-.
      destruct (IH _ _ F) as [L R]. split; [cbn; congruence|]. intros [|i] m' H.
      + cbn in H. injection H as <-. exists aoa, s. split; [|split; [exact Q|reflexivity]].
        rewrite Nat.add_0_r. unfold aoa_of in A. destruct aoas as [|a [|b r]]; [discriminate|left; congruence|right].
        split; [cbn; lia|]. destruct (nth_error (a :: b :: r) k); [congruence|discriminate].
      + cbn in H. destruct (R _ _ H) as (a' & s' & X & Y & W). exists a', s'. split; [|split; [exact Y|exact W]].
        destruct X as [X|[X1 X2]]; [left; exact X|right]. split; [exact X1|].
        replace (k + S i)%nat with (S k + i)%nat by lia. exact X2. }
  apply (G machs 0%nat out).
Qed.

Example C221_case : exists out, all_slices (fun _ => [(1, 0, 0); (2, 3, 1)]) [0] 0 [2; 3] = Ok out.
Proof.
  cbn [all_slices aoa_of bind]. unfold slices. cbn [map rev app].
  destruct (Req_EM_T _ 0); cbn [bind]; destruct (Req_EM_T _ 0); cbn [bind]; eexists; reflexivity.
Qed.

Print Assumptions C220_inflow.
Print Assumptions C220_size.
Print Assumptions C220_even.
Print Assumptions C220_conditions_refuted.
Print Assumptions C221_plane.
Print Assumptions C221_areas.
Print Assumptions C221_places_refuted.
Print Assumptions C221_each.
