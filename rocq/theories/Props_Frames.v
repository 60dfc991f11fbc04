(** * C23, C25, C26: weights, orientations and forces, aerodynamic coefficients *)
From Coq Require Import Reals List Bool Lra Lia.
From Verif Require Import M_Opt P_Opt M_Rot S_Rot P_Rot M_Mission M_Segments S_Mission P_Mission P_Frames.
Import ListNotations.
Local Open Scope R_scope.
Local Open Scope list_scope.

(** ** C23 *)
(** burnt up to a control point: the time integral of a rate *)
Definition burnt (n : nat) (nu : numerics) (rate : col) (i : nat) : R :=
  Sum n (fun j => t_I nu i j * rate j).
Lemma integral_neg : forall n nu rate i, mulv n (t_I nu) (fun j => - rate j) i = - burnt n nu rate i.
Proof.
  intros. unfold mulv, burnt. induction n as [|n IH]; cbn; [ring|]. rewrite IH. ring.
Qed.
Theorem C23_mass : forall n nu c, let c' := update_weights n nu c in
  mass c' 0%nat = mass c 0%nat /\
  forall i, (0 < i)%nat -> mass c' i = mass c 0%nat - burnt n nu (mdot c) i.
Proof.
  intros n nu c c'. unfold c', update_weights. cbv zeta.
  destruct (has_add c); (split; [reflexivity|]); intros [|i] Hi; try lia; cbn;
    rewrite integral_neg; unfold Rminus; reflexivity.
Qed.
(** the weight is mass times local gravity, along the inertial z axis only *)
Theorem C23_weight : forall n nu c i, (forall j, t_I nu 0%nat j = 0) -> let c' := update_weights n nu c in
  weight_f c' i = V3 (vx (weight_f c i)) (vy (weight_f c i)) (mass c' i * grav c i).
Proof.
  intros n nu c i Hz c'. unfold c', update_weights. cbv zeta. unfold with_z.
  destruct i as [|i]; destruct (has_add c); cbn; try reflexivity; rewrite mulv_zero_row by exact Hz;
    f_equal; ring.
Qed.
(** mass never exceeds the initial mass when nothing negative has been burnt, and falls from one
    point to a later one exactly by what is burnt in between *)
Theorem C23_bounded : forall n nu c i, 0 <= burnt n nu (mdot c) i ->
  mass (update_weights n nu c) i <= mass c 0%nat.
Proof.
  intros n nu c i H. destruct (C23_mass n nu c) as [A B]. destruct i as [|i]; [lra|].
  rewrite B by lia. lra.
Qed.
Theorem C23_between : forall n nu c i k, (0 < i)%nat -> (0 < k)%nat -> let c' := update_weights n nu c in
  mass c' i - mass c' k = burnt n nu (mdot c) k - burnt n nu (mdot c) i.
Proof.
  intros n nu c i k Hi Hk c'. unfold c'. destruct (C23_mass n nu c) as [_ B]. rewrite !B by assumption. ring.
Qed.
(** fuel and additional fuel are integrated separately when a network reports them *)
Theorem C23_fuel : forall n nu c, has_add c = true -> let c' := update_weights n nu c in
  fuel_mass c' 0%nat = fuel_mass c 0%nat /\ add_mass c' 0%nat = add_mass c 0%nat /\
  forall i, (0 < i)%nat -> fuel_mass c' i = fuel_mass c 0%nat - burnt n nu (fuel_rate c) i /\
                           add_mass c' i = add_mass c 0%nat - burnt n nu (add_rate c) i.
Proof.
  intros n nu c H c'. unfold c', update_weights. cbv zeta. rewrite H.
  split; [reflexivity|split; [reflexivity|]]. intros [|i] Hi; [lia|]. cbn. rewrite !integral_neg. split; reflexivity.
Qed.
(** then, if the vehicle mass rate is the sum of the two, the vehicle loses what they lose *)
Theorem C23_fuel_total : forall n nu c i, has_add c = true -> (forall j, mdot c j = fuel_rate c j + add_rate c j) ->
  let c' := update_weights n nu c in
  mass c' i - mass c' 0%nat = (fuel_mass c' i - fuel_mass c' 0%nat) + (add_mass c' i - add_mass c' 0%nat).
Proof.
  intros n nu c i Ha Hm c'. destruct i as [|i]; [ring|].
  destruct (C23_mass n nu c) as [A B]. destruct (C23_fuel n nu c Ha) as (F0 & A0 & FA).
  fold c' in A, B, F0, A0, FA. destruct (FA (S i) ltac:(lia)) as [F1 A1].
  rewrite A, B, F0, A0, F1, A1 by lia.
  assert (E : burnt n nu (mdot c) (S i) = burnt n nu (fuel_rate c) (S i) + burnt n nu (add_rate c) (S i)).
  { unfold burnt. rewrite <- Sum_plus. apply Sum_ext. intros. rewrite Hm. ring. }
  rewrite E. ring.
Qed.
(** nothing that the mission reads elsewhere is changed *)
Theorem C23_frame : forall n nu c, let c' := update_weights n nu c in
  time c' = time c /\ pos c' = pos c /\ vel c' = vel c /\ mdot c' = mdot c /\ grav c' = grav c /\
  lift_f c' = lift_f c /\ drag_f c' = drag_f c /\ thrust_f c' = thrust_f c /\ batt c' = batt c.
Proof. intros n nu c. unfold update_weights. destruct (has_add c); repeat split. Qed.

(** ** C25 *)
(** wings level, no sideslip: the velocity lies in the vertical plane through the body axis *)
Definition symmetric (c : conds) (i : nat) (theta x z : R) : Prop :=
  rot c i = V3 0 theta 0 /\ vel c i = V3 x 0 z.

Lemma w2i_eq : forall c i, w2i (update_orientations c) i = snd (wind_axes (rot c i) (vel c i)).
Proof. reflexivity. Qed.
Lemma b2i_eq : forall c i, b2i (update_orientations c) i = snd (fst (wind_axes (rot c i) (vel c i))).
Proof. reflexivity. Qed.
Lemma alpha_eq : forall c i, alpha (update_orientations c) i = fst (fst (fst (wind_axes (rot c i) (vel c i)))).
Proof. reflexivity. Qed.
Lemma beta_eq : forall c i, beta (update_orientations c) i = - snd (fst (fst (wind_axes (rot c i) (vel c i)))).
Proof. reflexivity. Qed.
Lemma roll_eq : forall c i, roll (update_orientations c) i = vx (rot c i).
Proof. reflexivity. Qed.
Lemma keeps_lift : forall c, lift_f (update_orientations c) = lift_f c.
Proof. reflexivity. Qed.
Lemma keeps_drag : forall c, drag_f (update_orientations c) = drag_f c.
Proof. reflexivity. Qed.
Lemma keeps_thrust : forall c, thrust_f (update_orientations c) = thrust_f c.
Proof. reflexivity. Qed.
Lemma keeps_weight : forall c, weight_f (update_orientations c) = weight_f c.
Proof. reflexivity. Qed.
Lemma total_eq : forall c i, total_f (update_forces c) i =
  vplus (vplus (vplus (mapply (w2i c i) (lift_f c i)) (mapply (w2i c i) (drag_f c i)))
               (mapply (b2i c i) (thrust_f c i))) (weight_f c i).
Proof. reflexivity. Qed.
Lemma hyp_nonneg_pos : forall x z, V3 x 0 z <> V3 0 0 0 -> 0 < hyp x z.
Proof.
  intros x z H. apply hyp_pos. destruct (Req_dec x 0) as [->|]; [|now left].
  right. intros ->. now apply H.
Qed.
(** a force along the wind x axis is along the velocity *)
Theorem C25_drag : forall c i theta x z D, symmetric c i theta x z -> vel c i <> V3 0 0 0 ->
  mapply (w2i (update_orientations c) i) (V3 (- D) 0 0) = scaled (- D / norm (vel c i)) (vel c i).
Proof.
  intros c i theta x z D [Hr Hv] Hn. rewrite w2i_eq, Hr, Hv in *. rewrite norm_2d.
  pose proof (hyp_nonneg_pos _ _ Hn) as Hp.
  pose proof (symmetric_axes theta x z) as A. destruct (wind_axes (V3 0 theta 0) (V3 x 0 z)) as [[[a b] B] W].
  destruct A as (_ & A & _). specialize (A (V3 (- D) 0 0)). cbn [vx vy vz fst snd] in A |- *.
  destruct (mapply W (V3 (- D) 0 0)) as [p q r]. unfold scaled in A; cbn in A. injection A as E1 E2 E3.
  apply v3_ext; cbn; apply Rmult_eq_reg_l with (hyp x z); try lra; rewrite ?E1, ?E2, ?E3; field; lra.
Qed.
(** a lift force is perpendicular to the velocity, keeps its size, and points up when flying
    forward *)
Theorem C25_lift : forall c i theta x z L, symmetric c i theta x z -> vel c i <> V3 0 0 0 ->
  let F := mapply (w2i (update_orientations c) i) (V3 0 0 (- L)) in
  vdot F (vel c i) = 0 /\ norm F = Rabs L /\ vy F = 0 /\ (0 < x -> 0 < L -> vz F < 0).
Proof.
  intros c i theta x z L [Hr Hv] Hn. cbv zeta. rewrite w2i_eq, Hr, Hv in *.
  pose proof (hyp_nonneg_pos _ _ Hn) as Hp.
  pose proof (symmetric_axes theta x z) as A. 
  assert (PW : proper (snd (wind_axes (V3 0 theta 0) (V3 x 0 z)))).
  { unfold wind_axes. cbn [snd]. apply proper_mprod; [|apply proper_transpose]; apply proper_210. }
  destruct (wind_axes (V3 0 theta 0) (V3 x 0 z)) as [[[a b] B] W].
  destruct A as (_ & A & _). specialize (A (V3 0 0 (- L))). cbn [vx vy vz fst snd] in A, PW |- *.
  assert (N : norm (mapply W (V3 0 0 (- L))) = Rabs L).
  { unfold norm. rewrite (proper_inner W _ _ PW). unfold vdot. cbn.
    replace (0 * 0 + 0 * 0 + - L * - L) with (Rsqr L) by (unfold Rsqr; ring). apply sqrt_Rsqr_abs. }
  split; [|split; [exact N|]].
  - destruct (mapply W (V3 0 0 (- L))) as [p q r]. unfold scaled in A; cbn in A. injection A as E1 E2 E3.
    unfold vdot; cbn. apply Rmult_eq_reg_l with (hyp x z); [|lra].
    replace (hyp x z * (p * x + q * 0 + r * z)) with ((hyp x z * p) * x + (hyp x z * r) * z) by ring.
    rewrite E1, E3. ring.
  - destruct (mapply W (V3 0 0 (- L))) as [p q r]. unfold scaled in A; cbn in A. injection A as E1 E2 E3. cbn.
    split.
    + apply Rmult_eq_reg_l with (hyp x z); lra.
    + intros Hx HL. assert (0 < x * L) by (apply Rmult_lt_0_compat; lra).
      assert (hyp x z * r < 0) by (rewrite E3; lra).
      destruct (Rlt_dec r 0); [assumption|]. assert (0 <= hyp x z * r) by (apply Rmult_le_pos; lra). lra.
Qed.
(** the angle of attack is pitch minus flight path angle, and there is no sideslip *)
Theorem C25_angles : forall c i theta x z, symmetric c i theta x z ->
  let c' := update_orientations c in
  norm (vel c i) * cos (theta - alpha c' i) = x /\ norm (vel c i) * sin (theta - alpha c' i) = - z /\
  beta c' i = 0 /\ roll c' i = 0.
Proof.
  intros c i theta x z [Hr Hv]. cbv zeta. rewrite alpha_eq, beta_eq, roll_eq, Hr, Hv, norm_2d.
  pose proof (symmetric_axes theta x z) as A. destruct (wind_axes (V3 0 theta 0) (V3 x 0 z)) as [[[a b] B] W].
  destruct A as (Hb & _ & _ & C & S). cbn. rewrite cos_minus, sin_minus, Hb.
  pose proof (sc theta) as Hsc.
  repeat split; [| |ring].
  - replace (hyp x z * (cos theta * cos a + sin theta * sin a))
      with (cos theta * (hyp x z * cos a) + sin theta * (hyp x z * sin a)) by ring. rewrite C, S.
    transitivity ((sin theta * sin theta + cos theta * cos theta) * x); [ring|rewrite Hsc; ring].
  - replace (hyp x z * (sin theta * cos a - cos theta * sin a))
      with (sin theta * (hyp x z * cos a) - cos theta * (hyp x z * sin a)) by ring. rewrite C, S.
    transitivity ((sin theta * sin theta + cos theta * cos theta) * - z); [ring|rewrite Hsc; ring].
Qed.
(** the total force: lift and drag as above, thrust turned by the pitch angle, and weight *)
Theorem C25_total : forall c i theta x z L D F W,
  symmetric c i theta x z -> vel c i <> V3 0 0 0 ->
  lift_f c i = V3 0 0 (- L) -> drag_f c i = V3 (- D) 0 0 -> thrust_f c i = V3 F 0 0 -> weight_f c i = V3 0 0 W ->
  let V := norm (vel c i) in
  total_f (update_forces (update_orientations c)) i
  = V3 (L * z / V - D * x / V + F * cos theta) 0 (- L * x / V - D * z / V - F * sin theta + W).
Proof.
  intros c i theta x z L D F W0 [Hr Hv] Hn HL HD HF HW. cbv zeta.
  rewrite total_eq, keeps_lift, keeps_drag, keeps_thrust, keeps_weight.
  rewrite w2i_eq, b2i_eq, HL, HD, HF, HW, Hr, Hv in *. rewrite norm_2d.
  pose proof (hyp_nonneg_pos _ _ Hn) as Hp.
  pose proof (symmetric_axes theta x z) as A. destruct (wind_axes (V3 0 theta 0) (V3 x 0 z)) as [[[a b] B] W].
  destruct A as (_ & A & HB & _). cbn [fst snd]. rewrite HB. pose proof (A (V3 (- D) 0 0)) as A1. pose proof (A (V3 0 0 (- L))) as A2.
  destruct (mapply W (V3 (- D) 0 0)) as [p q r], (mapply W (V3 0 0 (- L))) as [p' q' r'].
  unfold scaled in A1, A2; cbn in A1, A2. injection A1 as E1 E2 E3. injection A2 as E4 E5 E6.
  unfold vplus. apply v3_ext; cbn; apply Rmult_eq_reg_l with (hyp x z); try lra.
  - replace (hyp x z * (p' + p + (cos theta * F + sin theta * 0) + 0))
      with (hyp x z * p' + hyp x z * p + hyp x z * (cos theta * F)) by ring. rewrite E1, E4. field. lra.
  - replace (hyp x z * (r' + r + (- sin theta * F + cos theta * 0) + W0))
      with (hyp x z * r' + hyp x z * r + hyp x z * (- sin theta * F + W0)) by ring. rewrite E3, E6. field. lra.
Qed.
(** in general the four forces are added in the inertial frame *)
Theorem C25_sum : forall c i, total_f (update_forces c) i =
  plus (plus (plus (mapply (w2i c i) (lift_f c i)) (mapply (w2i c i) (drag_f c i))) (mapply (b2i c i) (thrust_f c i)))
       (weight_f c i).
Proof. reflexivity. Qed.
(** forces keep their size for every attitude and velocity *)
Theorem C25_sizes : forall c i v, norm (mapply (w2i (update_orientations c) i) v) = norm v /\
  norm (mapply (b2i (update_orientations c) i) v) = norm v.
Proof.
  intros c i v. rewrite w2i_eq, b2i_eq. unfold wind_axes. cbn [fst snd]. unfold norm.
  rewrite proper_inner by (apply proper_mprod; [|apply proper_transpose]; apply proper_210).
  rewrite proper_inner by (apply proper_transpose, proper_210). auto.
Qed.
(** with sideslip the drag is not along the velocity: level attitude, any forward speed, any
    lateral speed *)
Theorem C25_sideslip_refuted : forall c i x y D, 0 < x -> y <> 0 -> D <> 0 ->
  rot c i = V3 0 0 0 -> vel c i = V3 x y 0 ->
  ~ exists k, mapply (w2i (update_orientations c) i) (V3 (- D) 0 0) = scaled k (vel c i).
Proof.
  intros c i x y D Hx Hy HD Hr Hv [k H]. rewrite w2i_eq, Hr, Hv in H.
  unfold wind_axes in H. cbv zeta in H. rewrite dcm_pitch in H. cbn [vx vy vz fst snd] in H.
  rewrite sin_0, cos_0 in H.
  replace (1 * x - 0 * 0) with x in H by ring. replace (0 * x + 1 * 0) with 0 in H by ring.
  replace (arctan2 0 x) with 0 in H by (symmetry; apply arctan2_zero; lra).
  unfold vdot in H. cbn [vx vy vz] in H. replace (x * x + 0 * 0 + 0 * 0) with (Rsqr x) in H by (unfold Rsqr; ring).
  rewrite sqrt_Rsqr in H by lra.
  destruct (arctan2_spec y x) as [C S]. set (b := arctan2 y x) in *.
  assert (Hh : 0 < hyp x y) by (apply hyp_pos; left; lra).
  rewrite mapply_mprod, roll_back, dcm_yaw in H. unfold scaled in H. cbn in H. injection H as E1 E2 _.
  assert (F1 : cos b * - D = k * x) by lra. assert (F2 : sin b * D = k * y) by lra.
  assert (G1 : - D * x = k * x * hyp x y) by (rewrite <- F1; rewrite <- C at 1; ring).
  assert (G2 : D * y = k * y * hyp x y) by (rewrite <- F2; rewrite <- S at 1; ring).
  assert (K1 : - D = k * hyp x y) by (apply Rmult_eq_reg_r with x; lra).
  assert (K2 : D = k * hyp x y) by (apply Rmult_eq_reg_r with y; lra). lra.
Qed.
(** nor in a steep bank while climbing or descending *)
Theorem C25_bank_refuted : forall c i x z D, 0 < x -> z <> 0 -> D <> 0 ->
  rot c i = V3 (PI / 2) 0 0 -> vel c i = V3 x 0 z ->
  ~ exists k, mapply (w2i (update_orientations c) i) (V3 (- D) 0 0) = scaled k (vel c i).
Proof.
  intros c i x z D Hx Hz HD Hr Hv [k H]. rewrite w2i_eq, Hr, Hv in H.
  unfold wind_axes in H. cbv zeta in H. cbn [fst snd] in H.
  assert (E : mapply (dcm_210 (V3 (PI / 2) 0 0)) (V3 x 0 z) = V3 x z 0).
  { apply v3_ext; repeat (progress (cbn; unfold vdot)); rewrite ?sin_0, ?cos_0, ?sin_PI2, ?cos_PI2; ring. }
  rewrite E in H. cbn [vx vy vz] in H.
  replace (arctan2 0 x) with 0 in H by (symmetry; apply arctan2_zero; lra).
  unfold vdot in H. cbn [vx vy vz] in H. replace (x * x + 0 * 0 + 0 * 0) with (Rsqr x) in H by (unfold Rsqr; ring).
  rewrite sqrt_Rsqr in H by lra.
  destruct (arctan2_spec z x) as [C S]. set (b := arctan2 z x) in *.
  assert (Hh : 0 < hyp x z) by (apply hyp_pos; left; lra).
  rewrite mapply_mprod, roll_back, dcm_yaw in H. unfold scaled in H. cbn in H. injection H as E1 E2 E3.
  assert (F3 : 0 = k * z) by lra. assert (k = 0) by nra. subst k.
  assert (F1 : cos b * D = 0) by lra. 
  assert (cos b = 0) by nra. rewrite H in C. lra.
Qed.
(** level flight at 100 m/s, pitched up by 0.1 *)
Definition ex_battery : battery :=
  Battery (fun _ => 7) (fun _ => 0) (fun _ => 0) (fun _ => 0) 9 9 1 1 0%Z true.
Definition zero_conds : conds :=
  let z := fun _ : nat => 0 in let v := fun _ : nat => V3 0 0 0 in let m := fun _ : nat => eye3 in
  Conds z v v v z v v v v m v v m v v z z None z z z z z z z z z z z z z z z z z ex_battery z z z z z z false.
Definition ex_level : conds :=
  set_vel (fun _ => V3 100 0 0) (set_rot (fun _ => V3 0 (1 / 10) 0) zero_conds).
Example C25_case : symmetric ex_level 0 (1 / 10) 100 0 /\ vel ex_level 0%nat <> V3 0 0 0 /\
  mapply (w2i (update_orientations ex_level) 0%nat) (V3 (Ropp 5) 0 0) = V3 (-5) 0 0.
Proof.
  split; [split; reflexivity|]. split; [intro H; injection H; lra|].
  rewrite (C25_drag ex_level 0 (1 / 10) 100 0 5); [|split; reflexivity|intro H; injection H; lra].
  cbn. assert (N : norm (V3 100 0 0) = 100).
  { unfold norm, vdot. cbn. replace (100 * 100 + 0 * 0 + 0 * 0) with (Rsqr 100) by (unfold Rsqr; ring).
    apply sqrt_Rsqr. lra. }
  rewrite N. apply v3_ext; cbn; field.
Qed.
Example C23_case :
  let nu := Numerics (fun _ => 0) (fun _ _ => 0) (fun _ _ => 0) (fun _ => 0) (fun _ _ => 0)
              (fun i j => match i with O => 0 | _ => 10 end) in
  let c := set_mdot (fun _ => 2) (set_mass (fun _ => 1000) zero_conds) in
  mass (update_weights 2 nu c) 1%nat = 1000 - 40 /\ 0 <= burnt 2 nu (mdot c) 1%nat.
Proof. cbn. unfold burnt, mulv. cbn. split; lra. Qed.

(** ** C26 *)
Theorem C26_freestream : forall c i, let c' := update_freestream c in
  speed c' i = norm (vel c i) /\ dynp c' i = 1 / 2 * rho c i * speed c' i ^ 2 /\
  (sound c i <> 0 -> mach c' i * sound c i = speed c' i) /\
  (visc c i <> 0 -> reyn c' i * visc c i = rho c i * speed c' i).
Proof.
  intros c i. cbn. split; [reflexivity|]. split.
  - rewrite Rmult_1_r, sqrt_sqrt; [reflexivity|]. nra.
  - split; intro H; field; exact H.
Qed.
(** the lift coefficient never exceeds the limit, in either direction *)
Theorem C26_limit : forall an c i, 0 <= an_CLmax an -> Rabs (CL (update_aerodynamics an c) i) <= an_CLmax an.
Proof.
  intros an c i H. unfold update_aerodynamics. destruct (an_aero an c) as [cl0 cd0]. cbn.
  unfold limit_CL. destruct (Rltb 0 (dynp c i));
  (destruct (Rltb (an_CLmax an) _) eqn:E1; [apply Rltb_true in E1|apply Rltb_false in E1]);
  (match goal with |- context [Rltb ?a (- an_CLmax an)] => destruct (Rltb a (- an_CLmax an)) eqn:E2;
     [apply Rltb_true in E2|apply Rltb_false in E2] end);
  apply Rabs_le; lra.
Qed.
(** without positive dynamic pressure there is neither lift nor drag *)
Theorem C26_no_flow : forall an c i, 0 <= an_CLmax an -> dynp c i <= 0 -> let c' := update_aerodynamics an c in
  CL c' i = 0 /\ CD c' i = 0 /\ lift_f c' i = V3 0 0 0 /\ drag_f c' i = V3 0 0 0.
Proof.
  intros an c i H Hq. unfold update_aerodynamics. destruct (an_aero an c) as [cl0 cd0]. cbn.
  assert (E : Rltb 0 (dynp c i) = false) by (apply Rltb_false; exact Hq).
  assert (EL : limit_CL (an_CLmax an) (dynp c i) (cl0 i) = 0).
  { unfold limit_CL. rewrite E. replace (Rltb (an_CLmax an) 0) with false by (symmetry; apply Rltb_false; lra).
    replace (Rltb 0 (- an_CLmax an)) with false by (symmetry; apply Rltb_false; lra). reflexivity. }
  unfold limit_CD. rewrite EL, E. repeat split; apply v3_ext; cbn; ring.
Qed.
(** with it, coefficients within the limit are the model's and beyond it they are the limit;
    lift acts along wind -z and drag along wind -x with size coefficient times q times S *)
Theorem C26_coefficients : forall an c i cl0 cd0, 0 <= an_CLmax an -> 0 < dynp c i -> an_aero an c = (cl0, cd0) ->
  let c' := update_aerodynamics an c in let m := an_CLmax an in
  (- m <= cl0 i <= m -> CL c' i = cl0 i) /\ (m < cl0 i -> CL c' i = m) /\ (cl0 i < - m -> CL c' i = - m) /\
  CD c' i = cd0 i /\
  lift_f c' i = V3 0 0 (- (CL c' i * dynp c i * an_Sref an)) /\
  drag_f c' i = V3 (- (CD c' i * dynp c i * an_Sref an)) 0 0.
Proof.
  intros an c i cl0 cd0 H Hq Ha. unfold update_aerodynamics. rewrite Ha. cbn.
  assert (E : Rltb 0 (dynp c i) = true) by (apply Rltb_true; exact Hq).
  unfold limit_CL, limit_CD. rewrite E.
  split; [|split; [|split; [|split; [reflexivity|split; apply v3_ext; cbn; ring]]]]; intro X.
  - replace (Rltb (an_CLmax an) (cl0 i)) with false by (symmetry; apply Rltb_false; lra).
    replace (Rltb (cl0 i) (- an_CLmax an)) with false by (symmetry; apply Rltb_false; lra). reflexivity.
  - replace (Rltb (an_CLmax an) (cl0 i)) with true by (symmetry; apply Rltb_true; lra).
    replace (Rltb (an_CLmax an) (- an_CLmax an)) with false by (symmetry; apply Rltb_false; lra). reflexivity.
  - replace (Rltb (an_CLmax an) (cl0 i)) with false by (symmetry; apply Rltb_false; lra).
    replace (Rltb (cl0 i) (- an_CLmax an)) with true by (symmetry; apply Rltb_true; lra). reflexivity.
Qed.
(** a negative limit is exceeded *)
Theorem C26_negative_limit_refuted : exists an c i, an_CLmax an < CL (update_aerodynamics an c) i.
Proof.
  exists (Analyses (fun _ _ => 0) (fun _ _ => 0) (fun _ _ => 0) (fun _ _ => 0) (fun _ _ => 0) (fun _ => 0) 1 1 1
            (fun _ => (fun _ => 0, fun _ => 0)) 1 (-1)
            (fun c => (fun _ => V3 0 0 0, fun _ => 0, None, batt c))), (set_dynp (fun _ => 1) zero_conds), 0%nat.
  cbn. unfold limit_CL.
  replace (Rltb 0 1) with true by (symmetry; apply Rltb_true; lra).
  replace (Rltb (-1) 0) with true by (symmetry; apply Rltb_true; lra).
  replace (Rltb (-1) (- (-1))) with true by (symmetry; apply Rltb_true; lra). lra.
Qed.
Definition ex_analyses : analyses :=
  Analyses (fun h _ => 100 - h / 100) (fun _ _ => 288) (fun _ _ => 1) (fun _ _ => 340) (fun _ _ => 1)
    (fun _ => 10) 6000000 1000 900
    (fun _ => (fun _ => 1 / 2, fun _ => 1 / 20)) 20 (3 / 2)
    (fun c => (fun _ => V3 1000 0 0, fun _ => 1 / 2, None, batt c)).
Example C26_case : let c := set_dynp (fun _ => 50) zero_conds in
  0 <= an_CLmax ex_analyses /\ 0 < dynp c 0%nat /\
  lift_f (update_aerodynamics ex_analyses c) 0%nat = V3 0 0 (-500).
Proof.
  cbn. split; [lra|split; [lra|]]. 
  assert (L : limit_CL (3 / 2) 50 (1 / 2) = 1 / 2).
  { unfold limit_CL. replace (Rltb 0 50) with true by (symmetry; apply Rltb_true; lra).
    replace (Rltb (3 / 2) (1 / 2)) with false by (symmetry; apply Rltb_false; lra).
    replace (Rltb (1 / 2) (- (3 / 2))) with false by (symmetry; apply Rltb_false; lra). reflexivity. }
  rewrite L. f_equal. lra.
Qed.

Print Assumptions C23_mass.
Print Assumptions C23_weight.
Print Assumptions C23_bounded.
Print Assumptions C23_between.
Print Assumptions C23_fuel.
Print Assumptions C23_fuel_total.
Print Assumptions C23_frame.
Print Assumptions C25_drag.
Print Assumptions C25_lift.
Print Assumptions C25_angles.
Print Assumptions C25_total.
Print Assumptions C25_sum.
Print Assumptions C25_sizes.
Print Assumptions C25_sideslip_refuted.
Print Assumptions C25_bank_refuted.
Print Assumptions C26_freestream.
Print Assumptions C26_limit.
Print Assumptions C26_no_flow.
Print Assumptions C26_coefficients.
Print Assumptions C26_negative_limit_refuted.
