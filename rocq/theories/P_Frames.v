(** * Proofs about orientations, forces, weights and aerodynamic coefficients *)
From Coq Require Import Reals List Bool Lra Lia.
From Verif Require Import M_Opt P_Opt M_Rot S_Rot P_Rot M_Mission M_Segments P_Mission.
Import ListNotations.
Local Open Scope R_scope.
Local Open Scope list_scope.

(** ** Symmetric flight *)
Lemma norm_2d : forall x z, norm (V3 x 0 z) = hyp x z.
Proof. intros. unfold norm, hyp, vdot. cbn. f_equal. ring. Qed.

Lemma dcm_pitch : forall t v, mapply (dcm_210 (V3 0 t 0)) v =
  V3 (cos t * vx v - sin t * vz v) (vy v) (sin t * vx v + cos t * vz v).
Proof.
  intros. apply v3_ext; repeat (progress (cbn; unfold vdot)); rewrite ?sin_0, ?cos_0; ring.
Qed.
Lemma dcm_yaw : forall b v, mapply (dcm_210 (V3 0 0 b)) v =
  V3 (cos b * vx v + sin b * vy v) (- sin b * vx v + cos b * vy v) (vz v).
Proof.
  intros. apply v3_ext; repeat (progress (cbn; unfold vdot)); rewrite ?sin_0, ?cos_0; ring.
Qed.
Lemma roll_back : forall a x, mapply (mtranspose (dcm_210 (V3 a 0 0))) (V3 x 0 0) = V3 x 0 0.
Proof.
  intros. apply v3_ext; repeat (progress (cbn; unfold vdot)); rewrite ?sin_0, ?cos_0; ring.
Qed.
Lemma arctan2_zero : forall x, 0 <= x -> arctan2 0 x = 0.
Proof.
  intros x Hx. unfold arctan2. destruct (Rltb 0 x) eqn:E.
  - unfold Rdiv. rewrite Rmult_0_l. apply atan_0.
  - apply Rltb_false in E. destruct (Rltb x 0) eqn:E2; [apply Rltb_true in E2; lra|].
    destruct (Rltb 0 0) eqn:E3; [apply Rltb_true in E3; lra|reflexivity].
Qed.
Lemma body_hyp : forall t x z,
  hyp (cos t * x - sin t * z) (sin t * x + cos t * z) = hyp x z.
Proof.
  intros. unfold hyp. f_equal. pose proof (sc t). 
  replace ((cos t * x - sin t * z) * (cos t * x - sin t * z) + (sin t * x + cos t * z) * (sin t * x + cos t * z))
    with ((sin t * sin t + cos t * cos t) * (x * x + z * z)) by ring.
  rewrite H. ring.
Qed.

Lemma symmetric_axes : forall theta x z, let '(a, b, B, W) := wind_axes (V3 0 theta 0) (V3 x 0 z) in
  b = 0 /\
  (forall u, scaled (hyp x z) (mapply W u) =
             V3 (x * vx u - z * vz u) (hyp x z * vy u) (z * vx u + x * vz u)) /\
  (forall u, mapply B u = V3 (cos theta * vx u + sin theta * vz u) (vy u) (- sin theta * vx u + cos theta * vz u)) /\
  hyp x z * cos a = cos theta * x - sin theta * z /\ hyp x z * sin a = sin theta * x + cos theta * z.
Proof.
  intros t x z. unfold wind_axes. cbv zeta.
  rewrite !dcm_pitch. cbn [vx vy vz].
  replace (arctan2 0 _) with 0 by (symmetry; apply arctan2_zero, sqrt_pos).
  set (xb := cos t * x - sin t * z). set (zb := sin t * x + cos t * z).
  destruct (arctan2_spec zb xb) as [C S]. fold (hyp xb zb) in C, S.
  assert (Hh : hyp xb zb = hyp x z) by apply body_hyp. rewrite Hh in C, S.
  set (a := arctan2 zb xb) in *.
  split; [reflexivity|]. split; [|split; [|split; [exact C|exact S]]].
  2:{ intro u. apply v3_ext; repeat (progress (cbn; unfold vdot)); rewrite ?sin_0, ?cos_0; ring. }
  intro u. rewrite mapply_mprod, dcm_pitch.
  set (h := hyp x z) in *. pose proof (sc t) as Hsc.
  assert (Ex : cos a * h = cos t * x - sin t * z) by (unfold xb in C; lra).
  assert (Ez : sin a * h = sin t * x + cos t * z) by (unfold zb in S; lra).
  apply v3_ext; repeat (progress (cbn; unfold vdot)); rewrite ?sin_0, ?cos_0.
  - match goal with |- ?l = _ => replace l with
      ((cos a * h) * (cos t * vx u + sin t * vz u) - (sin a * h) * (- sin t * vx u + cos t * vz u)) by ring end.
    rewrite Ex, Ez.
    match goal with |- ?l = _ => replace l with
      ((sin t * sin t + cos t * cos t) * (x * vx u - z * vz u)) by ring end. rewrite Hsc. ring.
  - ring.
  - match goal with |- ?l = _ => replace l with
      ((sin a * h) * (cos t * vx u + sin t * vz u) + (cos a * h) * (- sin t * vx u + cos t * vz u)) by ring end.
    rewrite Ex, Ez.
    match goal with |- ?l = _ => replace l with
      ((sin t * sin t + cos t * cos t) * (z * vx u + x * vz u)) by ring end. rewrite Hsc. ring.
Qed.
