(** * C24: frame transformations are rotations *)
From Coq Require Import Reals List Lra Lia.
From Verif Require Import M_Opt M_Rot S_Rot P_Rot.
Import ListNotations.
Local Open Scope R_scope.
Local Open Scope list_scope.

Lemma linear_apply : forall T, (forall a b, mapply T (plus a b) = plus (mapply T a) (mapply T b)) /\
  (forall k a, mapply T (scaled k a) = scaled k (mapply T a)).
Proof.
  intro T. split; intros; apply v3_ext; repeat (progress (cbn; unfold vdot)); ring.
Qed.
Lemma cross_mprod : forall A B, (forall a b, mapply A (cross a b) = cross (mapply A a) (mapply A b)) ->
  (forall a b, mapply B (cross a b) = cross (mapply B a) (mapply B b)) ->
  forall a b, mapply (mprod A B) (cross a b) = cross (mapply (mprod A B) a) (mapply (mprod A B) b).
Proof. intros A B HA HB a b. rewrite !mapply_mprod, HB, HA. reflexivity. Qed.
Lemma cross_proper : forall T, proper T ->
  forall a b, mapply T (cross a b) = cross (mapply T a) (mapply T b).
Proof.
  (* det T = 1 and T Tᵀ = 1 make T its own cofactor matrix *)
  intros T [H1 [H2 H3]] a b.
  assert (C : forall u v, mapply (mtranspose T) (cross (mapply T u) (mapply T v)) = scaled (det3 T) (cross u v)).
  { intros u v. apply v3_ext; repeat (progress (cbn; unfold vdot, det3)); ring. }
  rewrite <- (mapply_eye (cross (mapply T a) (mapply T b))), <- H2, mapply_mprod, C, H3.
  f_equal. apply v3_ext; cbn; ring.
Qed.
Lemma proper_rotation : forall T, proper T -> rotation (mapply T).
Proof.
  intros T H. destruct (linear_apply T) as [L1 L2].
  constructor; auto; [intros; now apply proper_inner|now apply cross_proper].
Qed.

(** every matrix the function returns, for all angles and all sequences of any length, is a
    rotation, so is its transpose, and they are inverse to each other *)
Theorem C24_rotation : forall angles sequence T, angles_to_dcms angles sequence = Some T ->
  rotation (mapply T) /\ rotation (mapply (mtranspose T)) /\
  inverse (mapply T) (mapply (mtranspose T)).
Proof.
  intros r seq T H. apply proper_dcms in H.
  split; [now apply proper_rotation|]. split; [now apply proper_rotation, proper_transpose|].
  split; intro a; [now apply proper_inverse|].
  rewrite <- (mtranspose_twice T) at 1. now apply proper_inverse, proper_transpose.
Qed.
(** hence lengths are kept *)
Theorem C24_norm : forall angles sequence T v, angles_to_dcms angles sequence = Some T ->
  norm (mapply T v) = norm v /\ norm (mapply (mtranspose T) v) = norm v.
Proof.
  intros r seq T v H. destruct (C24_rotation _ _ _ H) as (A & B & _). unfold norm.
  now rewrite (rot_inner _ A), (rot_inner _ B).
Qed.
(** a matrix is returned exactly when all axes are 0, 1 or 2 *)
Theorem C24_defined : forall angles sequence,
  (exists T, angles_to_dcms angles sequence = Some T) <-> (forall d, In d sequence -> (d < 3)%nat).
Proof.
  intros r seq. unfold angles_to_dcms. split.
  - intros [T H]. destruct (Forall_dec (fun d => (d < 3)%nat)) with (l := rev seq) as [F|F].
    { intro d. destruct (Compare_dec.lt_dec d 3); auto. }
    + rewrite Forall_forall in F. intros d Hd. apply F. now apply in_rev in Hd.
    + rewrite (dcm_loop_none _ _ _ F) in H. discriminate.
  - intro H. apply dcm_loop_total. apply Forall_forall. intros d Hd. apply H. now apply in_rev.
Qed.
(** a longer sequence is the composition, first part first; the product of two matrices acts as
    one after the other *)
Theorem C24_sequence : forall angles s1 s2 A B,
  angles_to_dcms angles s1 = Some A -> angles_to_dcms angles s2 = Some B ->
  exists T, angles_to_dcms angles (s1 ++ s2) = Some T /\ forall v, mapply T v = mapply B (mapply A v).
Proof.
  intros r s1 s2 A B HA HB. unfold angles_to_dcms in *. rewrite rev_app_distr, dcm_loop_app, HB.
  exists (mprod B A). split; [now apply dcm_loop_factor|]. intro v. apply mapply_mprod.
Qed.
Theorem C24_product : forall A B v, mapply (mprod A B) v = mapply A (mapply B v).
Proof. exact mapply_mprod. Qed.
(** one rotation about an axis: keeps that component, no angle does nothing, angles add *)
Theorem C24_axis : forall d angles T v, angles_to_dcms angles [d] = Some T ->
  component d (mapply T v) = component d v.
Proof.
  intros d r T v H. unfold angles_to_dcms in H. cbn in H.
  destruct d as [|[|[|d]]]; cbn in H; try discriminate; injection H as <-; rewrite mprod_eye_l;
    repeat (progress (cbn; unfold vdot)); ring.
Qed.
Theorem C24_angles_add : forall d a b A B C,
  angles_to_dcms a [d] = Some A -> angles_to_dcms b [d] = Some B -> angles_to_dcms (plus a b) [d] = Some C ->
  forall v, mapply C v = mapply A (mapply B v).
Proof.
  intros d a b A B C HA HB HC v. unfold angles_to_dcms in *. cbn in HA, HB, HC.
  destruct d as [|[|[|d]]]; cbn in HA, HB, HC; try discriminate;
    injection HA as <-; injection HB as <-; injection HC as <-; rewrite !mprod_eye_l;
    apply v3_ext; repeat (progress (cbn; unfold vdot));
    rewrite ?sin_plus, ?cos_plus; ring.
Qed.
(** the default sequence is yaw, pitch, roll: the nose points where it should, and without pitch
    and yaw the wing is rolled right-handedly about it *)
Theorem C24_nose : forall phi theta psi T, angles_to_dcms (V3 phi theta psi) [2; 1; 0]%nat = Some T ->
  mapply (mtranspose T) e_x = V3 (cos theta * cos psi) (cos theta * sin psi) (- sin theta).
Proof.
  intros phi theta psi T H. rewrite dcms_210 in H. injection H as <-.
  apply v3_ext; repeat (progress (cbn; unfold vdot)); ring.
Qed.
Theorem C24_wing : forall phi T, angles_to_dcms (V3 phi 0 0) [2; 1; 0]%nat = Some T ->
  mapply (mtranspose T) e_y = V3 0 (cos phi) (sin phi).
Proof.
  intros phi T H. rewrite dcms_210 in H. injection H as <-.
  apply v3_ext; repeat (progress (cbn; unfold vdot)); rewrite ?sin_0, ?cos_0; ring.
Qed.
(** a yaw by a right angle turns the nose to the east *)
Example C24_case : exists T, angles_to_dcms (V3 0 0 (PI / 2)) [2; 1; 0]%nat = Some T /\
  mapply (mtranspose T) e_x = e_y /\ mapply T e_y = e_x.
Proof.
  eexists. split; [apply dcms_210|].
  split; apply v3_ext; repeat (progress (cbn; unfold vdot));
    rewrite ?sin_0, ?cos_0, ?sin_PI2, ?cos_PI2; ring.
Qed.
Example C24_unknown_axis : angles_to_dcms (V3 1 2 3) [2; 3]%nat = None.
Proof. reflexivity. Qed.

Print Assumptions C24_rotation.
Print Assumptions C24_norm.
Print Assumptions C24_defined.
Print Assumptions C24_sequence.
Print Assumptions C24_product.
Print Assumptions C24_axis.
Print Assumptions C24_angles_add.
Print Assumptions C24_nose.
Print Assumptions C24_wing.
