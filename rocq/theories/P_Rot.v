(** * Facts about rotations and arctan2 *)
From Coq Require Import Reals List Lra Lia Rtrigo_facts.
From Verif Require Import M_Opt P_Opt M_Rot.
Import ListNotations.
Local Open Scope R_scope.
Local Open Scope list_scope.

Definition det3 (T : m3) : R :=
  vx (row0 T) * (vy (row1 T) * vz (row2 T) - vz (row1 T) * vy (row2 T))
  - vy (row0 T) * (vx (row1 T) * vz (row2 T) - vz (row1 T) * vx (row2 T))
  + vz (row0 T) * (vx (row1 T) * vy (row2 T) - vy (row1 T) * vx (row2 T)).

Lemma v3_ext : forall a b, vx a = vx b -> vy a = vy b -> vz a = vz b -> a = b.
Proof. intros [] []; cbn; intros; subst; reflexivity. Qed.
Lemma m3_ext : forall A B, row0 A = row0 B -> row1 A = row1 B -> row2 A = row2 B -> A = B.
Proof. intros [] []; cbn; intros; subst; reflexivity. Qed.
Ltac m3ring :=
  repeat match goal with T : m3 |- _ => destruct T as [[] [] []] end;
  repeat match goal with v : v3 |- _ => destruct v end;
  apply m3_ext; apply v3_ext; repeat (progress (cbn; unfold vdot)); ring.
Ltac v3ring :=
  repeat match goal with T : m3 |- _ => destruct T as [[] [] []] end;
  repeat match goal with v : v3 |- _ => destruct v end;
  apply v3_ext; repeat (progress (cbn; unfold vdot)); ring.

Lemma mprod_assoc : forall A B C, mprod (mprod A B) C = mprod A (mprod B C).
Proof. intros A B C. m3ring. Qed.
Lemma mprod_eye_l : forall A, mprod eye3 A = A.
Proof. intros A. m3ring. Qed.
Lemma mprod_eye_r : forall A, mprod A eye3 = A.
Proof. intros A. m3ring. Qed.
Lemma mapply_mprod : forall A B v, mapply (mprod A B) v = mapply A (mapply B v).
Proof. intros A B v. v3ring. Qed.
Lemma mapply_eye : forall v, mapply eye3 v = v.
Proof. intros v. v3ring. Qed.
Lemma mtranspose_mprod : forall A B, mtranspose (mprod A B) = mprod (mtranspose B) (mtranspose A).
Proof. intros A B. m3ring. Qed.
Lemma mtranspose_twice : forall A, mtranspose (mtranspose A) = A.
Proof. intros A. m3ring. Qed.
Lemma mtranspose_eye : mtranspose eye3 = eye3.
Proof. reflexivity. Qed.
Lemma det3_mprod : forall A B, det3 (mprod A B) = det3 A * det3 B.
Proof. intros [[] [] []] [[] [] []]. unfold det3; repeat (progress (cbn; unfold vdot)). ring. Qed.
Lemma vdot_transpose : forall T u v, vdot (mapply T u) v = vdot u (mapply (mtranspose T) v).
Proof. intros [[] [] []] [] []. repeat (progress (cbn; unfold vdot)). ring. Qed.

(** a proper rotation *)
Definition proper (T : m3) : Prop :=
  mprod (mtranspose T) T = eye3 /\ mprod T (mtranspose T) = eye3 /\ det3 T = 1.

Lemma sc : forall a, sin a * sin a + cos a * cos a = 1.
Proof. intro a. pose proof (sin2_cos2 a) as H. unfold Rsqr in H. exact H. Qed.

Ltac sctac a := generalize (sc a); intro; apply m3_ext; apply v3_ext; repeat (progress (cbn; unfold vdot)); lra.
Lemma proper_T0 : forall a, proper (T0 a).
Proof. intro a. split; [sctac a|split; [sctac a|]]. unfold det3; repeat (progress (cbn; unfold vdot)). generalize (sc a); lra. Qed.
Lemma proper_T1 : forall a, proper (T1 a).
Proof. intro a. split; [sctac a|split; [sctac a|]]. unfold det3; repeat (progress (cbn; unfold vdot)). generalize (sc a); lra. Qed.
Lemma proper_T2 : forall a, proper (T2 a).
Proof. intro a. split; [sctac a|split; [sctac a|]]. unfold det3; repeat (progress (cbn; unfold vdot)). generalize (sc a); lra. Qed.
Lemma proper_eye : proper eye3.
Proof. split; [|split]; [apply m3_ext; apply v3_ext; repeat (progress (cbn; unfold vdot)); ring..|unfold det3; cbn; ring]. Qed.

Lemma proper_mprod : forall A B, proper A -> proper B -> proper (mprod A B).
Proof.
  intros A B (A1 & A2 & A3) (B1 & B2 & B3). split; [|split].
  - rewrite mtranspose_mprod, mprod_assoc, <- (mprod_assoc (mtranspose A)), A1, mprod_eye_l. exact B1.
  - rewrite mtranspose_mprod, mprod_assoc, <- (mprod_assoc B), B2, mprod_eye_l. exact A2.
  - rewrite det3_mprod, A3, B3. ring.
Qed.
Lemma det3_transpose : forall A, det3 (mtranspose A) = det3 A.
Proof. intros [[] [] []]. unfold det3; repeat (progress (cbn; unfold vdot)). ring. Qed.
Lemma proper_transpose : forall A, proper A -> proper (mtranspose A).
Proof.
  intros A (A1 & A2 & A3). split; [|split]; rewrite ?mtranspose_twice; auto.
  now rewrite det3_transpose.
Qed.

Lemma proper_loop : forall r dims t T, proper t -> dcm_loop r dims t = Some T -> proper T.
Proof.
  intros r dims; induction dims as [|d dims IH]; intros t T Ht H; cbn in H.
  - injection H as <-. exact Ht.
  - destruct d as [|[|[|d]]]; cbn in H; try discriminate;
      (eapply IH; [|exact H]); apply proper_mprod; auto using proper_T0, proper_T1, proper_T2.
Qed.
Lemma proper_dcms : forall r seq T, angles_to_dcms r seq = Some T -> proper T.
Proof. intros r seq T H. eapply proper_loop; [apply proper_eye|exact H]. Qed.
Lemma proper_210 : forall r, proper (dcm_210 r).
Proof.
  intro r. unfold dcm_210.
  repeat apply proper_mprod; auto using proper_eye, proper_T0, proper_T1, proper_T2.
Qed.
Lemma dcms_210 : forall r, angles_to_dcms r [2; 1; 0]%nat = Some (dcm_210 r).
Proof. reflexivity. Qed.

Lemma dcm_loop_total : forall r dims t, Forall (fun d => (d < 3)%nat) dims ->
  exists T, dcm_loop r dims t = Some T.
Proof.
  intros r dims; induction dims as [|d dims IH]; intros t H; cbn; [eauto|].
  inversion H as [|? ? Hd Hr]; subst. destruct d as [|[|[|d]]]; cbn; try lia; auto.
Qed.
Lemma dcm_loop_none : forall r dims t, ~ Forall (fun d => (d < 3)%nat) dims ->
  dcm_loop r dims t = None.
Proof.
  intros r dims; induction dims as [|d dims IH]; intros t H; cbn.
  - destruct H; constructor.
  - destruct d as [|[|[|d]]]; cbn; auto; apply IH; intro F; apply H; constructor; auto; lia.
Qed.

Lemma proper_inner : forall T u v, proper T -> vdot (mapply T u) (mapply T v) = vdot u v.
Proof.
  intros T u v (H & _ & _).
  rewrite vdot_transpose, <- mapply_mprod, H, mapply_eye. reflexivity.
Qed.
Lemma proper_inverse : forall T v, proper T -> mapply (mtranspose T) (mapply T v) = v.
Proof. intros T v (H & _ & _). rewrite <- mapply_mprod, H, mapply_eye. reflexivity. Qed.

(** a later element of the sequence multiplies on the left *)
Lemma dcm_loop_app : forall r a b t,
  dcm_loop r (a ++ b) t = match dcm_loop r a t with Some t' => dcm_loop r b t' | None => None end.
Proof.
  intros r a; induction a as [|d a IH]; intros b t; cbn; [reflexivity|].
  destruct (Ts d); auto.
Qed.
Lemma dcm_loop_factor : forall r dims t T, dcm_loop r dims eye3 = Some T ->
  dcm_loop r dims t = Some (mprod t T).
Proof.
  intros r dims t T.
  assert (G : forall dims s u, dcm_loop r dims s = Some u ->
             forall t, dcm_loop r dims (mprod t s) = Some (mprod t u)).
  { clear; intros dims; induction dims as [|d dims IH]; intros s u H t; cbn in *.
    - injection H as <-. reflexivity.
    - destruct (Ts d) as [f|]; [|discriminate]. rewrite mprod_assoc. apply IH. exact H. }
  intro H. specialize (G dims eye3 T H t). rewrite mprod_eye_r in G. exact G.
Qed.

(** ** arctan2 *)
Definition hyp (x y : R) : R := sqrt (x * x + y * y).

Lemma atan_cs : forall t, cos (atan t) = / sqrt (1 + t * t) /\ sin (atan t) = t / sqrt (1 + t * t).
Proof.
  intro t. rewrite cos_atan, sin_atan. unfold Rsqr. split; [unfold Rdiv; ring|reflexivity].
Qed.

Lemma sqrt_scale : forall x y, x <> 0 ->
  sqrt (1 + y / x * (y / x)) = sqrt (x * x + y * y) / Rabs x.
Proof.
  intros x y Hx.
  assert (Ha : 0 < Rabs x) by (apply Rabs_pos_lt; exact Hx).
  replace (1 + y / x * (y / x)) with ((x * x + y * y) / (Rabs x * Rabs x)).
  2:{ replace (Rabs x * Rabs x) with (x * x).
      - field. exact Hx.
      - rewrite <- Rabs_mult. rewrite Rabs_pos_eq; [reflexivity|nra]. }
  rewrite sqrt_div_alt by nra. rewrite sqrt_square by lra. reflexivity.
Qed.

Lemma hyp_pos : forall x y, x <> 0 \/ y <> 0 -> 0 < hyp x y.
Proof.
  intros x y H. apply sqrt_lt_R0.
  destruct H as [H|H].
  - assert (0 < x * x) by (destruct (Rtotal_order x 0) as [?|[?|?]]; nra). nra.
  - assert (0 < y * y) by (destruct (Rtotal_order y 0) as [?|[?|?]]; nra). nra.
Qed.

Lemma cos_plus_PI : forall a, cos (a + PI) = - cos a.
Proof. exact neg_cos_shift || (intro a; rewrite cos_plus, cos_PI, sin_PI; ring). Qed.
Lemma sin_plus_PI : forall a, sin (a + PI) = - sin a.
Proof. intro a; rewrite sin_plus, cos_PI, sin_PI; ring. Qed.
Lemma cos_minus_PI : forall a, cos (a - PI) = - cos a.
Proof. intro a; rewrite cos_minus, cos_PI, sin_PI; ring. Qed.
Lemma sin_minus_PI : forall a, sin (a - PI) = - sin a.
Proof. intro a; rewrite sin_minus, cos_PI, sin_PI; ring. Qed.

(** the defining property: the angle whose cosine and sine are x and y over the hypotenuse *)
Lemma arctan2_spec : forall y x,
  hyp x y * cos (arctan2 y x) = x /\ hyp x y * sin (arctan2 y x) = y.
Proof.
  intros y x. unfold arctan2.
  destruct (Rltb 0 x) eqn:Hp.
  - apply Rltb_true in Hp. destruct (atan_cs (y / x)) as [-> ->].
    rewrite sqrt_scale by lra. rewrite (Rabs_pos_eq x) by lra. fold (hyp x y).
    assert (0 < hyp x y) by (apply hyp_pos; left; lra). split; field; lra.
  - destruct (Rltb x 0) eqn:Hn.
    + apply Rltb_true in Hn. 
      assert (Hh : 0 < hyp x y) by (apply hyp_pos; left; lra).
      destruct (atan_cs (y / x)) as [Ec Es].
      rewrite sqrt_scale, (Rabs_left x) in Ec, Es by lra. fold (hyp x y) in Ec, Es.
      destruct (Rltb y 0).
      * rewrite cos_minus_PI, sin_minus_PI, Ec, Es. split; field; lra.
      * rewrite cos_plus_PI, sin_plus_PI, Ec, Es. split; field; lra.
    + apply Rltb_false in Hp, Hn. assert (x = 0) by lra. subst x.
      unfold hyp. replace (0 * 0 + y * y) with (y * y) by ring.
      destruct (Rltb 0 y) eqn:Hy.
      * apply Rltb_true in Hy. rewrite cos_PI2, sin_PI2, sqrt_square by lra. lra.
      * destruct (Rltb y 0) eqn:Hy'.
        -- apply Rltb_true in Hy'. rewrite cos_neg, sin_neg, cos_PI2, sin_PI2.
           replace (y * y) with ((- y) * (- y)) by ring. rewrite sqrt_square by lra. lra.
        -- apply Rltb_false in Hy, Hy'. assert (y = 0) by lra. subst y.
           rewrite cos_0, sin_0. replace (0 * 0) with 0 by ring. rewrite sqrt_0. lra.
Qed.
