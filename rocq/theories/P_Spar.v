(** * Bending material of a wing segment: the integrals *)
From Coq Require Import Reals Lra Psatz.
From Verif Require Import P_Deriv M_Weight S_Weight.
Local Open Scope R_scope.

(** ** the integral is unique *)
Lemma integral_on_unique f a b v w : a <= b -> integral_on f a b v -> integral_on f a b w -> v = w.
Proof.
  intros L [F [F1 [F2 F3]]] [G [G1 [G2 G3]]]. destruct (Req_dec a b) as [->|N]; [lra|]. assert (A : a < b) by lra.
  set (h := fun x => F x - G x).
  assert (D : forall c, a < c < b -> derivable_pt_lim h c 0).
  { intros c C. replace 0 with (f c - f c) by ring. apply derivable_pt_lim_minus; auto. }
  assert (pr1 : forall c, a < c < b -> derivable_pt h c) by (intros c C; exists 0; apply D; exact C).
  assert (pr2 : forall c, a < c < b -> derivable_pt id c) by (intros c C; apply derivable_pt_id).
  destruct (MVT h id a b pr1 pr2 A) as [c [C E]].
  - intros c C. apply continuity_pt_minus; auto.
  - intros c C. apply derivable_continuous_pt, derivable_pt_id.
  - assert (Z : derive_pt h c (pr1 c C) = 0) by (apply derive_pt_eq_0; apply D; exact C).
    rewrite Z in E. assert (I : derive_pt id c (pr2 c C) = 1) by (apply derive_pt_eq_0; apply derivable_pt_lim_id).
    rewrite I in E. unfold h, id in E. lra.
Qed.
Lemma integral_on_less f g a b v w : a < b -> integral_on f a b v -> integral_on g a b w -> (forall t, a < t < b -> f t < g t) -> v < w.
Proof.
  intros A [F [F1 [F2 F3]]] [G [G1 [G2 G3]]] H.
  set (h := fun x => G x - F x).
  assert (D : forall c, a < c < b -> derivable_pt_lim h c (g c - f c)) by (intros c C; apply derivable_pt_lim_minus; auto).
  assert (pr1 : forall c, a < c < b -> derivable_pt h c) by (intros c C; exists (g c - f c); apply D; exact C).
  assert (pr2 : forall c, a < c < b -> derivable_pt id c) by (intros c C; apply derivable_pt_id).
  destruct (MVT h id a b pr1 pr2 A) as [c [C E]].
  - intros c C. apply continuity_pt_minus; auto.
  - intros c C. apply derivable_continuous_pt, derivable_pt_id.
  - assert (Z : derive_pt h c (pr1 c C) = g c - f c) by (apply derive_pt_eq_0; apply D; exact C).
    rewrite Z in E. assert (I : derive_pt id c (pr2 c C) = 1) by (apply derive_pt_eq_0; apply derivable_pt_lim_id).
    rewrite I in E. unfold h, id in E. specialize (H c C). nra.
Qed.

(** ** arcsine *)
Lemma asin_big x : 1 <= x -> asin x = PI / 2.
Proof. intro H. unfold asin. destruct (Rle_dec x (-1)); [lra|]. destruct (Rle_dec 1 x); lra. Qed.
Lemma asin_cont_1 : continuity_pt asin 1.
Proof.
  intros eps He. pose proof PI_RGT_0 as PP. set (d := Rmin eps (PI / 2)). assert (Hd : 0 < d <= eps /\ d <= PI / 2).
  { unfold d. pose proof (Rmin_l eps (PI / 2)). pose proof (Rmin_r eps (PI / 2)).
    assert (0 < Rmin eps (PI / 2)) by (apply Rmin_glb_lt; lra). lra. }
  assert (S1 : sin (PI / 2 - d) < 1).
  { rewrite <- sin_PI2. apply sin_increasing_1; lra. }
  exists (1 - sin (PI / 2 - d)). split; [lra|]. intros x [_ Hx]. simpl in *. unfold R_dist in *.
  destruct (Rle_dec 1 x) as [G|G]; [rewrite !asin_big by lra; rewrite Rminus_diag_eq, Rabs_R0 by reflexivity; lra|].
  assert (B : 0 <= sin (PI / 2 - d)) by (apply sin_ge_0; lra).
  rewrite Rabs_left in Hx by lra.
  assert (X : -1 <= x <= 1) by lra. pose proof (asin_bound x) as AB. pose proof (sin_asin x X) as SA.
  rewrite (asin_big 1) by lra. rewrite Rabs_left1 by lra.
  assert (PI / 2 - d < asin x); [|lra]. apply sin_increasing_0; lra.
Qed.
Lemma D_asin x : -1 < x < 1 -> derivable_pt_lim asin x (/ sqrt (1 - x * x)).
Proof.
  intro H. apply D_val with (derive_pt asin x (derivable_pt_asin x H)).
  - destruct (derivable_pt_asin x H) as [l Hl]. exact Hl.
  - rewrite derive_pt_asin. unfold Rsqr, Rdiv. ring.
Qed.
Lemma asin_cont x : -1 < x <= 1 -> continuity_pt asin x.
Proof.
  intros [A [B|B]]; [|subst; exact asin_cont_1]. apply derivable_continuous_pt. exists (/ sqrt (1 - x * x)). apply D_asin. lra.
Qed.
Lemma root_cont x : continuity_pt (fun y => sqrt (1 - y * y)) x.
Proof.
  destruct (Rle_dec 1 (x * x)) as [G|G].
  - intros eps He. (* sqrt is continuous where its argument is not negative; elsewhere it is zero *)
    assert (C : continuity_pt (fun y => 1 - y * y) x).
    { apply continuity_pt_minus; [apply continuity_pt_const; intros ? ?; reflexivity|].
      apply continuity_pt_mult; apply derivable_continuous_pt, derivable_pt_id. }
    destruct (C (eps * eps) ltac:(nra)) as [d [Hd H]]. exists d. split; [exact Hd|]. intros y Hy. specialize (H y Hy).
    simpl in *. unfold R_dist in *. rewrite (sqrt_neg_0 (1 - x * x)) by lra.
    destruct (Rle_dec (1 - y * y) 0) as [N|N]; [rewrite sqrt_neg_0 by lra; rewrite Rminus_diag_eq, Rabs_R0 by reflexivity; exact He|].
    rewrite Rminus_0_r, Rabs_pos_eq by apply sqrt_pos.
    apply Rsqr_incrst_0; [|apply sqrt_pos|lra]. unfold Rsqr. rewrite sqrt_sqrt by lra.
    assert (1 - y * y - (1 - x * x) < eps * eps) by (eapply Rle_lt_trans; [apply Rle_abs|exact H]). lra.
  - apply derivable_continuous_pt. eexists. apply (D_sqrt (fun y => 1 - y * y)); [lra|].
    apply (derivable_pt_lim_minus (fun _ => 1)); [apply derivable_pt_lim_const|apply (derivable_pt_lim_mult (fun y => y) (fun y => y)); apply derivable_pt_lim_id].
Qed.
Lemma id_cont x : continuity_pt (fun y => y) x.
Proof. apply derivable_continuous_pt, derivable_pt_id. Qed.
Lemma const_cont (c x : R) : continuity_pt (fun _ => c) x.
Proof. apply continuity_pt_const. intros ? ?. reflexivity. Qed.
Ltac cont := match goal with
  | |- continuity_pt (fun _ => ?c) _ => apply const_cont
  | |- continuity_pt (fun x => x) _ => apply id_cont
  | |- continuity_pt (fun x => sqrt (1 - x * x)) _ => apply root_cont
  | |- continuity_pt asin _ => apply asin_cont
  | |- continuity_pt (fun x => asin x) _ => apply asin_cont
  | |- continuity_pt (fun x => @?f x + @?g x) _ => apply (continuity_pt_plus f g); [cont|cont]
  | |- continuity_pt (fun x => @?f x - @?g x) _ => apply (continuity_pt_minus f g); [cont|cont]
  | |- continuity_pt (fun x => - @?f x) _ => apply (continuity_pt_opp f); cont
  | |- continuity_pt (fun x => @?f x * @?g x) _ => apply (continuity_pt_mult f g); [cont|cont]
  | _ => idtac
  end.
(** inside, the square root and its square *)
Lemma root_in x : -1 < x < 1 -> 0 < sqrt (1 - x * x) /\ sqrt (1 - x * x) * sqrt (1 - x * x) = 1 - x * x.
Proof. intro H. split; [apply sqrt_lt_R0; nra|apply sqrt_sqrt; nra]. Qed.
(** the primitive of the code *)
Lemma prim_cont x : -1 < x <= 1 -> continuity_pt prim x.
Proof.
  intro H. unfold prim. change (continuity_pt (fun y => 1 / 8 * (y * (5 - 2 * (y * y)) * sqrt (1 - y * y) + 3 * asin y)) x). cont. exact H.
Qed.
Lemma prim_derivative x : -1 < x < 1 -> derivable_pt_lim prim x ((1 - x * x) * sqrt (1 - x * x)).
Proof.
  intro H. destruct (root_in x H) as [P Q]. change prim with (fun y => 1 / 8 * (y * (5 - 2 * (y * y)) * sqrt (1 - y * y) + 3 * asin y)).
  eapply D_val.
  - der; [|apply D_asin; exact H]. nra.
  - simpl. set (s := sqrt (1 - x * x)) in *. apply Rmult_eq_reg_r with s; [|lra].
    match goal with |- ?l = ?r => replace l with (1 / 8 * ((5 - 2 * (x * x) - 4 * (x * x)) * (s * s) - x * x * (5 - 2 * (x * x)) + 3)) by (field; lra) end.
    replace ((1 - x * x) * s * s) with ((1 - x * x) * (s * s)) by ring. rewrite Q. field.
Qed.
(** the moment, about the root, of the elliptic lift outboard of a station *)
Definition third (y : R) : R := - (1 / 3 * ((1 - y * y) * sqrt (1 - y * y))).
Definition half (y : R) : R := 1 / 2 * (y * sqrt (1 - y * y) + asin y).
Lemma third_cont x : continuity_pt third x.
Proof. change (continuity_pt (fun y => - (1 / 3 * ((1 - y * y) * sqrt (1 - y * y)))) x). cont. Qed.
Lemma half_cont x : -1 < x <= 1 -> continuity_pt half x.
Proof. intro H. change (continuity_pt (fun y => 1 / 2 * (y * sqrt (1 - y * y) + asin y)) x). cont. exact H. Qed.
Lemma third_derivative x : -1 < x < 1 -> derivable_pt_lim third x (x * sqrt (1 - x * x)).
Proof.
  intro H. destruct (root_in x H) as [P Q]. change third with (fun y => - (1 / 3 * ((1 - y * y) * sqrt (1 - y * y)))).
  eapply D_val; [der; nra|]. simpl. set (s := sqrt (1 - x * x)) in *. apply Rmult_eq_reg_r with s; [|lra].
  match goal with |- ?l = ?r => replace l with (1 / 3 * (2 * x * (s * s) + (1 - x * x) * x)) by (field; lra) end.
  replace (x * s * s) with (x * (s * s)) by ring. rewrite Q. field.
Qed.
Lemma half_derivative x : -1 < x < 1 -> derivable_pt_lim half x (sqrt (1 - x * x)).
Proof.
  intro H. destruct (root_in x H) as [P Q]. change half with (fun y => 1 / 2 * (y * sqrt (1 - y * y) + asin y)).
  eapply D_val; [der; [nra|apply D_asin; exact H]|]. simpl. set (s := sqrt (1 - x * x)) in *. apply Rmult_eq_reg_r with s; [|lra].
  match goal with |- ?l = ?r => replace l with (1 / 2 * (s * s - x * x + 1)) by (field; lra) end. rewrite Q. field.
Qed.
Lemma one_one : sqrt (1 - 1 * 1) = 0. Proof. replace (1 - 1 * 1) with 0 by ring. apply sqrt_0. Qed.
Lemma moment_general c x : -1 < x <= 1 ->
  outboard_moment c x (1 / 3 * ((1 - x * x) * sqrt (1 - x * x)) - c * (half 1 - half x)).
Proof.
  intro H. exists (fun y => third y - c * half y). repeat split.
  - intros t Ht. apply (continuity_pt_minus third (fun y => c * half y)); [apply third_cont|].
    apply (continuity_pt_mult (fun _ => c) half); [apply const_cont|apply half_cont; lra].
  - intros t Ht. unfold elliptic. eapply D_val.
    + apply (derivable_pt_lim_minus third (fun y => c * half y)); [apply third_derivative; lra|].
      apply (derivable_pt_lim_mult (fun _ => c) half); [apply derivable_pt_lim_const|apply half_derivative; lra].
    + cbv beta. ring.
  - unfold third. rewrite one_one. ring.
Qed.
Lemma half_grows x : -1 < x < 1 -> 0 < half 1 - half x.
Proof.
  intro H. apply (integral_on_less (fun _ => 0) (fun y => sqrt (1 - y * y)) x 1 0 (half 1 - half x)); [lra| | |].
  - exists (fun _ => 0). repeat split; [intros; apply const_cont|intros; apply derivable_pt_lim_const|ring].
  - exists half. repeat split; [intros; apply half_cont; lra|intros; apply half_derivative; lra].
  - intros t Ht. apply root_in. lra.
Qed.
(** the moment of the lift about the station itself *)
Definition relief (x : R) : R :=
  1 / 2 * half 1 * (x * x) - 1 / 2 * (x * x) * half x + 1 / 16 * (asin x - x * (1 - 2 * (x * x)) * sqrt (1 - x * x)).
Lemma relief_cont x : -1 < x <= 1 -> continuity_pt relief x.
Proof.
  intro H. unfold relief. apply (continuity_pt_plus (fun y => 1 / 2 * half 1 * (y * y) - 1 / 2 * (y * y) * half y)
    (fun y => 1 / 16 * (asin y - y * (1 - 2 * (y * y)) * sqrt (1 - y * y)))).
  - apply (continuity_pt_minus (fun y => 1 / 2 * half 1 * (y * y)) (fun y => 1 / 2 * (y * y) * half y)); [cont|].
    apply (continuity_pt_mult (fun y => 1 / 2 * (y * y)) half); [cont|apply half_cont; exact H].
  - cont. exact H.
Qed.
Lemma relief_derivative x : -1 < x < 1 -> derivable_pt_lim relief x (x * (half 1 - half x)).
Proof.
  intro H. destruct (root_in x H) as [P Q].
  set (f1 := fun y => 1 / 2 * half 1 * (y * y)). set (f2 := fun y => 1 / 2 * (y * y)). set (f3 := fun y => 1 / 16 * (asin y - y * (1 - 2 * (y * y)) * sqrt (1 - y * y))).
  assert (D1 : derivable_pt_lim f1 x (half 1 * x)) by (unfold f1; eapply D_val; [der|simpl; field]).
  assert (D2 : derivable_pt_lim f2 x x) by (unfold f2; eapply D_val; [der|simpl; field]).
  assert (D3 : derivable_pt_lim f3 x (1 / 2 * (x * x) * sqrt (1 - x * x))).
  { unfold f3. eapply D_val; [der; [apply D_asin; exact H|nra]|]. simpl. set (s := sqrt (1 - x * x)) in *. apply Rmult_eq_reg_r with s; [|lra].
    match goal with |- ?l = ?r => replace l with (1 / 16 * (1 - (1 - 6 * (x * x)) * (s * s) + x * x * (1 - 2 * (x * x)))) by (field; lra) end.
    replace (1 / 2 * (x * x) * s * s) with (1 / 2 * (x * x) * (s * s)) by ring. rewrite Q. field. }
  eapply D_val.
  - apply (derivable_pt_lim_plus (fun y => f1 y - f2 y * half y) f3); [|exact D3].
    apply (derivable_pt_lim_minus f1 (fun y => f2 y * half y)); [exact D1|]. apply (derivable_pt_lim_mult f2 half); [exact D2|apply half_derivative; exact H].
  - unfold f2. field.
Qed.
