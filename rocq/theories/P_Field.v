(** * Maximum lift and field lengths: proofs *)
From Coq Require Import Reals List Bool Arith String Lia Lra Psatz Permutation.
From Verif Require Import PyBase M_Opt P_Opt M_Noise P_Noise M_Field S_Field P_Deriv.
Import ListNotations.
Local Open Scope R_scope.
Local Open Scope list_scope.

Ltac ltb := repeat match goal with
  | |- context [Rltb ?a ?b] => let E := fresh "E" in destruct (Rltb a b) eqn:E;
      [apply Rltb_true in E | apply Rltb_false in E] end.

Lemma sum_perm {A} (f : A -> R) l m : Permutation l m -> sum_of f l = sum_of f m.
Proof. induction 1; cbn; lra. Qed.
Lemma sum_ext {A} (f g : A -> R) l : (forall x, In x l -> f x = g x) -> sum_of f l = sum_of g l.
Proof. induction l; cbn; intro H; [reflexivity|]. rewrite H by auto. rewrite IHl; auto. Qed.
Lemma sum_scale {A} k (f : A -> R) l : sum_of (fun x => k * f x) l = k * sum_of f l.
Proof. induction l; cbn; lra. Qed.

Lemma max_lift_loop_is V roc nu sref ws : forall acc,
  max_lift_loop V roc nu sref ws acc =
  (fst acc + sum_of (fun w => wing_lift V roc nu sref w * w_area w / sref) (lifting ws),
   snd acc + sum_of (fun w => 1 / 100 * w_area w / sref) (lifting ws)).
Proof.
  induction ws as [|w ws IH]; intros [a b]; cbn [max_lift_loop lifting filter]; [cbn; f_equal; lra|].
  rewrite IH. fold (lifting ws). destruct (w_high_lift w); cbn [fst snd sum_of]; f_equal; lra.
Qed.

Lemma degree_pos : 0 < degree. Proof. unfold degree. pose proof PI_RGT_0. lra. Qed.
Lemma cos_sideways a : sideways a -> 0 < cos a.
Proof. intros [A B]. apply cos_gt_0; assumption. Qed.
Lemma slat_is a sw : slat_lift a sw = a / degree / 23 * Rpower (cos sw) (14 / 10) * cos a ^ 2.
Proof. unfold slat_lift. pose proof degree_pos. replace (a / degree * degree) with a by (field; lra). reflexivity. Qed.

(** x cos^2 x grows up to 0.63 *)
Lemma cos_low x : 0 <= x <= 1 -> 1 - x ^ 2 / 2 <= cos x.
Proof.
  intros [A B]. pose proof PI_4. pose proof PI2_1. pose proof (cos_bound x 0). cbn [Nat.mul Nat.add] in H1.
  assert (H2 : cos_approx x 1 <= cos x <= cos_approx x 2).
  { apply (cos_bound x 0); lra. }
  unfold cos_approx in H2. cbn [sum_f_R0 cos_term] in H2. unfold cos_term in H2. cbn in H2. lra.
Qed.
Lemma slat_grows : grows_on (fun x => x * cos x ^ 2) 0 (63 / 100).
Proof.
  intros x y X L Y.
  assert (D : forall z, derivable_pt_lim (fun x => x * cos x ^ 2) z (cos z ^ 2 - z * (2 * cos z * sin z))).
  { intro z. eapply D_val; [der|]. simpl. ring. }
  apply (grows (fun x => x * cos x ^ 2) (fun z => cos z ^ 2 - z * (2 * cos z * sin z)) x y); [exact L | intros; apply D|].
  intros z [Z1 Z2]. pose proof (cos_low z ltac:(lra)). pose proof PI_4. pose proof PI2_1.
  assert (S1 : sin z <= z) by (apply Rlt_le, sin_lt_x; lra).
  assert (C : 0 < cos z) by (assert (1 - z ^ 2 / 2 > 0) by nra; lra).
  replace (cos z ^ 2 - z * (2 * cos z * sin z)) with (cos z * (cos z - 2 * z * sin z)) by ring. apply Rmult_lt_0_compat; [exact C|]. nra.
Qed.

(** ** stall speed *)
Lemma stall_arg g rho s cl w : 0 < g -> 0 < rho -> 0 < s -> 0 < cl -> 0 < w -> 0 < 2 * w * g / (rho * s * cl).
Proof. intros. apply Rdiv_lt_0_compat; [nra|]. apply Rmult_lt_0_compat; [apply Rmult_lt_0_compat|]; assumption. Qed.
Lemma stall_sq g rho s cl w : 0 < g -> 0 < rho -> 0 < s -> 0 < cl -> 0 < w -> stall_speed g rho s cl w ^ 2 = 2 * w * g / (rho * s * cl).
Proof. intros. unfold stall_speed. simpl. rewrite Rmult_1_r. apply sqrt_sqrt. pose proof (stall_arg g rho s cl w). lra. Qed.
Lemma stall_pos' g rho s cl w : 0 < g -> 0 < rho -> 0 < s -> 0 < cl -> 0 < w -> 0 < stall_speed g rho s cl w.
Proof. intros. apply sqrt_lt_R0, stall_arg; assumption. Qed.
Lemma stall_less g rho s cl w w' : 0 < g -> 0 < rho -> 0 < s -> 0 < cl -> 0 < w -> w < w' -> stall_speed g rho s cl w < stall_speed g rho s cl w'.
Proof.
  intros. apply sqrt_lt_1_alt. split; [pose proof (stall_arg g rho s cl w); lra|]. unfold Rdiv. apply Rmult_lt_compat_r; [|nra].
  apply Rinv_0_lt_compat. apply Rmult_lt_0_compat; [apply Rmult_lt_0_compat|]; assumption.
Qed.

(** ** series *)
Fixpoint poly (cs : list R) (x : R) : R := match cs with [] => 0 | c :: r => c + x * poly r x end.
Lemma series_is cs x : forall idx acc, series cs idx x acc = acc + x ^ idx * poly cs x.
Proof. induction cs as [|c cs IH]; intros idx acc; cbn [series poly]; [ring|]. rewrite IH. simpl. ring. Qed.
Lemma poly_nonneg cs x : (forall c, In c cs -> 0 <= c) -> 0 <= x -> 0 <= poly cs x.
Proof. induction cs as [|c cs IH]; intros H X; cbn [poly]; [lra|]. pose proof (H c (or_introl eq_refl)). assert (0 <= poly cs x) by (apply IH; [intros; apply H; now right | assumption]). nra. Qed.
Lemma poly_mono cs x y : (forall c, In c cs -> 0 <= c) -> 0 <= x <= y -> poly cs x <= poly cs y.
Proof.
  induction cs as [|c cs IH]; intros H X; cbn [poly]; [lra|].
  assert (P : forall c, In c cs -> 0 <= c) by (intros; apply H; now right). pose proof (IH P X). pose proof (poly_nonneg cs x P ltac:(lra)). nra.
Qed.
Lemma poly_pos cs x : (forall c, In c cs -> 0 <= c) -> (exists c, In c cs /\ 0 < c) -> 0 < x -> 0 < poly cs x.
Proof.
  induction cs as [|c cs IH]; intros H (d & Hd & D) X; cbn [poly]; [destruct Hd|].
  assert (P : forall c, In c cs -> 0 <= c) by (intros; apply H; now right). pose proof (H c (or_introl eq_refl)). pose proof (poly_nonneg cs x P ltac:(lra)).
  destruct Hd as [->|Hd]; [nra|]. assert (0 < poly cs x) by (apply IH; eauto). nra.
Qed.
Lemma poly_strict cs x y : growing_constants cs -> 0 <= x < y -> poly cs x < poly cs y.
Proof.
  intros [H (c & r & -> & e & He & E)] X. cbn [poly]. assert (P : forall c, In c r -> 0 <= c) by (intros; apply H; now right).
  pose proof (poly_mono r x y P ltac:(lra)). pose proof (poly_nonneg r x P ltac:(lra)). pose proof (poly_pos r y P (ex_intro _ e (conj He E)) ltac:(lra)).
  nra.
Qed.
(** convexity of a polynomial with nonnegative coefficients at nonnegative arguments *)
Lemma poly_convex cs x y t : (forall c, In c cs -> 0 <= c) -> 0 <= x <= y -> 0 <= t <= 1 ->
  poly cs (x + t * (y - x)) <= poly cs x + t * (poly cs y - poly cs x).
Proof.
  intros H X T. induction cs as [|c cs IH]; cbn [poly]; [lra|].
  assert (P : forall c, In c cs -> 0 <= c) by (intros; apply H; now right). specialize (IH P).
  pose proof (poly_mono cs x y P X) as M. pose proof (poly_nonneg cs x P ltac:(lra)) as N.
  set (m := x + t * (y - x)) in *. assert (M0 : 0 <= m) by (unfold m; nra).
  assert (m * poly cs m <= m * (poly cs x + t * (poly cs y - poly cs x))) by (apply Rmult_le_compat_l; assumption).
  set (p := poly cs x) in *. set (q := poly cs y) in *.
  assert (m * (p + t * (q - p)) <= x * p + t * (y * q - x * p)); [|lra]. unfold m.
  assert (0 <= t * (1 - t) * ((y - x) * (q - p))) by (apply Rmult_le_pos; [nra | apply Rmult_le_pos; lra]). nra.
Qed.
Lemma constants_grow n : growing_constants (takeoff_constants None n).
Proof.
  unfold takeoff_constants. destruct (Nat.eqb n 2), (Nat.eqb n 3), (Nat.eqb n 4), (Nat.ltb 4 n);
  (split; [intros c [<-|[<-|[<-|[]]]]; lra | do 2 eexists; split; [reflexivity|]; eexists; split; [now left | lra]]).
Qed.

(** ** take-off *)
Definition index (f : field) (thrust : R -> R) (w : R) : R := v2_speed f w ^ 2 / (thrust (7 / 10 * v2_speed f w) / w).
Lemma v2_sq f w : usable f -> 0 < w -> v2_speed f w ^ 2 = ratio_or (12 / 10) (f_ratio f) ^ 2 * (2 * w * f_g f / (f_rho f * f_sref f * f_clmax f)).
Proof. intros (G & Rh & Sr & C & Ra & _) W. unfold v2_speed. rewrite Rpow_mult_distr, stall_sq by assumption. reflexivity. Qed.
Lemma v2_pos f w : usable f -> 0 < w -> 0 < v2_speed f w.
Proof. intros (G & Rh & Sr & C & Ra & _) W. unfold v2_speed. apply Rmult_lt_0_compat; [assumption | now apply stall_pos']. Qed.
Lemma v2_less f w w' : usable f -> 0 < w -> w < w' -> v2_speed f w < v2_speed f w'.
Proof. intros (G & Rh & Sr & C & Ra & _) W L. unfold v2_speed. apply Rmult_lt_compat_l; [assumption | now apply stall_less]. Qed.
Lemma index_pos f th w : usable f -> fading th -> 0 < w -> 0 < index f th w.
Proof. intros U [T _] W. unfold index. pose proof (v2_pos f w U W). apply Rdiv_lt_0_compat; [nra | apply Rdiv_lt_0_compat; [apply T | assumption]]. Qed.
Lemma index_less f th w w' : usable f -> fading th -> 0 < w -> w < w' -> index f th w < index f th w'.
Proof.
  intros U [T M] W L. unfold index. pose proof (v2_pos f w U W). pose proof (v2_less f w w' U W L).
  set (a := th (7 / 10 * v2_speed f w)). set (b := th (7 / 10 * v2_speed f w')).
  assert (A : 0 < a) by apply T. assert (B : 0 < b) by apply T. assert (BA : b <= a) by (apply M; lra).
  replace (v2_speed f w ^ 2 / (a / w)) with (v2_speed f w ^ 2 * w / a) by (field; lra).
  replace (v2_speed f w' ^ 2 / (b / w')) with (v2_speed f w' ^ 2 * w' / b) by (field; lra).
  assert (N : v2_speed f w ^ 2 * w < v2_speed f w' ^ 2 * w') by (assert (v2_speed f w ^ 2 < v2_speed f w' ^ 2) by nra; nra).
  assert (P : 0 < v2_speed f w ^ 2 * w) by (apply Rmult_lt_0_compat; nra).
  apply Rlt_le_trans with (v2_speed f w' ^ 2 * w' / a).
  - unfold Rdiv. apply Rmult_lt_compat_r; [now apply Rinv_0_lt_compat | assumption].
  - unfold Rdiv. apply Rmult_le_compat_l; [lra|]. apply Rinv_le_contravar; assumption.
Qed.
Definition engines (f : field) : nat := fold_left Nat.add (f_engines f) 0%nat.
Lemma length_is f th w : engines f <> 0%nat -> takeoff_field_length f th w = Ok (poly (takeoff_constants (f_consts f) (engines f)) (index f th w) * foot).
Proof.
  intro E. unfold takeoff_field_length. fold (engines f). destruct (Nat.eqb_spec (engines f) 0); [contradiction|].
  fold (index f th w). rewrite series_is. f_equal. simpl. ring.
Qed.
Lemma foot_pos : 0 < foot. Proof. unfold foot. lra. Qed.

(** ** table look-up *)
Lemma interp_cons x a b a' b' r : interp x ((a, b) :: (a', b') :: r) =
  if Rltb x a then b else if Rltb x a' then b + (b' - b) / (a' - a) * (x - a) else interp x ((a', b') :: r).
Proof. reflexivity. Qed.
Lemma interp_spec x : forall pts d, pts <> [] ->
  (forall i, (S i < List.length pts)%nat -> fst (nth i pts d) < fst (nth (S i) pts d)) ->
  (x < fst (nth 0 pts d) -> interp x pts = snd (nth 0 pts d)) /\
  (fst (nth (List.length pts - 1) pts d) <= x -> interp x pts = snd (nth (List.length pts - 1) pts d)) /\
  (fst (nth 0 pts d) <= x -> x < fst (nth (List.length pts - 1) pts d) ->
   exists i, (S i < List.length pts)%nat /\ fst (nth i pts d) <= x < fst (nth (S i) pts d) /\
     interp x pts = snd (nth i pts d) + (snd (nth (S i) pts d) - snd (nth i pts d)) / (fst (nth (S i) pts d) - fst (nth i pts d)) * (x - fst (nth i pts d))).
Proof.
  induction pts as [|[a b] pts IH]; intros d NE I; [congruence|]. destruct pts as [|[a' b'] r].
  - cbn. split; [reflexivity|]. split; [reflexivity|]. intros; lra.
  - assert (I' : forall i, (S i < List.length ((a', b') :: r))%nat -> fst (nth i ((a', b') :: r) d) < fst (nth (S i) ((a', b') :: r) d)).
    { intros i Hi. apply (I (S i)). cbn [List.length] in *. lia. }
    destruct (IH d ltac:(discriminate) I') as (J1 & J2 & J3).
    assert (AB : a < a') by (apply (I 0%nat); cbn; lia).
    assert (LE : fst (nth 0 ((a', b') :: r) d) <= fst (nth (List.length ((a', b') :: r) - 1) ((a', b') :: r) d)).
    { clear -I'. set (l := (a', b') :: r) in *. assert (forall n, (n < List.length l)%nat -> fst (nth 0 l d) <= fst (nth n l d)).
      { induction n as [|n IHn]; intro Hn; [lra|]. specialize (I' n Hn). specialize (IHn ltac:(lia)). lra. }
      apply H. unfold l. cbn. lia. }
    pose proof (interp_cons x a b a' b' r) as EQ0.
    set (L := (a', b') :: r) in *.
    assert (EL : (List.length ((a, b) :: L) - 1 = S (List.length L - 1))%nat) by (unfold L; cbn [List.length]; lia).
    rewrite EL, EQ0. cbn [nth fst snd].
    assert (X0 : fst (nth 0 L d) = a') by reflexivity.
    split; [|split].
    + intro Hx. replace (Rltb x a) with true by (symmetry; apply Rltb_true; lra). reflexivity.
    + intro Hx. replace (Rltb x a) with false by (symmetry; apply Rltb_false; lra). replace (Rltb x a') with false by (symmetry; apply Rltb_false; lra).
      apply J2. exact Hx.
    + intros H1 H2. replace (Rltb x a) with false by (symmetry; apply Rltb_false; lra).
      destruct (Rltb x a') eqn:E; [apply Rltb_true in E|apply Rltb_false in E].
      * exists 0%nat. split; [unfold L; cbn; lia|]. cbn [nth]. rewrite X0. cbn [fst snd]. split; [lra|reflexivity].
      * destruct (J3 ltac:(lra) H2) as (i & Hi & B & EQ). exists (S i). split; [cbn [List.length]; lia|]. cbn [nth]. split; [exact B | exact EQ].
Qed.
