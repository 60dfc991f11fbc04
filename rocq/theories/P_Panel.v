(** * Proofs about the panel method *)
From Coq Require Import Reals List Bool Arith Lia Lra Psatz.
From Coquelicot Require Import Coquelicot.
From Verif Require Import PyBase M_Opt P_Opt M_Drag M_Panel S_Panel.
Import ListNotations.
Local Open Scope R_scope.

(** ** Geometry *)
Lemma len_sq p : len p * len p = (fst (snd p) - fst (fst p)) ^ 2 + (snd (snd p) - snd (fst p)) ^ 2.
Proof. unfold len. apply sqrt_sqrt. pose proof (pow2_ge_0 (fst (snd p) - fst (fst p))). pose proof (pow2_ge_0 (snd (snd p) - snd (fst p))). lra. Qed.
Lemma len_pos p : proper p -> 0 < len p.
Proof.
  intro P. unfold len. apply sqrt_lt_R0. pose proof (pow2_ge_0 (fst (snd p) - fst (fst p))) as A. pose proof (pow2_ge_0 (snd (snd p) - snd (fst p))) as B.
  destruct (Req_dec (fst (snd p) - fst (fst p)) 0) as [X|X].
  - destruct (Req_dec (snd (snd p) - snd (fst p)) 0) as [Y|Y].
    + exfalso. apply P. destruct p as [[a b] [c d]]. cbn in *. f_equal; lra.
    + pose proof (Rlt_0_sqr _ Y) as Z. rewrite Rsqr_pow2 in Z. lra.
  - pose proof (Rlt_0_sqr _ X) as Z. rewrite Rsqr_pow2 in Z. lra.
Qed.
Lemma unit p : proper p -> ct p * ct p + st p * st p = 1.
Proof.
  intro P. pose proof (len_pos p P) as L. pose proof (len_sq p) as E. unfold ct, st. set (x := fst (snd p) - fst (fst p)) in *. set (y := snd (snd p) - snd (fst p)) in *.
  replace (x / len p * (x / len p) + y / len p * (y / len p)) with ((x ^ 2 + y ^ 2) / (len p * len p)) by (field; lra). rewrite E. field. rewrite <- E. nra.
Qed.
Lemma end_at p : proper p -> along p (len p) = snd p.
Proof. intro P. pose proof (len_pos p P). unfold along, ct, st. destruct p as [[a b] [c d]]. cbn [fst snd]. f_equal; field; lra. Qed.
Lemma start_at p : along p 0 = fst p.
Proof. unfold along. destruct p as [[a b] [c d]]. cbn [fst snd]. f_equal; ring. Qed.
(** ** Sheets *)
Definition lx (x : pt) (p : panel) : R := (fst x - fst (fst p)) * ct p + (snd x - snd (fst p)) * st p.
Definition ly (x : pt) (p : panel) : R := - (fst x - fst (fst p)) * st p + (snd x - snd (fst p)) * ct p.
Lemma local_x x p t : proper p -> fst x - fst (along p t) = (lx x p - t) * ct p - ly x p * st p.
Proof.
  intro P. unfold along, lx, ly. cbn [fst]. pose proof (unit p P) as U. set (c := ct p) in *. set (s := st p) in *. set (u := fst x - fst (fst p)). set (v := snd x - snd (fst p)).
  replace ((u * c + v * s - t) * c - (- u * s + v * c) * s) with (u * (c * c + s * s) - t * c) by ring. rewrite U. unfold u. ring.
Qed.
Lemma local_y x p t : proper p -> snd x - snd (along p t) = (lx x p - t) * st p + ly x p * ct p.
Proof.
  intro P. unfold along, lx, ly. cbn [snd]. pose proof (unit p P) as U. set (c := ct p) in *. set (s := st p) in *. set (u := fst x - fst (fst p)). set (v := snd x - snd (fst p)).
  replace ((u * c + v * s - t) * s + (- u * s + v * c) * c) with (v * (c * c + s * s) - t * s) by ring. rewrite U. unfold v. ring.
Qed.
Lemma local_d x p t : proper p -> dist x (along p t) ^ 2 = (lx x p - t) ^ 2 + ly x p ^ 2.
Proof.
  intro P. unfold dist. rewrite <- Rsqr_pow2, Rsqr_sqrt. 2:{ pose proof (pow2_ge_0 (fst x - fst (along p t))). pose proof (pow2_ge_0 (snd x - snd (along p t))). lra. }
  rewrite local_x, local_y by exact P. pose proof (unit p P) as U. set (c := ct p) in *. set (s := st p) in *. set (u := lx x p - t). set (v := ly x p).
  replace ((u * c - v * s) ^ 2 + (u * s + v * c) ^ 2) with ((u ^ 2 + v ^ 2) * (c * c + s * s)) by ring. rewrite U. ring.
Qed.
Lemma off_pos x p t : proper p -> off x p -> 0 <= t <= len p -> 0 < (lx x p - t) ^ 2 + ly x p ^ 2.
Proof.
  intros P O T. rewrite <- local_d by exact P. destruct (Req_dec (dist x (along p t)) 0) as [Z|N].
  - exfalso. apply (O t T). unfold dist in Z. apply sqrt_eq_0 in Z. 2:{ pose proof (pow2_ge_0 (fst x - fst (along p t))). pose proof (pow2_ge_0 (snd x - snd (along p t))). lra. }
    pose proof (pow2_ge_0 (fst x - fst (along p t))). pose proof (pow2_ge_0 (snd x - snd (along p t))).
    assert (A : (fst x - fst (along p t)) ^ 2 = 0) by lra. assert (B : (snd x - snd (along p t)) ^ 2 = 0) by lra.
    assert (A' : fst x - fst (along p t) = 0). { destruct (Req_dec (fst x - fst (along p t)) 0); [assumption|]. exfalso. now apply (pow_nonzero (fst x - fst (along p t)) 2). }
    assert (B' : snd x - snd (along p t) = 0). { destruct (Req_dec (snd x - snd (along p t)) 0); [assumption|]. exfalso. now apply (pow_nonzero (snd x - snd (along p t)) 2). }
    destruct x as [x1 x2], (along p t) as [y1 y2]. cbn [fst snd] in *. f_equal; lra.
  - rewrite <- Rsqr_pow2. now apply Rlt_0_sqr.
Qed.
(** the two integrals of a sheet, in the panel's own axes *)
Lemma int_ln X Y l : 0 <= l -> (forall t, 0 <= t <= l -> 0 < (X - t) ^ 2 + Y ^ 2) ->
  is_RInt (fun t => (X - t) / ((X - t) ^ 2 + Y ^ 2)) 0 l (- (1 / 2) * ln ((X - l) ^ 2 + Y ^ 2) + 1 / 2 * ln (X ^ 2 + Y ^ 2)).
Proof.
  intros L P. replace (- (1 / 2) * ln ((X - l) ^ 2 + Y ^ 2) + 1 / 2 * ln (X ^ 2 + Y ^ 2)) with (minus (- (1 / 2) * ln ((X - l) ^ 2 + Y ^ 2)) (- (1 / 2) * ln ((X - 0) ^ 2 + Y ^ 2))).
  2:{ unfold minus, plus, opp. cbn [AbelianGroup.plus AbelianGroup.opp]. cbn. replace (X - 0) with X by ring. ring. }
  apply (is_RInt_derive (fun t => - (1 / 2) * ln ((X - t) ^ 2 + Y ^ 2))).
  - intros t T. rewrite Rmin_left, Rmax_right in T by lra. specialize (P t T). auto_derive; [exact P|]. field. lra.
  - intros t T. rewrite Rmin_left, Rmax_right in T by lra. specialize (P t T). apply continuity_pt_filterlim. apply continuity_pt_div; [reg|reg|lra].
Qed.
Lemma int_atan X Y l : 0 <= l -> Y <> 0 -> is_RInt (fun t => Y / ((X - t) ^ 2 + Y ^ 2)) 0 l (atan (X / Y) - atan ((X - l) / Y)).
Proof.
  intros L N. assert (P : forall t, 0 < (X - t) ^ 2 + Y ^ 2). { intro t. pose proof (pow2_ge_0 (X - t)). pose proof (Rlt_0_sqr _ N) as Z. rewrite Rsqr_pow2 in Z. lra. }
  replace (atan (X / Y) - atan ((X - l) / Y)) with (minus (- atan ((X - l) / Y)) (- atan ((X - 0) / Y))).
  2:{ unfold minus, plus, opp. cbn. replace (X - 0) with X by ring. ring. }
  apply (is_RInt_derive (fun t => - atan ((X - t) / Y))).
  - intros t T. specialize (P t). auto_derive; [exact I|]. field. split; [|exact N]. replace (Y ^ 2 + (X - t) ^ 2) with ((X - t) ^ 2 + Y ^ 2) by ring. lra.
  - intros t T. specialize (P t). apply continuity_pt_filterlim. apply continuity_pt_div; [reg|reg|lra].
Qed.
Lemma ext_atan X Y : 0 < Y -> forall l, 0 < l -> 0 < atan (X / Y) - atan ((X - l) / Y) < PI.
Proof.
  intros P l L. assert ((X - l) / Y < X / Y). { unfold Rdiv. apply Rmult_lt_compat_r; [now apply Rinv_0_lt_compat|lra]. } pose proof (atan_increasing _ _ H).
  pose proof (atan_bound (X / Y)). pose proof (atan_bound ((X - l) / Y)). lra.
Qed.
Lemma sqrt_div' a b : 0 < b -> sqrt (1 + (a / b) ^ 2) = sqrt (a ^ 2 + b ^ 2) / b.
Proof.
  intro B. pose proof (pow2_ge_0 a). assert (0 < b ^ 2) by (apply pow_lt; lra). replace (1 + (a / b) ^ 2) with ((a ^ 2 + b ^ 2) / b ^ 2) by (field; lra). rewrite sqrt_div by lra. rewrite <- (Rsqr_pow2 b), sqrt_Rsqr by lra. reflexivity.
Qed.
Lemma cos_diff X Y l : 0 < Y ->
  cos (atan (X / Y) - atan ((X - l) / Y)) = (X * (X - l) + Y ^ 2) / sqrt (X ^ 2 + Y ^ 2) / sqrt ((X - l) ^ 2 + Y ^ 2).
Proof.
  intro P. rewrite cos_minus, !cos_atan, !sin_atan. rewrite !Rsqr_pow2, !sqrt_div' by exact P.
  assert (A : 0 < sqrt (X ^ 2 + Y ^ 2)). { apply sqrt_lt_R0. pose proof (pow2_ge_0 X). assert (0 < Y ^ 2) by now apply pow_lt. lra. }
  assert (B : 0 < sqrt ((X - l) ^ 2 + Y ^ 2)). { apply sqrt_lt_R0. pose proof (pow2_ge_0 (X - l)). assert (0 < Y ^ 2) by now apply pow_lt. lra. }
  field. repeat split; lra.
Qed.
(** the signed angle under which a segment is seen *)
Definition seen X Y l : R := sgn (l * Y) * acos (let r := (X * (X - l) + Y ^ 2) / sqrt (X ^ 2 + Y ^ 2) / sqrt ((X - l) ^ 2 + Y ^ 2) in if Rltb 1 r then 1 else r).
Lemma seen_pos X Y l : 0 < l -> 0 < Y -> seen X Y l = atan (X / Y) - atan ((X - l) / Y).
Proof.
  intros L P. unfold seen. cbv zeta. rewrite <- cos_diff by exact P. set (d := atan (X / Y) - atan ((X - l) / Y)). pose proof (ext_atan X Y P l L) as D. fold d in D.
  replace (Rltb 1 (cos d)) with false by (symmetry; apply Rltb_false; apply COS_bound). rewrite acos_cos by lra.
  unfold sgn. replace (Rltb 0 (l * Y)) with true by (symmetry; apply Rltb_true; now apply Rmult_lt_0_compat). ring.
Qed.
Lemma seen_neg X Y l : 0 < l -> Y < 0 -> seen X Y l = atan (X / Y) - atan ((X - l) / Y).
Proof.
  intros L N. pose proof (seen_pos X (- Y) l L ltac:(lra)) as E. unfold seen in *. replace ((- Y) ^ 2) with (Y ^ 2) in E by ring.
  assert (O : forall a, a / - Y = - (a / Y)). { intro a. field. lra. } rewrite !O, !atan_opp in E.
  replace (sgn (l * Y)) with (- sgn (l * - Y)). { rewrite Ropp_mult_distr_l_reverse, E. ring. }
  unfold sgn. replace (Rltb 0 (l * - Y)) with true by (symmetry; apply Rltb_true; nra). replace (Rltb 0 (l * Y)) with false by (symmetry; apply Rltb_false; nra).
  replace (Rltb (l * Y) 0) with true by (symmetry; apply Rltb_true; nra). reflexivity.
Qed.
Lemma seen_flat X l : seen X 0 l = 0.
Proof. unfold seen, sgn. rewrite Rmult_0_r. destruct (Rltb 0 0) eqn:E; [apply Rltb_true in E; lra|]. ring. Qed.
Lemma int_seen X Y l : 0 < l -> is_RInt (fun t => Y / ((X - t) ^ 2 + Y ^ 2)) 0 l (seen X Y l).
Proof.
  intro L. destruct (Rtotal_order Y 0) as [N|[Z|P]].
  - rewrite seen_neg by assumption. apply int_atan; lra.
  - subst Y. rewrite seen_flat. apply (is_RInt_ext (fun _ => 0)). { intros t _. symmetry. apply Rmult_0_l. } pose proof (is_RInt_const (V := R_NormedModule) 0 l 0) as C. change (is_RInt (V := R_NormedModule) (fun _ => 0) 0 l ((l - 0) * 0)) in C. rewrite Rmult_0_r in C. exact C.
  - rewrite seen_pos by assumption. apply int_atan; lra.
Qed.
Lemma cross_local x p : proper p -> cross x (fst p) (snd p) = len p * ly x p.
Proof.
  intro P. pose proof (len_pos p P). rewrite <- (end_at p P). rewrite <- (start_at p) at 1. unfold cross. rewrite !local_x, !local_y by exact P. pose proof (unit p P) as U.
  set (c := ct p) in *. set (s := st p) in *. set (X := lx x p). set (Y := ly x p). set (l := len p).
  transitivity (l * Y * (c * c + s * s)); [ring|]. rewrite U. ring.
Qed.
Lemma dot_local x p : proper p -> dot x (fst p) (snd p) = lx x p * (lx x p - len p) + ly x p ^ 2.
Proof.
  intro P. rewrite <- (end_at p P). rewrite <- (start_at p) at 1. unfold dot. rewrite !local_x, !local_y by exact P. pose proof (unit p P) as U.
  set (c := ct p) in *. set (s := st p) in *. set (X := lx x p). set (Y := ly x p). set (l := len p).
  transitivity ((X * (X - l) + Y ^ 2) * (c * c + s * s)); [ring|]. rewrite U. ring.
Qed.
Lemma dist_pos x y : 0 <= dist x y. Proof. apply sqrt_pos. Qed.
Lemma dist_local x p t : proper p -> dist x (along p t) = sqrt ((lx x p - t) ^ 2 + ly x p ^ 2).
Proof. intro P. rewrite <- local_d by exact P. rewrite <- Rsqr_pow2, sqrt_Rsqr; [reflexivity|apply dist_pos]. Qed.
Lemma dist_start x p : proper p -> dist x (fst p) = sqrt (lx x p ^ 2 + ly x p ^ 2).
Proof. intro P. rewrite <- (start_at p) at 1. rewrite dist_local by exact P. do 2 f_equal. f_equal. ring. Qed.
Lemma dist_end x p : proper p -> dist x (snd p) = sqrt ((lx x p - len p) ^ 2 + ly x p ^ 2).
Proof. intro P. rewrite <- (end_at p P). now rewrite dist_local by exact P. Qed.
Lemma angle_local x p : proper p -> angle x (fst p) (snd p) = seen (lx x p) (ly x p) (len p).
Proof. intro P. unfold angle, seen, r_ratio. now rewrite cross_local, dot_local, dist_start, dist_end by exact P. Qed.
Lemma ln_sqrt z : 0 < z -> ln (sqrt z) = 1 / 2 * ln z.
Proof. intro Z. rewrite <- (sqrt_sqrt z) at 2 by lra. pose proof (sqrt_lt_R0 z Z). rewrite ln_mult by assumption. field. Qed.
Lemma lnr_local x p : proper p -> off x p ->
  ln (dist x (snd p) / dist x (fst p)) = - (- (1 / 2) * ln ((lx x p - len p) ^ 2 + ly x p ^ 2) + 1 / 2 * ln (lx x p ^ 2 + ly x p ^ 2)).
Proof.
  intros P O. rewrite dist_start, dist_end by exact P. pose proof (len_pos p P). pose proof (off_pos x p 0 P O ltac:(lra)) as A. pose proof (off_pos x p (len p) P O ltac:(lra)) as B.
  replace (lx x p - 0) with (lx x p) in A by ring. pose proof (sqrt_lt_R0 _ A). pose proof (sqrt_lt_R0 _ B). rewrite ln_div by assumption. rewrite !ln_sqrt by assumption. ring.
Qed.
Lemma sheet_int x p f g : proper p -> off x p ->
  is_RInt (fun t => (f * (lx x p - t) + g * ly x p) / (2 * PI * dist x (along p t) ^ 2)) 0 (len p)
    (1 / (2 * PI) * (f * - ln (dist x (snd p) / dist x (fst p)) + g * angle x (fst p) (snd p))).
Proof.
  intros P O. pose proof (len_pos p P) as L. pose proof (int_ln (lx x p) (ly x p) (len p) ltac:(lra) (fun t T => off_pos x p t P O T)) as I1.
  pose proof (int_seen (lx x p) (ly x p) (len p) L) as I2. rewrite <- angle_local in I2 by exact P. rewrite lnr_local by assumption. rewrite Ropp_involutive.
  set (v1 := - (1 / 2) * ln ((lx x p - len p) ^ 2 + ly x p ^ 2) + 1 / 2 * ln (lx x p ^ 2 + ly x p ^ 2)) in *. set (v2 := angle x (fst p) (snd p)) in *.
  pose proof (is_RInt_scal _ _ _ (1 / (2 * PI) * f) _ I1) as J1. pose proof (is_RInt_scal _ _ _ (1 / (2 * PI) * g) _ I2) as J2. pose proof (is_RInt_plus _ _ _ _ _ _ J1 J2) as J.
  replace (1 / (2 * PI) * (f * v1 + g * v2)) with (plus (scal (1 / (2 * PI) * f) v1) (scal (1 / (2 * PI) * g) v2)).
  2:{ unfold plus, scal. cbn. unfold mult. cbn. ring. }
  eapply is_RInt_ext; [|exact J]. intros t T. rewrite Rmin_left, Rmax_right in T by lra. unfold plus, scal. cbn. unfold mult. cbn. change (dist x (along p t) * (dist x (along p t) * 1)) with (dist x (along p t) ^ 2).
  rewrite local_d by exact P. pose proof (off_pos x p t P O ltac:(lra)) as Q. pose proof PI_RGT_0. field. split; [lra|]. cbn in Q. lra.
Qed.
Lemma integral_is f a b v : is_RInt f a b v -> integral f a b = v.
Proof. intro I. unfold integral. now apply is_RInt_unique. Qed.
Lemma integral_ext f g a b : (forall x, f x = g x) -> integral f a b = integral g a b.
Proof. intro E. unfold integral. apply RInt_ext. intros x _. apply E. Qed.
Theorem source_sheet_is x p : proper p -> off x p ->
  let L := ln (dist x (snd p) / dist x (fst p)) in let b := angle x (fst p) (snd p) in
  source_sheet x p = (1 / (2 * PI) * (- L * ct p - b * st p), 1 / (2 * PI) * (- L * st p + b * ct p)).
Proof.
  intros P O L b. unfold source_sheet. f_equal.
  - rewrite (integral_ext _ (fun t => (ct p * (lx x p - t) + - st p * ly x p) / (2 * PI * dist x (along p t) ^ 2))).
    2:{ intro t. rewrite local_x by exact P. f_equal. ring. } rewrite (integral_is _ _ _ _ (sheet_int x p _ _ P O)). fold L b. ring.
  - rewrite (integral_ext _ (fun t => (st p * (lx x p - t) + ct p * ly x p) / (2 * PI * dist x (along p t) ^ 2))).
    2:{ intro t. rewrite local_y by exact P. f_equal. ring. } rewrite (integral_is _ _ _ _ (sheet_int x p _ _ P O)). fold L b. ring.
Qed.
Theorem vortex_sheet_is x p : proper p -> off x p ->
  let L := ln (dist x (snd p) / dist x (fst p)) in let b := angle x (fst p) (snd p) in
  vortex_sheet x p = (1 / (2 * PI) * (b * ct p - L * st p), 1 / (2 * PI) * (b * st p + L * ct p)).
Proof.
  intros P O L b. unfold vortex_sheet. f_equal.
  - rewrite (integral_ext _ (fun t => (st p * (lx x p - t) + ct p * ly x p) / (2 * PI * dist x (along p t) ^ 2))).
    2:{ intro t. rewrite local_y by exact P. f_equal. ring. } rewrite (integral_is _ _ _ _ (sheet_int x p _ _ P O)). fold L b. ring.
  - rewrite (integral_ext _ (fun t => (- ct p * (lx x p - t) + st p * ly x p) / (2 * PI * dist x (along p t) ^ 2))).
    2:{ intro t. rewrite local_x by exact P. f_equal. ring. } rewrite (integral_is _ _ _ _ (sheet_int x p _ _ P O)). fold L b. ring.
Qed.
(** ** Rows *)
Lemma mid_self p : dist (mid p) (snd p) = dist (mid p) (fst p).
Proof. unfold dist, mid. cbn [fst snd]. f_equal. field. Qed.
Lemma lnr_self p : proper p -> lnr p p = 0.
Proof.
  intro P. unfold lnr. rewrite mid_self. pose proof (len_pos p P) as L. assert (D : 0 < dist (mid p) (fst p)).
  { unfold dist, mid. cbn [fst snd]. apply sqrt_lt_R0. pose proof (len_sq p) as E. assert (0 < len p * len p) by nra.
    replace (((fst (snd p) + fst (fst p)) / 2 - fst (fst p)) ^ 2 + ((snd (snd p) + snd (fst p)) / 2 - snd (fst p)) ^ 2) with (1 / 4 * ((fst (snd p) - fst (fst p)) ^ 2 + (snd (snd p) - snd (fst p)) ^ 2)) by field. lra. }
  unfold Rdiv. rewrite Rinv_r by lra. apply ln_1.
Qed.
Definition fits (e : bool) (pi pj : panel) : Prop := proper pi /\ proper pj /\ (if e then pi = pj else off (mid pi) pj).
Lemma coef_normal e pi pj : fits e pi pj ->
  vdot (source_at e pi pj) (normal pi) = a_src e pi pj /\ vdot (vortex_at e pi pj) (normal pi) = a_vor e pi pj /\
  vdot (source_at e pi pj) (tangent pi) = t_src e pi pj /\ vdot (vortex_at e pi pj) (tangent pi) = t_vor e pi pj.
Proof.
  intros (Pi & Pj & F). pose proof PI_RGT_0 as PP. destruct e.
  - subst pj. unfold source_at, vortex_at, a_src, a_vor, t_src, t_vor, vdot, normal, tangent, beta, s_ij, c_ij. cbn [fst snd]. rewrite lnr_self by exact Pi.
    pose proof (unit pi Pi) as U. set (c := ct pi) in *. set (s := st pi) in *. repeat split.
    + transitivity (1 / 2 * (c * c + s * s)); [ring|]. transitivity (1 / (2 * PI) * (PI * (c * c + s * s))); [rewrite U; field; lra|ring].
    + ring. + ring.
    + transitivity (1 / 2 * (c * c + s * s)); [ring|]. transitivity (1 / (2 * PI) * (PI * (c * c + s * s))); [rewrite U; field; lra|ring].
  - unfold source_at, vortex_at. rewrite source_sheet_is, vortex_sheet_is by assumption. unfold a_src, a_vor, t_src, t_vor, vdot, normal, tangent, beta, s_ij, c_ij, lnr. cbn [fst snd].
    set (L := ln _). set (b := angle _ _ _). repeat split; ring.
Qed.
Lemma sum_dot n1 n2 : forall (q : list R) (js : list (nat * panel)) (F G H : nat * panel -> R),
  (forall jp, In jp js -> F jp * n1 + G jp * n2 = H jp) ->
  sum (map2 Rmult q (map F js)) * n1 + sum (map2 Rmult q (map G js)) * n2 = sum (map2 Rmult q (map H js)).
Proof.
  induction q as [|a q IH]; intros js F G H E; [cbn; ring|]. destruct js as [|j js]; [cbn; ring|]. cbn [map map2 sum fold_right]. fold (sum (map2 Rmult q (map F js))) (sum (map2 Rmult q (map G js))) (sum (map2 Rmult q (map H js))).
  rewrite <- (E j) by (now left). rewrite <- (IH js F G H) by (intros; apply E; now right). ring.
Qed.
Lemma sum_dot1 n1 n2 : forall (js : list (nat * panel)) (F G H : nat * panel -> R),
  (forall jp, In jp js -> F jp * n1 + G jp * n2 = H jp) -> sum (map F js) * n1 + sum (map G js) * n2 = sum (map H js).
Proof.
  induction js as [|j js IH]; intros F G H E; [cbn; ring|]. cbn [map sum fold_right]. fold (sum (map F js)) (sum (map G js)) (sum (map H js)).
  rewrite <- (E j) by (now left). rewrite <- (IH F G H) by (intros; apply E; now right). ring.
Qed.
Lemma in_index {A} (l : list A) jp : In jp (combine (seq 0 (length l)) l) -> nth_error l (fst jp) = Some (snd jp).
Proof.
  assert (G : forall (l : list A) s, In jp (combine (seq s (length l)) l) -> (s <= fst jp)%nat /\ nth_error l (fst jp - s) = Some (snd jp)).
  { clear l. induction l as [|a l IH]; intros s I; [destruct I|]. destruct I as [<-|I]; cbn [fst snd].
    - split; [lia|]. now rewrite Nat.sub_diag. - destruct (IH (Datatypes.S s) I) as [B E]. split; [lia|]. replace (fst jp - s)%nat with (Datatypes.S (fst jp - Datatypes.S s)) by lia. exact E. }
  intro I. destruct (G l 0%nat I) as [_ E]. now rewrite Nat.sub_0_r in E.
Qed.
Lemma fits_in ps i pi jp : sound ps -> nth_error ps i = Some pi -> In jp (combine (seq 0 (length ps)) ps) -> fits (Nat.eqb i (fst jp)) pi (snd jp).
Proof.
  intros [P O] I J. apply in_index in J. pose proof (nth_error_In _ _ I). pose proof (nth_error_In _ _ J). split; [auto|]. split; [auto|].
  destruct (Nat.eqb_spec i (fst jp)) as [E|N]; [rewrite E in I; congruence|]. now apply (O i (fst jp)).
Qed.
Lemma flow_normal ps al q g i pi : sound ps -> nth_error ps i = Some pi ->
  vdot (flow ps al q g i pi) (normal pi) = (sin al * ct pi - st pi * cos al) + (sum (map2 Rmult q (row a_src ps i pi)) + g * sum (row a_vor ps i pi)).
Proof.
  intros S I. unfold vdot, flow, row. cbn [fst snd].
  rewrite <- (sum_dot (fst (normal pi)) (snd (normal pi)) q (combine (seq 0 (length ps)) ps) (fun jp => fst (source_at (Nat.eqb i (fst jp)) pi (snd jp))) (fun jp => snd (source_at (Nat.eqb i (fst jp)) pi (snd jp))) (fun jp => a_src (Nat.eqb i (fst jp)) pi (snd jp))).
  2:{ intros jp J. destruct (coef_normal _ _ _ (fits_in ps i pi jp S I J)) as (C1 & C2 & C3 & C4). exact C1. }
  rewrite <- (sum_dot1 (fst (normal pi)) (snd (normal pi)) (combine (seq 0 (length ps)) ps) (fun jp => fst (vortex_at (Nat.eqb i (fst jp)) pi (snd jp))) (fun jp => snd (vortex_at (Nat.eqb i (fst jp)) pi (snd jp))) (fun jp => a_vor (Nat.eqb i (fst jp)) pi (snd jp))).
  2:{ intros jp J. destruct (coef_normal _ _ _ (fits_in ps i pi jp S I J)) as (C1 & C2 & C3 & C4). exact C2. }
  unfold normal. cbn [fst snd]. ring.
Qed.
Lemma flow_tangent ps al q g i pi : sound ps -> nth_error ps i = Some pi ->
  vdot (flow ps al q g i pi) (tangent pi) = (ct pi * cos al + st pi * sin al) + (sum (map2 Rmult q (row t_src ps i pi)) + g * sum (row t_vor ps i pi)).
Proof.
  intros S I. unfold vdot, flow, row. cbn [fst snd].
  rewrite <- (sum_dot (fst (tangent pi)) (snd (tangent pi)) q (combine (seq 0 (length ps)) ps) (fun jp => fst (source_at (Nat.eqb i (fst jp)) pi (snd jp))) (fun jp => snd (source_at (Nat.eqb i (fst jp)) pi (snd jp))) (fun jp => t_src (Nat.eqb i (fst jp)) pi (snd jp))).
  2:{ intros jp J. destruct (coef_normal _ _ _ (fits_in ps i pi jp S I J)) as (C1 & C2 & C3 & C4). exact C3. }
  rewrite <- (sum_dot1 (fst (tangent pi)) (snd (tangent pi)) (combine (seq 0 (length ps)) ps) (fun jp => fst (vortex_at (Nat.eqb i (fst jp)) pi (snd jp))) (fun jp => snd (vortex_at (Nat.eqb i (fst jp)) pi (snd jp))) (fun jp => t_vor (Nat.eqb i (fst jp)) pi (snd jp))).
  2:{ intros jp J. destruct (coef_normal _ _ _ (fits_in ps i pi jp S I J)) as (C1 & C2 & C3 & C4). exact C4. }
  unfold tangent. cbn [fst snd]. ring.
Qed.
(** ** The equations *)
Lemma map2_nth {A B C} (f : A -> B -> C) : forall l m i, nth_error (map2 f l m) i = match nth_error l i, nth_error m i with Some a, Some b => Some (f a b) | _, _ => None end.
Proof. induction l as [|x l IH]; intros [|y m] [|i]; cbn; try reflexivity; [now destruct (nth_error l i)|apply IH]. Qed.
Lemma sum_snoc a x : sum (a ++ [x]) = sum a + x.
Proof. unfold sum. induction a as [|y a IH]; cbn [app fold_right]; [ring|]. rewrite IH. ring. Qed.
Lemma map2_snoc (f : R -> R -> R) : forall a b x y, length a = length b -> map2 f (a ++ [x]) (b ++ [y]) = map2 f a b ++ [f x y].
Proof. induction a as [|u a IH]; intros [|v b] x y L; try discriminate; cbn; [reflexivity|]. f_equal. apply IH. now injection L. Qed.
Lemma map2_comm : forall a b, map2 Rmult a b = map2 Rmult b a.
Proof. induction a as [|u a IH]; intros [|v b]; cbn; try reflexivity. now rewrite IH, Rmult_comm. Qed.
Lemma row_length {A} (f : bool -> panel -> panel -> A) ps i pi : length (row f ps i pi) = length ps.
Proof. unfold row. now rewrite map_length, combine_length, seq_length, Nat.min_id. Qed.
Lemma row_eq x r q g : length r = length q -> sum (map2 Rmult (r ++ [x]) (q ++ [g])) = sum (map2 Rmult q r) + g * x.
Proof. intro L. rewrite map2_snoc by exact L. rewrite sum_snoc, map2_comm. ring. Qed.
Lemma index_nth {A} (l : list A) i a : nth_error l i = Some a -> nth_error (combine (seq 0 (length l)) l) i = Some (i, a).
Proof.
  assert (G : forall (l : list A) s i, nth_error l i = Some a -> nth_error (combine (seq s (length l)) l) i = Some ((s + i)%nat, a)).
  { clear. induction l as [|b l IH]; intros s i N; [destruct i; discriminate|]. destruct i as [|i]; cbn in *; [injection N as <-; do 2 f_equal; lia|]. rewrite (IH (Datatypes.S s) i N). do 2 f_equal. lia. }
  apply G.
Qed.
Lemma nth_some_lt {A} (l : list A) i a : nth_error l i = Some a -> (i < length l)%nat.
Proof. intro E. apply nth_error_Some. congruence. Qed.
Lemma system_row ps al q g i pi : length q = length ps -> mat_vec (ainfl ps) (q ++ [g]) = rhs ps al -> nth_error ps i = Some pi ->
  sum (map2 Rmult q (row a_src ps i pi)) + g * sum (row a_vor ps i pi) = st pi * cos al - sin al * ct pi.
Proof.
  intros L E I. pose proof (nth_some_lt _ _ _ I) as B. apply (f_equal (fun l => nth_error l i)) in E. unfold mat_vec, ainfl, rhs in E. rewrite map_app, !nth_error_app1 in E.
  2:{ now rewrite map_length. } 2:{ now rewrite !map_length, combine_length, seq_length, Nat.min_id. }
  rewrite !map_map in E. rewrite (map_nth_error _ _ _ I), (map_nth_error _ _ _ (index_nth _ _ _ I)) in E. cbn [fst snd] in E. injection E as E. rewrite row_eq in E by (now rewrite row_length). exact E.
Qed.
Lemma sum_map2_plus : forall q a b, length a = length b -> sum (map2 Rmult q (map2 Rplus a b)) = sum (map2 Rmult q a) + sum (map2 Rmult q b).
Proof. induction q as [|x q IH]; intros a b L; [cbn; ring|]. destruct a as [|y a], b as [|z b]; try discriminate; [cbn; ring|]. cbn [map2 sum fold_right]. fold (sum (map2 Rmult q (map2 Rplus a b))) (sum (map2 Rmult q a)) (sum (map2 Rmult q b)). rewrite IH by (now injection L). ring. Qed.
Lemma map2_len {A B C} (f : A -> B -> C) : forall a b, length a = length b -> length (map2 f a b) = length a.
Proof. induction a as [|x a IH]; intros [|y b] L; try discriminate; cbn; [reflexivity|]. now rewrite IH by (now injection L). Qed.
Lemma system_kutta ps al q g : length q = length ps -> mat_vec (ainfl ps) (q ++ [g]) = rhs ps al ->
  let a := first_panel ps in let b := last_panel ps in
  (ct a * cos al + st a * sin al + (sum (map2 Rmult q (row t_src ps 0 a)) + g * sum (row t_vor ps 0 a))) +
  (ct b * cos al + st b * sin al + (sum (map2 Rmult q (row t_src ps (length ps - 1) b)) + g * sum (row t_vor ps (length ps - 1) b))) = 0.
Proof.
  intros L E a b. apply (f_equal (fun l => nth_error l (length ps))) in E. unfold mat_vec, ainfl, rhs in E. rewrite map_app, !nth_error_app2 in E.
  2:{ now rewrite map_length. } 2:{ now rewrite !map_length, combine_length, seq_length, Nat.min_id. }
  rewrite !map_length, combine_length, seq_length, Nat.min_id, Nat.sub_diag in E. cbn [nth_error map] in E. injection E as E. fold a b in E.
  rewrite row_eq in E. 2:{ rewrite map2_len; now rewrite !row_length. } rewrite sum_map2_plus in E by (now rewrite !row_length). lra.
Qed.
Lemma velocity_nth ps al q g i pi : nth_error ps i = Some pi ->
  nth_error (velocity ps al q g) i = Some (ct pi * cos al + st pi * sin al + (sum (map2 Rmult q (row t_src ps i pi)) + g * sum (row t_vor ps i pi))).
Proof.
  intro I. unfold velocity. rewrite (map_nth_error _ _ _ (index_nth _ _ _ I)). cbn [fst snd]. f_equal. pose proof PI_RGT_0 as PP.
  assert (A : forall js q, sum (map2 (fun qj e => qj / 2 / PI * e) q (map (fun jp : nat * panel => s_ij pi (snd jp) * beta (Nat.eqb i (fst jp)) pi (snd jp) - c_ij pi (snd jp) * lnr pi (snd jp)) js))
    = sum (map2 Rmult q (map (fun jp : nat * panel => t_src (Nat.eqb i (fst jp)) pi (snd jp)) js))).
  { induction js as [|j js IH]; intros [|x r]; try reflexivity. cbn [map map2]. cbn [sum fold_right]. f_equal; [unfold t_src; field; lra|apply IH]. }
  assert (B : forall js, sum (map (fun e => g / 2 / PI * e) (map (fun jp : nat * panel => s_ij pi (snd jp) * lnr pi (snd jp) + c_ij pi (snd jp) * beta (Nat.eqb i (fst jp)) pi (snd jp)) js))
    = g * sum (map (fun jp : nat * panel => t_vor (Nat.eqb i (fst jp)) pi (snd jp)) js)).
  { induction js as [|j js IH]; [cbn; ring|]. cbn [map sum fold_right]. fold (sum (map (fun jp : nat * panel => t_vor (Nat.eqb i (fst jp)) pi (snd jp)) js)). rewrite (Rmult_plus_distr_l g (t_vor (Nat.eqb i (fst j)) pi (snd j))). apply f_equal2; [unfold t_vor; cbn [fst snd]; field; lra|exact IH]. }
  unfold row. rewrite A, B. ring.
Qed.
(** ** Motions *)
Definition mp (k f : R) (d : pt) (p : panel) : panel := (moved k f d (fst p), moved k f d (snd p)).
Lemma panels_moved k f d ns : panels (map (moved k f d) ns) = map (mp k f d) (panels ns).
Proof.
  unfold panels. assert (T : tl (map (moved k f d) ns) = map (moved k f d) (tl ns)) by (now destruct ns). rewrite T. clear T. generalize (tl ns). induction ns as [|a ns IH]; intros [|b m]; cbn; try reflexivity. now rewrite IH.
Qed.
Lemma cs f : cos f * cos f + sin f * sin f = 1. Proof. pose proof (sin2_cos2 f) as E. unfold Rsqr in E. lra. Qed.
Lemma dist_moved k f d a b : 0 < k -> dist (moved k f d a) (moved k f d b) = k * dist a b.
Proof.
  intro K. unfold dist, moved. cbn [fst snd]. symmetry. rewrite <- (sqrt_Rsqr k) at 1 by lra. rewrite <- sqrt_mult_alt by apply Rle_0_sqr. symmetry. f_equal. unfold Rsqr.
  set (u := fst a - fst b). set (v := snd a - snd b). transitivity (k * k * ((u ^ 2 + v ^ 2) * (cos f * cos f + sin f * sin f))); [unfold u, v; ring|]. rewrite cs. ring.
Qed.
Lemma len_dist p : len p = dist (snd p) (fst p). Proof. reflexivity. Qed.
Lemma len_moved k f d p : 0 < k -> len (mp k f d p) = k * len p.
Proof. intro K. rewrite !len_dist. unfold mp. cbn [fst snd]. now apply dist_moved. Qed.
Lemma ct_moved k f d p : 0 < k -> proper p -> ct (mp k f d p) = cos f * ct p - sin f * st p.
Proof. intros K P. pose proof (len_pos p P). unfold ct, st. rewrite len_moved by exact K. unfold mp, moved. cbn [fst snd]. field. lra. Qed.
Lemma st_moved k f d p : 0 < k -> proper p -> st (mp k f d p) = sin f * ct p + cos f * st p.
Proof. intros K P. pose proof (len_pos p P). unfold ct, st. rewrite len_moved by exact K. unfold mp, moved. cbn [fst snd]. field. lra. Qed.
Lemma s_moved k f d p q : 0 < k -> proper p -> proper q -> s_ij (mp k f d p) (mp k f d q) = s_ij p q.
Proof. intros K P Q. unfold s_ij. rewrite !ct_moved, !st_moved by assumption. transitivity ((ct q * st p - st q * ct p) * (cos f * cos f + sin f * sin f)); [ring|]. rewrite cs. ring. Qed.
Lemma c_moved k f d p q : 0 < k -> proper p -> proper q -> c_ij (mp k f d p) (mp k f d q) = c_ij p q.
Proof. intros K P Q. unfold c_ij. rewrite !ct_moved, !st_moved by assumption. transitivity ((ct q * ct p + st q * st p) * (cos f * cos f + sin f * sin f)); [ring|]. rewrite cs. ring. Qed.
Lemma mid_moved k f d p : mid (mp k f d p) = moved k f d (mid p).
Proof. unfold mid, mp, moved. cbn [fst snd]. f_equal; field. Qed.
Lemma fits_dist e pi pj : fits e pi pj -> 0 < dist (mid pi) (fst pj) /\ 0 < dist (mid pi) (snd pj).
Proof.
  intros (P & Q & F). destruct e.
  - subst pj. rewrite mid_self. assert (D : dist (mid pi) (fst pi) = len pi / 2).
    { pose proof (len_pos pi P) as LP. pose proof (len_sq pi) as E. unfold dist, mid. cbn [fst snd]. transitivity (sqrt (Rsqr (len pi / 2))); [|apply sqrt_Rsqr; lra]. f_equal.
      transitivity ((len pi * len pi) / 4); [rewrite E; field|unfold Rsqr; field]. }
    rewrite D. pose proof (len_pos pi P). lra.
  - pose proof (len_pos pj Q). rewrite dist_start, dist_end by exact Q. pose proof (off_pos _ _ 0 Q F ltac:(lra)) as A. pose proof (off_pos _ _ (len pj) Q F ltac:(lra)) as B. rewrite Rminus_0_r in A. split; now apply sqrt_lt_R0.
Qed.
Lemma lnr_moved k f d e p q : 0 < k -> fits e p q -> lnr (mp k f d p) (mp k f d q) = lnr p q.
Proof. intros K F. destruct (fits_dist e p q F). unfold lnr. rewrite mid_moved. unfold mp. cbn [fst snd]. rewrite !dist_moved by exact K. f_equal. field. lra. Qed.
Lemma sgn_scale c x : 0 < c -> sgn (c * x) = sgn x.
Proof.
  intro C. unfold sgn. destruct (Rtotal_order x 0) as [N|[->|P]].
  - replace (Rltb 0 (c * x)) with false by (symmetry; apply Rltb_false; nra). replace (Rltb 0 x) with false by (symmetry; apply Rltb_false; lra).
    replace (Rltb (c * x) 0) with true by (symmetry; apply Rltb_true; nra). now replace (Rltb x 0) with true by (symmetry; now apply Rltb_true).
  - now rewrite Rmult_0_r.
  - replace (Rltb 0 (c * x)) with true by (symmetry; apply Rltb_true; nra). now replace (Rltb 0 x) with true by (symmetry; now apply Rltb_true).
Qed.
Lemma beta_moved k f d e p q : 0 < k -> fits e p q -> beta e (mp k f d p) (mp k f d q) = beta e p q.
Proof.
  intros K F. destruct e; [reflexivity|]. destruct (fits_dist _ p q F) as [A B]. unfold beta. rewrite mid_moved. unfold mp. cbn [fst snd]. unfold angle.
  assert (C : cross (moved k f d (mid p)) (moved k f d (fst q)) (moved k f d (snd q)) = k * k * cross (mid p) (fst q) (snd q)).
  { unfold cross, moved. cbn [fst snd]. set (x := mid p). set (a := fst q). set (b := snd q). transitivity (k * k * (((fst x - fst a) * (snd x - snd b) - (fst x - fst b) * (snd x - snd a)) * (cos f * cos f + sin f * sin f))); [ring|]. rewrite cs. ring. }
  assert (D : dot (moved k f d (mid p)) (moved k f d (fst q)) (moved k f d (snd q)) = k * k * dot (mid p) (fst q) (snd q)).
  { unfold dot, moved. cbn [fst snd]. set (x := mid p). set (a := fst q). set (b := snd q). transitivity (k * k * (((fst x - fst a) * (fst x - fst b) + (snd x - snd a) * (snd x - snd b)) * (cos f * cos f + sin f * sin f))); [ring|]. rewrite cs. ring. }
  rewrite C, sgn_scale by nra. f_equal. f_equal. unfold r_ratio. rewrite D, !dist_moved by exact K.
  replace (k * k * dot (mid p) (fst q) (snd q) / (k * dist (mid p) (fst q)) / (k * dist (mid p) (snd q))) with (dot (mid p) (fst q) (snd q) / dist (mid p) (fst q) / dist (mid p) (snd q)) by (field; lra). reflexivity.
Qed.
Lemma row_moved {A} (h : bool -> panel -> panel -> A) k f d ps i pi :
  (forall e q, fits e pi q -> h e (mp k f d pi) (mp k f d q) = h e pi q) -> sound ps -> nth_error ps i = Some pi ->
  row h (map (mp k f d) ps) i (mp k f d pi) = row h ps i pi.
Proof.
  intros H S I. unfold row. rewrite map_length.
  assert (C : combine (seq 0 (length ps)) (map (mp k f d) ps) = map (fun jp => (fst jp, mp k f d (snd jp))) (combine (seq 0 (length ps)) ps)).
  { generalize (seq 0 (length ps)) as s. clear. induction ps as [|a ps IH]; intros [|x s]; cbn; try reflexivity. now rewrite IH. }
  rewrite C, map_map. cbn [fst snd]. apply map_ext_in. intros jp J. apply H. now apply (fits_in ps).
Qed.
Lemma coef_moved k f d : 0 < k -> forall pi e q, fits e pi q ->
  a_src e (mp k f d pi) (mp k f d q) = a_src e pi q /\ a_vor e (mp k f d pi) (mp k f d q) = a_vor e pi q /\
  t_src e (mp k f d pi) (mp k f d q) = t_src e pi q /\ t_vor e (mp k f d pi) (mp k f d q) = t_vor e pi q.
Proof.
  intros K pi e q F. pose proof F as (P & Q & _). unfold a_src, a_vor, t_src, t_vor. rewrite s_moved, c_moved by assumption. rewrite (lnr_moved k f d e), beta_moved by assumption. auto.
Qed.
Lemma index_moved k f d (ps : list panel) : combine (seq 0 (length (map (mp k f d) ps))) (map (mp k f d) ps) = map (fun jp => (fst jp, mp k f d (snd jp))) (combine (seq 0 (length ps)) ps).
Proof. rewrite map_length. generalize (seq 0 (length ps)) as s. induction ps as [|a ps IH]; intros [|x s]; cbn; try reflexivity. now rewrite IH. Qed.
Lemma first_nth ps : ps <> [] -> nth_error ps 0 = Some (first_panel ps). Proof. destruct ps; [congruence|reflexivity]. Qed.
Lemma last_nth ps : ps <> [] -> nth_error ps (length ps - 1) = Some (last_panel ps).
Proof.
  intro N. destruct (exists_last N) as (r & x & ->). unfold last_panel. rewrite last_last, app_length. cbn. replace (length r + 1 - 1)%nat with (length r) by lia. now rewrite nth_error_app2, Nat.sub_diag by lia.
Qed.
Lemma first_moved k f d ps : ps <> [] -> first_panel (map (mp k f d) ps) = mp k f d (first_panel ps). Proof. destruct ps; [congruence|reflexivity]. Qed.
Lemma last_moved k f d ps : ps <> [] -> last_panel (map (mp k f d) ps) = mp k f d (last_panel ps).
Proof. intro N. destruct (exists_last N) as (r & x & ->). unfold last_panel. rewrite map_app. cbn [map]. now rewrite !last_last. Qed.
Lemma ainfl_moved k f d ps : 0 < k -> sound ps -> ps <> [] -> ainfl (map (mp k f d) ps) = ainfl ps.
Proof.
  intros K S N. unfold ainfl. rewrite first_moved, last_moved by exact N. rewrite (map_length (mp k f d) ps) at 2 3. rewrite index_moved, map_map. f_equal.
  - apply map_ext_in. intros ip I. apply in_index in I. cbn [fst snd]. f_equal; [|f_equal; f_equal]; apply row_moved; auto; intros e q F; apply (coef_moved k f d K _ _ _ F).
  - pose proof (first_nth ps N) as A. pose proof (last_nth ps N) as B.
    assert (T1 : forall pi e q, fits e pi q -> t_src e (mp k f d pi) (mp k f d q) = t_src e pi q) by (intros pi e q F; apply (coef_moved k f d K _ _ _ F)).
    assert (T2 : forall pi e q, fits e pi q -> t_vor e (mp k f d pi) (mp k f d q) = t_vor e pi q) by (intros pi e q F; apply (coef_moved k f d K _ _ _ F)).
    rewrite (row_moved t_src k f d ps 0 (first_panel ps)), (row_moved t_src k f d ps (length ps - 1) (last_panel ps)), (row_moved t_vor k f d ps 0 (first_panel ps)), (row_moved t_vor k f d ps (length ps - 1) (last_panel ps)); auto.
Qed.
Lemma turn_t k f d al p : 0 < k -> proper p -> ct (mp k f d p) * cos (al + f) + st (mp k f d p) * sin (al + f) = ct p * cos al + st p * sin al.
Proof.
  intros K P. rewrite ct_moved, st_moved, cos_plus, sin_plus by assumption.
  transitivity ((ct p * cos al + st p * sin al) * (cos f * cos f + sin f * sin f)); [ring|]. rewrite cs. ring.
Qed.
Lemma turn_n k f d al p : 0 < k -> proper p -> st (mp k f d p) * cos (al + f) - sin (al + f) * ct (mp k f d p) = st p * cos al - sin al * ct p.
Proof.
  intros K P. rewrite ct_moved, st_moved, cos_plus, sin_plus by assumption.
  transitivity ((st p * cos al - sin al * ct p) * (cos f * cos f + sin f * sin f)); [ring|]. rewrite cs. ring.
Qed.
Lemma rhs_moved k f d al ps : 0 < k -> sound ps -> ps <> [] -> rhs (map (mp k f d) ps) (al + f) = rhs ps al.
Proof.
  intros K [S _] N. unfold rhs. rewrite first_moved, last_moved by exact N. rewrite map_map. f_equal.
  - apply map_ext_in. intros p I. apply turn_n; auto.
  - rewrite !turn_t; auto. + apply S, (nth_error_In _ _ (last_nth ps N)). + apply S, (nth_error_In _ _ (first_nth ps N)).
Qed.
Lemma velocity_moved k f d al q g ps : 0 < k -> sound ps -> velocity (map (mp k f d) ps) (al + f) q g = velocity ps al q g.
Proof.
  intros K S. unfold velocity. rewrite index_moved, map_map. apply map_ext_in. intros ip I. apply in_index in I. cbn [fst snd]. pose proof (proj1 S _ (nth_error_In _ _ I)) as P.
  rewrite turn_t by assumption. f_equal; [f_equal|]; f_equal; f_equal; apply row_moved; auto; intros e r F; pose proof F as (_ & Q & _); rewrite s_moved, c_moved, (lnr_moved k f d e), beta_moved by assumption; reflexivity.
Qed.
