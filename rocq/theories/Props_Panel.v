(** * Properties of the airfoil panel method *)
From Coq Require Import Reals List Bool Arith Lia Lra Psatz.
From Verif Require Import PyBase M_Opt P_Opt M_Drag M_Panel S_Panel P_Panel.
Import ListNotations.
Local Open Scope R_scope.

(** ** C184 the flow over an airfoil *)
Theorem C184_panel p : proper p -> vdot (tangent p) (tangent p) = 1 /\ vdot (normal p) (normal p) = 1 /\ vdot (tangent p) (normal p) = 0 /\
  along p 0 = fst p /\ along p (len p) = snd p /\ along p (len p / 2) = mid p /\ 0 < len p /\ len p = dist (snd p) (fst p).
Proof.
  intro P. pose proof (unit p P) as U. pose proof (len_pos p P). unfold vdot, tangent, normal. cbn [fst snd]. repeat split; try lra.
  - apply start_at. - now apply end_at. - unfold along, mid, ct, st. destruct p as [[a b] [c d]]. cbn [fst snd]. f_equal; field; lra.
Qed.
Theorem C184_panels ns : length (panels ns) = (length ns - 1)%nat /\ forall i a b, nth_error ns i = Some a -> nth_error ns (S i) = Some b -> nth_error (panels ns) i = Some (a, b).
Proof.
  unfold panels. split. { destruct ns; [reflexivity|]. cbn [tl]. etransitivity; [apply combine_length|]. cbn [length]. lia. }
  destruct ns as [|x ns]; [intros [|i]; discriminate|]. cbn [tl]. revert x. induction ns as [|y ns IH]; intros x i a b A B; [destruct i as [|[|i]]; discriminate|].
  destruct i as [|i]; cbn in *; [injection A as ->; injection B as ->; reflexivity|]. now apply IH.
Qed.
(** the logarithm and the angle of the code are the integrals over the panel *)
Theorem C184_sheets x p : proper p -> off x p ->
  let l := ln (dist x (snd p) / dist x (fst p)) in let b := angle x (fst p) (snd p) in
  vdot (source_sheet x p) (tangent p) = - l / (2 * PI) /\ vdot (source_sheet x p) (normal p) = b / (2 * PI) /\
  vdot (vortex_sheet x p) (tangent p) = b / (2 * PI) /\ vdot (vortex_sheet x p) (normal p) = l / (2 * PI).
Proof.
  intros P O l b. rewrite source_sheet_is, vortex_sheet_is by assumption. fold l b. unfold vdot, tangent, normal. cbn [fst snd]. pose proof (unit p P) as U. pose proof PI_RGT_0.
  set (c := ct p) in *. set (s := st p) in *. repeat split.
  - transitivity (- l / (2 * PI) * (c * c + s * s)); [field; lra|]. rewrite U. ring.
  - transitivity (b / (2 * PI) * (c * c + s * s)); [field; lra|]. rewrite U. ring.
  - transitivity (b / (2 * PI) * (c * c + s * s)); [field; lra|]. rewrite U. ring.
  - transitivity (l / (2 * PI) * (c * c + s * s)); [field; lra|]. rewrite U. ring.
Qed.
(** no flow passes through any panel's middle, and the speed reported there is the whole of the flow's *)
Theorem C184_no_flow_through ns al vt q g : hess_smith ns al vt q g -> sound (panels ns) ->
  length vt = length (panels ns) /\
  forall i p, nth_error (panels ns) i = Some p -> let v := flow (panels ns) al q g i p in
    vdot v (normal p) = 0 /\ nth_error vt i = Some (vdot v (tangent p)) /\ fst v = vdot v (tangent p) * ct p /\ snd v = vdot v (tangent p) * st p.
Proof.
  intros [q' g' L E] S. split. { unfold velocity. now rewrite map_length, combine_length, seq_length, Nat.min_id. }
  intros i p I v. assert (N : vdot v (normal p) = 0). { unfold v. rewrite flow_normal by assumption. rewrite (system_row _ _ _ _ i p L E I). ring. }
  split; [exact N|]. split. { unfold v. rewrite flow_tangent by assumption. now apply velocity_nth. }
  pose proof (unit p (proj1 S _ (nth_error_In _ _ I))) as U. unfold vdot, normal, tangent in *. cbn [fst snd] in *.
  split.
  - transitivity (fst v * (ct p * ct p + st p * st p)); [rewrite U; ring|]. transitivity ((fst v * ct p + snd v * st p) * ct p - st p * (fst v * - st p + snd v * ct p)); [ring|]. rewrite N. ring.
  - transitivity (snd v * (ct p * ct p + st p * st p)); [rewrite U; ring|]. transitivity ((fst v * ct p + snd v * st p) * st p + ct p * (fst v * - st p + snd v * ct p)); [ring|]. rewrite N. ring.
Qed.
(** the flow leaves the two panels at the trailing edge equally fast *)
Theorem C184_kutta ns al vt q g : hess_smith ns al vt q g -> panels ns <> [] ->
  exists a b, nth_error vt 0 = Some a /\ nth_error vt (length vt - 1) = Some b /\ a + b = 0.
Proof.
  intros [q' g' L E] N. set (ps := panels ns) in *. assert (LV : length (velocity ps al q' g') = length ps) by (unfold velocity; now rewrite map_length, combine_length, seq_length, Nat.min_id).
  rewrite LV. do 2 eexists. split; [apply (velocity_nth _ _ _ _ 0 _ (first_nth ps N))|]. split; [apply (velocity_nth _ _ _ _ _ _ (last_nth ps N))|]. apply (system_kutta ps al q' g' L E).
Qed.
(** turning airfoil and stream together, scaling and moving change neither the strengths nor the speeds *)
Theorem C184_motion ns al vt q g k f d : 0 < k -> sound (panels ns) -> panels ns <> [] ->
  (hess_smith (map (moved k f d) ns) (al + f) vt q g <-> hess_smith ns al vt q g).
Proof.
  intros K S N. assert (PM : panels (map (moved k f d) ns) = map (mp k f d) (panels ns)) by apply panels_moved.
  assert (V : forall q g, velocity (panels (map (moved k f d) ns)) (al + f) q g = velocity (panels ns) al q g) by (intros; rewrite PM; now apply velocity_moved).
  assert (A : ainfl (panels (map (moved k f d) ns)) = ainfl (panels ns)) by (rewrite PM; now apply ainfl_moved).
  assert (B : rhs (panels (map (moved k f d) ns)) (al + f) = rhs (panels ns) al) by (rewrite PM; now apply rhs_moved).
  assert (LL : length (panels (map (moved k f d) ns)) = length (panels ns)) by (rewrite PM; apply map_length).
  split; intros [q' g' L E].
  - rewrite V. constructor; [now rewrite <- LL|]. now rewrite <- A, <- B.
  - rewrite <- V. constructor; [now rewrite LL|]. now rewrite A, B.
Qed.
Definition triangle : list pt := [(2, 0); (0, 0); (1, 1); (2, 0)].
Example C184_sound : sound (panels triangle).
Proof.
  unfold triangle, panels. cbn [tl combine]. split.
  - intros p [<-|[<-|[<-|[]]]] E; injection E; intros; lra.
  - assert (O : forall a b x, proper (a, b) -> ~ (exists u, 0 <= u <= 1 /\ fst x = fst a + u * (fst b - fst a) /\ snd x = snd a + u * (snd b - snd a)) -> off x (a, b)).
    { intros a b x P H t T E. apply H. pose proof (len_pos (a, b) P) as L. exists (t / len (a, b)). split.
      - split; [apply Rmult_le_pos; [lra|]; apply Rlt_le; now apply Rinv_0_lt_compat|]. apply Rmult_le_reg_r with (len (a, b)); [lra|]. unfold Rdiv. rewrite Rmult_assoc, Rinv_l by lra. lra.
      - rewrite <- E. unfold along, ct, st. cbn [fst snd]. split; field; lra. }
    assert (PR : forall a b : pt, fst a <> fst b -> proper (a, b)) by (intros a b N E; cbn in E; congruence).
    intros [|[|[|i]]] [|[|[|j]]] p q A B N; cbn in A, B; try (now destruct N); try (destruct i; discriminate); try (destruct j; discriminate); injection A as <-; injection B as <-;
      apply O; try (apply PR; cbn; lra); unfold mid; cbn [fst snd]; intros (u & U & X & Y); lra.
Qed.
(** a flat plate is solved *)
Example C184_plate al : hess_smith [(0, 0); (1, 0)] al [0] [-2 * sin al] (-2 * cos al).
Proof.
  set (p := ((0, 0), (1, 0)) : panel). assert (L1 : len p = 1). { unfold len, p. cbn [fst snd]. replace ((1 - 0) ^ 2 + (0 - 0) ^ 2) with (1 ^ 2) by ring. rewrite <- Rsqr_pow2. apply sqrt_Rsqr. lra. }
  assert (C : ct p = 1). { unfold ct. rewrite L1. cbn. field. } assert (S : st p = 0). { unfold st. rewrite L1. cbn. field. }
  assert (LN : lnr p p = 0). { apply lnr_self. intro E. apply (f_equal fst) in E. cbn in E. lra. }
  pose proof PI_RGT_0 as PP.
  assert (V : velocity (panels [(0, 0); (1, 0)]) al [-2 * sin al] (-2 * cos al) = [0]).
  { unfold panels. cbn [tl combine].  change ((0, 0), (1, 0)) with p. clearbody p. unfold velocity, row. cbn [length seq combine map fst snd Nat.eqb map2]. unfold sum. cbn [fold_right]. unfold s_ij, c_ij, beta. rewrite C, S, LN. f_equal. field. lra. }
  rewrite <- V. constructor; [reflexivity|]. unfold panels. cbn [tl combine]. change ((0, 0), (1, 0)) with p. clear V. clearbody p. unfold mat_vec, ainfl, rhs, first_panel, last_panel, row, sum.
  cbn [length seq combine map fst snd Nat.eqb map2 app hd last Nat.sub fold_right]. unfold a_src, a_vor, t_src, t_vor, s_ij, c_ij, beta. rewrite C, S, LN. f_equal; [field; lra|]. f_equal. field. lra.
Qed.

(** ** C185 coefficients *)
Lemma len_st p : len p * st p = snd (snd p) - snd (fst p) /\ len p * ct p = fst (snd p) - fst (fst p).
Proof.
  unfold st, ct. destruct (Req_dec (len p) 0) as [Z|N]; [|split; field; exact N]. rewrite Z, !Rmult_0_l. pose proof (len_sq p) as E. rewrite Z in E.
  pose proof (pow2_ge_0 (fst (snd p) - fst (fst p))). pose proof (pow2_ge_0 (snd (snd p) - snd (fst p))).
  assert (A : (fst (snd p) - fst (fst p)) ^ 2 = 0) by lra. assert (B : (snd (snd p) - snd (fst p)) ^ 2 = 0) by lra.
  split; symmetry; match goal with |- ?u = 0 => destruct (Req_dec u 0) as [|N]; [assumption|]; exfalso; now apply (pow_nonzero u 2 N) end.
Qed.
(** lift and drag are the components of the pressure force across and along the stream, the moment is the force's about the quarter chord *)
Theorem C185_force ns cp al : let '(cl, cd, cm) := aero_coeff ns cp al in let f := force (segs ns cp) in
  cl = vdot f (- sin al, cos al) /\ cd = vdot f (cos al, sin al) /\ cm = moment (segs ns cp) /\ cl ^ 2 + cd ^ 2 = vdot f f.
Proof.
  unfold aero_coeff. cbv zeta.
  assert (N : sum (map dcn (segs ns cp)) = snd (force (segs ns cp))).
  { unfold force. cbn [snd]. f_equal. apply map_ext. intro s. destruct (len_st (fst s)) as [_ C]. unfold dcn, normal. cbn [snd]. rewrite <- C. ring. }
  assert (A : sum (map dca (segs ns cp)) = fst (force (segs ns cp))).
  { unfold force. cbn [fst]. f_equal. apply map_ext. intro s. destruct (len_st (fst s)) as [C _]. unfold dca, normal. cbn [fst]. rewrite <- C. ring. }
  rewrite N, A. unfold vdot. cbn [fst snd]. split; [ring|]. split; [ring|]. split.
  - unfold moment. f_equal. apply map_ext. intro s. destruct (len_st (fst s)) as [C D]. unfold dcn, dca, xa, ya, normal, mid. cbn [fst snd]. rewrite <- C, <- D. field.
  - pose proof (sin2_cos2 al) as E. rewrite !Rsqr_pow2 in E. set (x := fst (force _)). set (y := snd (force _)). transitivity ((x ^ 2 + y ^ 2) * (sin al ^ 2 + cos al ^ 2)); [ring|]. rewrite E. ring.
Qed.
(** equal pressure all round leaves the force of the gap between the ends; none on a closed outline *)
Lemma uniform_sums c : forall ns a, let l := segs (a :: ns) (repeat c (length (a :: ns))) in let b := last ns a in
  sum (map dcn l) = - c * (fst b - fst a) /\ sum (map dca l) = c * (snd b - snd a) /\
  sum (map (fun s => - dcn s * xa s + dca s * ya s) l) = c * ((fst b ^ 2 - fst a ^ 2) / 2 - (fst b - fst a) / 4 + (snd b ^ 2 - snd a ^ 2) / 2).
Proof.
  induction ns as [|d ns IH]; intros a l b.
  - unfold l, b, segs, panels. cbn. repeat split; field.
  - specialize (IH d). cbv zeta in IH. assert (E : l = ((a, d), c) :: segs (d :: ns) (repeat c (length (d :: ns)))). { unfold l, segs, panels. cbn [tl combine length repeat removelast]. reflexivity. }
    assert (B : b = last ns d). { unfold b. cbn [last]. destruct ns; [reflexivity|]. clear. revert p. induction ns; intro; cbn in *; auto. }
    rewrite E, B. cbn [map]. destruct IH as (I1 & I2 & I3). unfold sum in *. cbn [fold_right]. rewrite I1, I2, I3. unfold dcn, dca, xa, ya. cbn [fst snd]. repeat split; field.
Qed.
Theorem C185_uniform ns c al a b : hd_error ns = Some a -> last ns a = b ->
  aero_coeff ns (repeat c (length ns)) al =
    (- c * ((fst b - fst a) * cos al + (snd b - snd a) * sin al), - c * ((fst b - fst a) * sin al - (snd b - snd a) * cos al),
     c * ((fst b ^ 2 - fst a ^ 2) / 2 - (fst b - fst a) / 4 + (snd b ^ 2 - snd a ^ 2) / 2)) /\
  (a = b -> aero_coeff ns (repeat c (length ns)) al = (0, 0, 0)).
Proof.
  intros H B. destruct ns as [|x ns]; [discriminate|]. injection H as ->. assert (B' : last ns a = b). { rewrite <- B. cbn [last]. destruct ns; reflexivity. }
  destruct (uniform_sums c ns a) as (I1 & I2 & I3). rewrite B' in I1, I2, I3. unfold aero_coeff. cbv zeta. rewrite I1, I2, I3. split.
  - apply f_equal2; [apply f_equal2; ring|ring].
  - intros ->. apply f_equal2; [apply f_equal2; ring|field].
Qed.
(** the coefficients are linear in the pressures *)
Theorem C185_linear ns cp cp' al k : length cp = length cp' ->
  let '(l, d, m) := aero_coeff ns cp al in let '(l', d', m') := aero_coeff ns cp' al in
  aero_coeff ns (map2 (fun x y => x + k * y) cp cp') al = (l + k * l', d + k * d', m + k * m').
Proof.
  intro L. unfold aero_coeff. cbv zeta.
  assert (G : forall (h : panel * R -> R) ps c c', (forall p x y, h (p, x + k * y) = h (p, x) + k * h (p, y)) -> length c = length c' ->
    sum (map h (combine ps (removelast (map2 (fun x y => x + k * y) c c')))) = sum (map h (combine ps (removelast c))) + k * sum (map h (combine ps (removelast c')))).
  { clear. intros h ps c c' H. revert ps c'. induction c as [|x c IH]; intros ps [|y c'] L; try discriminate; [destruct ps; cbn; ring|].
    destruct c as [|x2 c], c' as [|y2 c']; try discriminate; [destruct ps; cbn; ring|]. destruct ps as [|p ps]; [cbn; ring|].
    assert (R1 : forall (a b : R) r, removelast (a :: b :: r) = a :: removelast (b :: r)) by reflexivity.
    cbn [map2]. rewrite !R1. cbn [combine map]. unfold sum in *. cbn [fold_right]. injection L as L. specialize (IH ps (y2 :: c') (f_equal S L)). cbn [map2] in IH. rewrite IH, H. ring. }
  unfold segs. rewrite !G by (auto; intros; unfold dcn, dca, xa, ya; cbn [fst snd]; ring). apply f_equal2; [apply f_equal2; ring|ring].
Qed.
(** finding: a symmetric airfoil under symmetric pressure at no incidence is given lift, since each segment takes the pressure of its first point *)
Theorem C185_symmetry_refuted a b p0 p1 : p0 <> p1 ->
  let ns := [(1, - a); (0, - b); (0, b); (1, a)] in rev (map (fun p => (fst p, - snd p)) ns) = ns /\ rev [p0; p1; p1; p0] = [p0; p1; p1; p0] /\
  exists cl cd cm, aero_coeff ns [p0; p1; p1; p0] 0 = (cl, cd, cm) /\ cl = p0 - p1 /\ cl <> 0.
Proof.
  intros N ns. split. { unfold ns. cbn. now rewrite !Ropp_involutive. } split; [reflexivity|]. do 3 eexists. split; [reflexivity|].
  unfold segs, panels, sum, dcn, dca, ns. cbn [tl combine removelast map fold_right fst snd]. rewrite cos_0, sin_0.
  match goal with |- ?u = _ /\ _ => assert (E : u = p0 - p1) by ring; rewrite E end. split; [reflexivity|lra].
Qed.
(** finding: the drag takes the momentum thickness of the last panel, on the upper side; the lower side has no say *)
Theorem C185_drag_one_sided low low' up h u : up <> [] -> drag (low ++ up) h u = drag (low' ++ up) h u.
Proof. intro N. unfold drag. destruct (exists_last N) as (r & x & ->). now rewrite !app_assoc, !last_last. Qed.
Theorem C185_drag low t h u : 0 < u -> 0 <= t -> drag (low ++ [t]) h u = 2 * t * Rpower u ((5 + h) / 2) /\ 0 <= drag (low ++ [t]) h u.
Proof.
  intros U T. unfold drag, pw. rewrite last_last. replace (Rltb 0 u) with true by (symmetry; now apply Rltb_true). split; [reflexivity|]. apply Rmult_le_pos; [lra|]. apply Rlt_le, exp_pos.
Qed.
Example C185_ex : aero_coeff [(1, 0); (0, 0); (1, 0)] [1; -1; 7] 0 = (2, 0, - (1 / 2)).
Proof. unfold aero_coeff, segs, panels, sum, dcn, dca, xa, ya. cbn [tl combine removelast map fold_right fst snd]. rewrite cos_0, sin_0. apply f_equal2; [apply f_equal2; field|field]. Qed.

(** ** C186 boundary layer closures *)
(** in laminar flow the shape factor falls and the wall shear rises as the flow is accelerated more *)
Theorem C186_laminar_shape x y : - 14 / 100 < x -> x < y -> y <= 35 / 100 -> lam_H y < lam_H x /\ lam_H_used x = lam_H x /\ 1 < lam_H y.
Proof.
  intros X XY Y. unfold lam_H_used, lam_H.
  assert (Q : forall u, 0 < u <= 35 / 100 -> 1 < 261 / 100 - 375 / 100 * u + 524 / 100 * u ^ 2 < 261 / 100) by (intros; nra).
  assert (F : forall u, - 14 / 100 < u <= 0 -> 261 / 100 < 731 / 10000 / (14 / 100 + u) + 2088 / 1000).
  { intros u U. assert (5221 / 10000 < 731 / 10000 / (14 / 100 + u)); [|lra]. apply Rmult_lt_reg_r with (14 / 100 + u); [lra|]. replace (731 / 10000 / (14 / 100 + u) * (14 / 100 + u)) with (731 / 10000) by (field; lra). lra. }
  destruct (Rltb 0 x) eqn:E1; [apply Rltb_true in E1|apply Rltb_false in E1]; (destruct (Rltb 0 y) eqn:E2; [apply Rltb_true in E2|apply Rltb_false in E2]); try lra.
  - pose proof (Q x ltac:(lra)). pose proof (Q y ltac:(lra)). split; [nra|]. split; [|lra]. destruct (Rltb _ 0) eqn:E; [apply Rltb_true in E; lra|reflexivity].
  - pose proof (F x ltac:(lra)). pose proof (Q y ltac:(lra)). split; [lra|]. split; [|lra]. destruct (Rltb _ 0) eqn:E; [apply Rltb_true in E; lra|reflexivity].
  - pose proof (F x ltac:(lra)). pose proof (F y ltac:(lra)). split.
    + apply Rplus_lt_compat_r. unfold Rdiv. apply Rmult_lt_compat_l; [lra|]. apply Rinv_lt_contravar; [|lra]. apply Rmult_lt_0_compat; lra.
    + split; [|lra]. destruct (Rltb _ 0) eqn:E; [apply Rltb_true in E; lra|reflexivity].
Qed.
Theorem C186_laminar_shear x y : - 107 / 1000 < x -> x < y -> y <= 4 / 10 -> lam_l x < lam_l y.
Proof.
  intros X XY Y. unfold lam_l.
  assert (Q : forall u, 0 < u <= 4 / 10 -> 22 / 100 < 22 / 100 + 157 / 100 * u - 18 / 10 * u ^ 2) by (intros; nra).
  assert (F : forall u, - 107 / 1000 < u -> 18 / 1000 * u / (107 / 1000 + u) = 18 / 1000 - 18 / 1000 * (107 / 1000) * / (107 / 1000 + u)) by (intros; field; lra).
  assert (G : forall u v, - 107 / 1000 < u -> u <= v -> / (107 / 1000 + v) <= / (107 / 1000 + u)) by (intros; apply Rinv_le_contravar; lra).
  destruct (Rltb 0 x) eqn:E1; [apply Rltb_true in E1|apply Rltb_false in E1]; (destruct (Rltb 0 y) eqn:E2; [apply Rltb_true in E2|apply Rltb_false in E2]); try lra.
  - nra.
  - pose proof (Q y ltac:(lra)). assert (18 / 1000 * x / (107 / 1000 + x) <= 0). { rewrite F by lra. pose proof (G x 0 X E1). assert (/ (107 / 1000 + 0) = 1000 / 107) by field. lra. } lra.
  - rewrite !F by lra. pose proof (G x y X ltac:(lra)). lra.
Qed.
(** finding: where the laminar layer separates the wall shear turns negative; the friction reported does not *)
Theorem C186_separation_refuted re : 0 < re -> lam_l (- 1 / 10) < 0 /\ lam_cf (- 1 / 10) re = - (2 * lam_l (- 1 / 10) / re) /\ 0 < lam_cf (- 1 / 10) re.
Proof.
  intro P. assert (N : lam_l (- 1 / 10) < 0). { unfold lam_l. replace (Rltb 0 (- 1 / 10)) with false by (symmetry; apply Rltb_false; lra). lra. }
  split; [exact N|]. assert (Q : 2 * lam_l (- 1 / 10) / re < 0). { assert (0 < / re) by now apply Rinv_0_lt_compat. unfold Rdiv. nra. }
  unfold lam_cf. rewrite Rabs_left by exact Q. split; [reflexivity|lra].
Qed.
Lemma Rpower_neg_lt x y e : 0 < x -> x < y -> e < 0 -> Rpower y e < Rpower x e.
Proof. intros X XY E. unfold Rpower. apply exp_increasing. pose proof (ln_increasing x y X XY). nra. Qed.
(** turbulent closures: each piece falls, and the friction falls with the Reynolds number and with the shape factor *)
Theorem C186_turbulent h h' : h < h' -> (11 / 10 < h /\ h' <= 16 / 10 \/ 16 / 10 < h -> turb_H1 h' < turb_H1 h) /\ (11 / 10 < h -> 33 / 10 < turb_H1 h) /\
  (33 / 10 < h /\ h' <= 53 / 10 \/ 53 / 10 < h -> turb_H h' < turb_H h) /\ (33 / 10 < h -> 6778 / 10000 < turb_H h) /\ (53 / 10 < h -> 11 / 10 < turb_H h) /\
  forall re re', 0 < re -> re < re' -> 0 < turb_cf re h' < turb_cf re h /\ 0 < turb_cf re' h < turb_cf re h.
Proof.
  intro L. split; [|split; [|split; [|split; [|split]]]].
  - unfold turb_H1. intros [[A B]|A].
    + replace (Rltb (16 / 10) h') with false by (symmetry; apply Rltb_false; lra). replace (Rltb (16 / 10) h) with false by (symmetry; apply Rltb_false; lra). pose proof (Rpower_neg_lt (h - 11 / 10) (h' - 11 / 10) (- 1287 / 1000) ltac:(lra) ltac:(lra) ltac:(lra)). lra.
    + replace (Rltb (16 / 10) h') with true by (symmetry; apply Rltb_true; lra). replace (Rltb (16 / 10) h) with true by (symmetry; apply Rltb_true; lra). pose proof (Rpower_neg_lt (h - 6778 / 10000) (h' - 6778 / 10000) (- 3064 / 1000) ltac:(lra) ltac:(lra) ltac:(lra)). lra.
  - intro A. unfold turb_H1. destruct (Rltb _ h); match goal with |- context [ Rpower ?x ?y ] => assert (0 < Rpower x y) by apply exp_pos end; lra.
  - unfold turb_H. intros [[A B]|A].
    + replace (Rltb (53 / 10) h') with false by (symmetry; apply Rltb_false; lra). replace (Rltb (53 / 10) h) with false by (symmetry; apply Rltb_false; lra). replace (Rltb h' (33 / 10)) with false by (symmetry; apply Rltb_false; lra). replace (Rltb h (33 / 10)) with false by (symmetry; apply Rltb_false; lra).
      pose proof (Rpower_neg_lt (h - 33 / 10) (h' - 33 / 10) (- 326 / 1000) ltac:(lra) ltac:(lra) ltac:(lra)). lra.
    + replace (Rltb (53 / 10) h') with true by (symmetry; apply Rltb_true; lra). replace (Rltb (53 / 10) h) with true by (symmetry; apply Rltb_true; lra). pose proof (Rpower_neg_lt (h - 33 / 10) (h' - 33 / 10) (- 777 / 1000) ltac:(lra) ltac:(lra) ltac:(lra)). lra.
  - intro A. unfold turb_H. replace (Rltb h (33 / 10)) with false by (symmetry; apply Rltb_false; lra). destruct (Rltb _ h); match goal with |- context [ Rpower ?x ?y ] => assert (0 < Rpower x y) by apply exp_pos end; lra.
  - intro A. unfold turb_H. replace (Rltb (53 / 10) h) with true by (symmetry; now apply Rltb_true). match goal with |- context [ Rpower ?x ?y ] => assert (0 < Rpower x y) by apply exp_pos end; lra.
  - intros re re' P Q. unfold turb_cf. destruct (Req_EM_T re 0); [lra|]. destruct (Req_EM_T re' 0); [lra|].
    assert (E : Rpower 10 (- 678 / 1000 * h') < Rpower 10 (- 678 / 1000 * h)) by (apply Rpower_lt; lra). assert (0 < Rpower 10 (- 678 / 1000 * h')) by apply exp_pos.
    pose proof (Rpower_neg_lt re re' (- 268 / 1000) P Q ltac:(lra)). assert (0 < Rpower re' (- 268 / 1000)) by apply exp_pos. set (a := Rpower 10 _) in *. set (b := Rpower 10 (- 678 / 1000 * h)) in *. set (c := Rpower re _) in *. set (d := Rpower re' _) in *.
    repeat split; try (apply Rmult_lt_0_compat; lra); [apply Rmult_lt_compat_r|apply Rmult_lt_compat_l]; lra.
Qed.
(** finding: just above 3.3 the shape factor exceeds every bound, below it is 3 *)
Theorem C186_shape_jump_refuted m : exists h1, 33 / 10 < h1 < 53 / 10 /\ m < turb_H h1 /\ forall h, h < 33 / 10 -> turb_H h = 3.
Proof.
  set (b := Rmax m 2). exists (33 / 10 + Rpower b (- (1000 / 326))). assert (B : 2 <= b /\ m <= b) by (unfold b; split; [apply Rmax_r|apply Rmax_l]).
  assert (P : 0 < Rpower b (- (1000 / 326)) < 1). { split; [apply exp_pos|]. rewrite <- (Rpower_O b) by lra. apply Rpower_lt; lra. }
  split; [lra|]. split.
  - unfold turb_H. replace (Rltb (53 / 10) _) with false by (symmetry; apply Rltb_false; lra). replace (Rltb _ (33 / 10)) with false by (symmetry; apply Rltb_false; lra).
    replace (33 / 10 + Rpower b (- (1000 / 326)) - 33 / 10) with (Rpower b (- (1000 / 326))) by ring. rewrite Rpower_mult. replace (- (1000 / 326) * (- 326 / 1000)) with 1 by field. rewrite Rpower_1 by lra. lra.
  - intros h H. unfold turb_H. replace (Rltb (53 / 10) h) with false by (symmetry; apply Rltb_false; lra). now replace (Rltb h (33 / 10)) with true by (symmetry; now apply Rltb_true).
Qed.
(** smoothing keeps the length and the first entry; each entry stays or takes its predecessor's old value; it does nothing unless two entries jump *)
Theorem C186_smoothing tol l : length (unjump tol l) = length l /\ hd_error (unjump tol l) = hd_error l /\
  (forall i a b, nth_error l i = Some a -> nth_error l (S i) = Some b -> nth_error (unjump tol l) (S i) = Some b \/ (tol < Rabs ((b - a) / a) /\ nth_error (unjump tol l) (S i) = Some a)) /\
  ((forall i a b j c d, nth_error l i = Some a -> nth_error l (S i) = Some b -> nth_error l j = Some c -> nth_error l (S j) = Some d -> tol < Rabs ((b - a) / a) -> tol < Rabs ((d - c) / c) -> i = j) -> unjump tol l = l).
Proof.
  destruct l as [|x l]; [cbn; repeat split; auto; intros [|i]; discriminate|]. set (pr := combine (x :: l) (tl (x :: l))).
  assert (LP : length pr = length l). { unfold pr. cbn [tl]. rewrite combine_length. cbn [length]. lia. }
  assert (NP : forall i a b, nth_error (x :: l) i = Some a -> nth_error (x :: l) (S i) = Some b -> nth_error pr i = Some (a, b)).
  { unfold pr. cbn [tl]. clear. revert x. induction l as [|y l IH]; intros x i a b A B; [destruct i as [|[|i]]; discriminate|]. destruct i as [|i]; cbn in *; [congruence|]. now apply IH. }
  unfold unjump. fold pr. destruct (2 <=? _)%nat eqn:E.
  - split; [cbn [length]; now rewrite map_length, LP|]. split; [reflexivity|]. split.
    + intros i a b A B. cbn [nth_error]. rewrite (map_nth_error _ _ _ (NP i a b A B)). cbn [fst snd]. unfold jumps. destruct (Rltb tol _) eqn:J; [right; apply Rltb_true in J; auto|now left].
    + intro H. exfalso. apply Nat.leb_le in E.
      assert (IP : forall i ab, nth_error pr i = Some ab -> nth_error (x :: l) i = Some (fst ab) /\ nth_error (x :: l) (S i) = Some (snd ab)).
      { unfold pr. cbn [tl]. clear. revert x. induction l as [|y l IH]; intros x i ab A; [destruct i; discriminate|]. destruct i as [|i]; cbn in *; [injection A as <-; auto|]. now apply IH. }
      assert (G : forall l2 : list (R * R), (2 <= length (filter (fun ab => jumps tol (fst ab) (snd ab)) l2))%nat -> exists i j ab cd, i <> j /\ nth_error l2 i = Some ab /\ nth_error l2 j = Some cd /\ jumps tol (fst ab) (snd ab) = true /\ jumps tol (fst cd) (snd cd) = true).
      { clear. induction l2 as [|p l2 IH]; cbn [filter length]; [lia|]. destruct (jumps tol (fst p) (snd p)) eqn:J.
        - cbn [length]. intro L. destruct (filter _ l2) as [|c r] eqn:F; [cbn in L; lia|]. assert (I : In c (filter (fun ab => jumps tol (fst ab) (snd ab)) l2)) by (rewrite F; now left). apply filter_In in I. destruct I as [I1 I2]. apply In_nth_error in I1. destruct I1 as [j I1].
          exists 0%nat, (S j), p, c. repeat split; auto.
        - intro L. destruct (IH L) as (i & j & ab & cd & N & A & B & C & D). exists (S i), (S j), ab, cd. repeat split; auto. }
      destruct (G pr E) as (i & j & ab & cd & N & A & B & C & D). destruct (IP _ _ A) as [A1 A2]. destruct (IP _ _ B) as [B1 B2]. apply N. apply (H i (fst ab) (snd ab) j (fst cd) (snd cd)); auto; now apply Rltb_true.
  - repeat split; auto.
Qed.
(** finding: jumps remain *)
Theorem C186_smoothing_refuted : unjump 1 [1; 100] = [1; 100] /\ unjump 1 [1; 10; 100] = [1; 1; 10] /\ jumps 1 1 100 = true /\ jumps 1 1 10 = true.
Proof.
  assert (J1 : jumps 1 1 100 = true) by (apply Rltb_true; rewrite Rabs_pos_eq; lra). assert (J2 : jumps 1 1 10 = true) by (apply Rltb_true; rewrite Rabs_pos_eq; lra). assert (J3 : jumps 1 10 100 = true) by (apply Rltb_true; rewrite Rabs_pos_eq; lra).
  unfold unjump. cbn [tl combine filter fst snd map]. rewrite J1, J2, J3. cbn. auto.
Qed.
Example C186_ex : lam_H 0 = 731 / 1400 + 2088 / 1000 /\ lam_l 0 = 22 / 100.
Proof. unfold lam_H, lam_l. replace (Rltb 0 0) with false by (symmetry; apply Rltb_false; lra). split; field. Qed.
Print Assumptions C184_panel.
Print Assumptions C184_panels.
Print Assumptions C184_sheets.
Print Assumptions C184_no_flow_through.
Print Assumptions C184_kutta.
Print Assumptions C184_motion.
Print Assumptions C185_force.
Print Assumptions C185_uniform.
Print Assumptions C185_linear.
Print Assumptions C185_symmetry_refuted.
Print Assumptions C185_drag_one_sided.
Print Assumptions C185_drag.
Print Assumptions C186_laminar_shape.
Print Assumptions C186_laminar_shear.
Print Assumptions C186_separation_refuted.
Print Assumptions C186_turbulent.
Print Assumptions C186_shape_jump_refuted.
Print Assumptions C186_smoothing.
Print Assumptions C186_smoothing_refuted.
