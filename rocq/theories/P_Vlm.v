(** * Vortex lattice: the influence of a panel *)
From Coq Require Import Reals List Bool Arith Lra Psatz.
From Verif Require Import PyBase M_Opt P_Opt M_Rot P_Rot S_Wing P_Deriv M_Evtol S_Elec M_Vlm S_Rot S_Vlm P_Rotor.
Import ListNotations.
Local Open Scope R_scope.

(** ** one straight piece *)
Lemma power_integral A B C m : A * C - B * B > 0 -> A > 0 ->
  integral (fun l => m / (sqrt (A * l * l - 2 * B * l + C) * sqrt (A * l * l - 2 * B * l + C) * sqrt (A * l * l - 2 * B * l + C))) 0 1
           (m * (((A - B) / sqrt (A - 2 * B + C) + B / sqrt C) / (A * C - B * B))).
Proof.
  intros Q HA.
  assert (HN : forall l, 0 < A * l * l - 2 * B * l + C).
  { intros l. assert (E : A * (A * l * l - 2 * B * l + C) = (A * l - B) * (A * l - B) + (A * C - B * B)) by ring.
    assert (0 < A * (A * l * l - 2 * B * l + C)) by (rewrite E; pose proof (Rle_0_sqr (A * l - B)) as K; unfold Rsqr in K; lra).
    apply (Rmult_lt_reg_l A); lra. }
  exists (fun l => m * ((A * l - B) / sqrt (A * l * l - 2 * B * l + C) / (A * C - B * B))). split.
  - intros l. pose proof (HN l) as Hl. set (N := A * l * l - 2 * B * l + C) in *.
    assert (HS : 0 < sqrt N) by (apply sqrt_lt_R0; exact Hl).
    assert (SS : sqrt N * sqrt N = N) by (apply sqrt_sqrt; lra).
    eapply D_val. { der; cbn beta; fold N; lra. }
    unfold Rsqr. cbn beta. fold N. set (s := sqrt N) in *.
    assert (HNs : N = s * s) by lra.
    assert (E : A * (s * s) - (A * l - B) * (A * l - B) = A * C - B * B) by (rewrite SS; unfold N; ring).
    field_simplify_eq; [|split; lra].
    transitivity (2 * m * (A * (s * s) - (A * l - B) * (A * l - B))); [ring|rewrite E; ring].
  - cbn beta. replace (A * 1 * 1 - 2 * B * 1 + C) with (A - 2 * B + C) by ring. replace (A * 0 * 0 - 2 * B * 0 + C) with C by ring.
    pose proof (HN 0) as H0. pose proof (HN 1) as H1. replace (A * 1 * 1 - 2 * B * 1 + C) with (A - 2 * B + C) in H1 by ring. replace (A * 0 * 0 - 2 * B * 0 + C) with C in H0 by ring.
    pose proof (sqrt_lt_R0 _ H0). pose proof (sqrt_lt_R0 _ H1). field. lra.
Qed.

Lemma norm_sq a : norm a * norm a = vdot a a.
Proof. unfold norm. apply sqrt_sqrt. unfold vdot. nra. Qed.
Lemma norm_nonneg a : 0 <= norm a. Proof. apply sqrt_pos. Qed.
Lemma norm_of a n : 0 <= n -> vdot a a = n * n -> norm a = n.
Proof. intros H E. unfold norm. rewrite E. apply sqrt_square. exact H. Qed.
Lemma integral_ext f g a b v : (forall t, f t = g t) -> integral f a b v -> integral g a b v.
Proof. intros H [F [D E]]. exists F. split; [intro t; rewrite <- H; apply D|exact E]. Qed.

Lemma segment_closed a b o dx dy dz rx ry rz :
  minus b a = V3 dx dy dz -> minus o a = V3 rx ry rz ->
  let A := dx * dx + dy * dy + dz * dz in let B := dx * rx + dy * ry + dz * rz in let C := rx * rx + ry * ry + rz * rz in
  A * C - B * B > 0 -> A > 0 ->
  of_segment a b o (scaled (((A - B) / sqrt (A - 2 * B + C) + B / sqrt C) / (A * C - B * B)) (V3 (dy * rz - dz * ry) (dz * rx - dx * rz) (dx * ry - dy * rx))).
Proof.
  intros Ed Er A B C Q HA.
  assert (HN : forall l, norm (minus o (point_on a b l)) = sqrt (A * l * l - 2 * B * l + C)).
  { intro l. unfold norm. f_equal. destruct a as [xa ya za], b as [xb yb zb], o as [xo yo zo]. unfold point_on, plus, scaled, vdot, minus in *; cbn [vx vy vz] in *.
    injection Ed as E1 E2 E3. injection Er as E4 E5 E6. unfold A, B, C. rewrite <- E1, <- E2, <- E3, <- E4, <- E5, <- E6. ring. }
  assert (HC : forall l, cross (minus b a) (minus o (point_on a b l)) = V3 (dy * rz - dz * ry) (dz * rx - dx * rz) (dx * ry - dy * rx)).
  { intro l. destruct a as [xa ya za], b as [xb yb zb], o as [xo yo zo]. unfold cross, point_on, plus, scaled, minus in *; cbn [vx vy vz] in *.
    injection Ed as E1 E2 E3. injection Er as E4 E5 E6. rewrite <- E1, <- E2, <- E3, <- E4, <- E5, <- E6. f_equal; ring. }
  unfold of_segment, savart. split; [|split]; cbn zeta.
  - eapply integral_ext; [|replace (vx (scaled _ _)) with ((dy * rz - dz * ry) * (((A - B) / sqrt (A - 2 * B + C) + B / sqrt C) / (A * C - B * B))) by (unfold scaled; cbn [vx]; ring); apply power_integral; assumption].
    intro l. cbn beta. rewrite HN, HC. unfold scaled; cbn [vx]. unfold Rdiv. ring.
  - eapply integral_ext; [|replace (vy (scaled _ _)) with ((dz * rx - dx * rz) * (((A - B) / sqrt (A - 2 * B + C) + B / sqrt C) / (A * C - B * B))) by (unfold scaled; cbn [vy]; ring); apply power_integral; assumption].
    intro l. cbn beta. rewrite HN, HC. unfold scaled; cbn [vy]. unfold Rdiv. ring.
  - eapply integral_ext; [|replace (vz (scaled _ _)) with ((dx * ry - dy * rx) * (((A - B) / sqrt (A - 2 * B + C) + B / sqrt C) / (A * C - B * B))) by (unfold scaled; cbn [vz]; ring); apply power_integral; assumption].
    intro l. cbn beta. rewrite HN, HC. unfold scaled; cbn [vz]. unfold Rdiv. ring.
Qed.
(** the far end of a leg *)
Definition far (x h L : R) : R := (L - x) / sqrt ((L - x) * (L - x) + h).
Lemma far_limit x h d : 0 < h -> 0 < d -> exists L0, 0 < L0 /\ forall L, L0 <= L -> Rabs (far x h L - 1) <= d.
Proof.
  intros Hh Hd. exists (Rabs x + 1 + h / d).
  assert (0 < h / d) by (apply Rdiv_lt_0_compat; lra). pose proof (Rle_abs x). pose proof (Rabs_pos x).
  split; [lra|]. intros L HL. unfold far. set (u := L - x). assert (Hu : 1 + h / d <= u) by (unfold u; lra).
  assert (P : 0 < u * u + h) by nra. pose proof (sqrt_lt_R0 _ P) as HS. pose proof (sqrt_sqrt _ (Rlt_le _ _ P)) as SS. set (s := sqrt (u * u + h)) in *.
  assert (Hus : u <= s) by nra.
  assert (E : u / s - 1 = - ((s - u) / s)) by (field; lra). rewrite E, Rabs_Ropp, Rabs_right by (apply Rle_ge; apply Rmult_le_pos; [lra|left; apply Rinv_0_lt_compat; lra]).
  assert (hd : h <= d * u). { replace h with (d * (h / d)) at 1 by (field; lra). apply Rmult_le_compat_l; lra. }
  apply (Rmult_le_reg_r s); [lra|]. unfold Rdiv. rewrite Rmult_assoc, Rinv_l, Rmult_1_r by lra.
  assert ((s - u) * (s + u) = h) by (ring_simplify; nra). nra.
Qed.
Lemma leg_to a o L rx ry rz : minus o a = V3 rx ry rz -> 0 < ry * ry + rz * rz -> 0 < L ->
  of_segment (plus a (scaled L e_x)) a o (scaled ((rx / sqrt (rx * rx + ry * ry + rz * rz) + far rx (ry * ry + rz * rz) L) / (ry * ry + rz * rz)) (V3 0 rz (- ry))).
Proof.
  intros E H HL.
  pose proof (segment_closed (plus a (scaled L e_x)) a o (- L) 0 0 (rx - L) ry rz) as K. cbn zeta in K.
  assert (K1 : minus a (plus a (scaled L e_x)) = V3 (- L) 0 0) by (destruct a as [xa ya za]; unfold minus, plus, scaled, e_x; cbn [vx vy vz]; f_equal; ring).
  assert (K2 : minus o (plus a (scaled L e_x)) = V3 (rx - L) ry rz) by (destruct a as [xa ya za], o as [xo yo zo]; unfold minus, plus, scaled, e_x in *; cbn [vx vy vz] in *; injection E as <- <- <-; f_equal; ring).
  specialize (K K1 K2). assert (LL : 0 < L * L) by nra.
  replace (- L * - L + 0 * 0 + 0 * 0) with (L * L) in K by ring. replace (- L * (rx - L) + 0 * ry + 0 * rz) with (L * (L - rx)) in K by ring.
  replace (L * L * ((rx - L) * (rx - L) + ry * ry + rz * rz) - L * (L - rx) * (L * (L - rx))) with (L * L * (ry * ry + rz * rz)) in K by ring.
  replace (L * L - 2 * (L * (L - rx)) + ((rx - L) * (rx - L) + ry * ry + rz * rz)) with (rx * rx + ry * ry + rz * rz) in K by ring.
  replace ((rx - L) * (rx - L) + ry * ry + rz * rz) with ((L - rx) * (L - rx) + (ry * ry + rz * rz)) in K by ring.
  specialize (K ltac:(nra) ltac:(lra)).
  match goal with |- of_segment _ _ _ ?g => match type of K with of_segment _ _ _ ?k => replace g with k; [exact K|] end end.
  unfold far, scaled; cbn [vx vy vz].
  assert (P1 : 0 < rx * rx + ry * ry + rz * rz) by (pose proof (Rle_0_sqr rx) as U; unfold Rsqr in U; lra).
  assert (P2 : 0 < (L - rx) * (L - rx) + (ry * ry + rz * rz)) by (pose proof (Rle_0_sqr (L - rx)) as U; unfold Rsqr in U; lra).
  pose proof (sqrt_lt_R0 _ P1). pose proof (sqrt_lt_R0 _ P2).
  set (q := ry * ry + rz * rz) in *. f_equal; [ring| |]; field; lra.
Qed.
Lemma leg_from b o L rx ry rz : minus o b = V3 rx ry rz -> 0 < ry * ry + rz * rz -> 0 < L ->
  of_segment b (plus b (scaled L e_x)) o (scaled ((rx / sqrt (rx * rx + ry * ry + rz * rz) + far rx (ry * ry + rz * rz) L) / (ry * ry + rz * rz)) (V3 0 (- rz) ry)).
Proof.
  intros E H HL.
  pose proof (segment_closed b (plus b (scaled L e_x)) o L 0 0 rx ry rz) as K. cbn zeta in K.
  assert (K1 : minus (plus b (scaled L e_x)) b = V3 L 0 0) by (destruct b as [xb yb zb]; unfold minus, plus, scaled, e_x; cbn [vx vy vz]; f_equal; ring).
  specialize (K K1 E). assert (LL : 0 < L * L) by nra.
  replace (L * L + 0 * 0 + 0 * 0) with (L * L) in K by ring. replace (L * rx + 0 * ry + 0 * rz) with (L * rx) in K by ring.
  replace (L * L * (rx * rx + ry * ry + rz * rz) - L * rx * (L * rx)) with (L * L * (ry * ry + rz * rz)) in K by ring.
  replace (L * L - 2 * (L * rx) + (rx * rx + ry * ry + rz * rz)) with ((L - rx) * (L - rx) + (ry * ry + rz * rz)) in K by ring.
  specialize (K ltac:(nra) ltac:(lra)).
  match goal with |- of_segment _ _ _ ?g => match type of K with of_segment _ _ _ ?k => replace g with k; [exact K|] end end.
  unfold far, scaled; cbn [vx vy vz].
  assert (P1 : 0 < rx * rx + ry * ry + rz * rz) by (pose proof (Rle_0_sqr rx) as U; unfold Rsqr in U; lra).
  assert (P2 : 0 < (L - rx) * (L - rx) + (ry * ry + rz * rz)) by (pose proof (Rle_0_sqr (L - rx)) as U; unfold Rsqr in U; lra).
  pose proof (sqrt_lt_R0 _ P1). pose proof (sqrt_lt_R0 _ P2).
  set (q := ry * ry + rz * rz) in *. f_equal; [ring| |]; field; lra.
Qed.

(** ** the axes of a panel *)
Lemma axes_of a b o : vy a <= vy b -> 0 < width a b ->
  let k := local_axes {| b_a := a; b_b := b |} o in
  k_cos k * k_cos k + k_sin k * k_sin k = 1 /\ width a b = 2 * k_s k /\ 0 < k_s k /\
  minus b a = V3 (2 * k_s k * k_t k) (2 * k_s k * k_cos k) (2 * k_s k * k_sin k) /\
  minus o a = V3 (k_X1 k) (k_Y1 k * k_cos k - k_z k * k_sin k) (k_Y1 k * k_sin k + k_z k * k_cos k) /\
  minus o b = V3 (k_X2 k) (k_Y2 k * k_cos k - k_z k * k_sin k) (k_Y2 k * k_sin k + k_z k * k_cos k).
Proof.
  intros Hy Hw. unfold local_axes, ordered; cbn [b_a b_b]. rewrite (proj2 (Rltb_false _ _) Hy). cbn zeta; cbn [b_a b_b k_cos k_sin k_s k_t k_x k_y k_z].
  destruct (arctan2_spec (vz b - vz a) (vy b - vy a)) as [HC HS].
  assert (HH : hyp (vy b - vy a) (vz b - vz a) = width a b).
  { unfold hyp, width, norm, flattened, minus, vdot; cbn [vx vy vz]. f_equal. ring. }
  rewrite HH in HC, HS. set (th := arctan2 (vz b - vz a) (vy b - vy a)) in *. set (w := width a b) in *.
  pose proof (sin2_cos2 th) as SC. unfold Rsqr in SC. set (c := cos th) in *. set (s := sin th) in *.
  assert (Y1 : (vy b - / 2 * (vy a + vy b)) * c + (vz b - / 2 * (vz a + vz b)) * s = w / 2).
  { transitivity (((vy b - vy a) * c + (vz b - vz a) * s) / 2); [field|]. rewrite <- HC, <- HS. transitivity (w * (s * s + c * c) / 2); [field|rewrite SC; field]. }
  rewrite Y1. assert (AB : Rabs (w / 2) = w / 2) by (apply Rabs_right; lra). rewrite AB.
  assert (Ey : vy b = vy a + w * c) by lra. assert (Ez : vz b = vz a + w * s) by lra.
  unfold k_X1, k_X2, k_Y1, k_Y2; cbn [k_cos k_sin k_s k_t k_x k_y k_z].
  split; [lra|]. split; [lra|]. split; [lra|].
  assert (S1 : s * s = 1 - c * c) by lra.
  destruct a as [xa ya za], b as [xb yb zb], o as [xo yo zo]; unfold minus; cbn [vx vy vz] in *.
  split; [|split].
  - f_equal; [field; lra|lra|lra].
  - f_equal; [field; lra| |].
    + rewrite Ey, Ez. field [S1].
    + rewrite Ey, Ez. field [S1].
  - f_equal; [field; lra| |].
    + rewrite Ey, Ez. field [S1].
    + rewrite Ey, Ez. field [S1].
Qed.

(** the code's branches, away from the allowances *)
Lemma subsonic_clear beta k : 0 < beta -> 0 < k_s k ->
  k_tolsq k <= k_RTV1 k -> k_tolsq k <= k_RTV2 k ->
  k_tolsq k <= k_XTY k * k_XTY k + (k_t k * k_t k + beta * beta) * k_zsq k -> k_z k = 0 \/ k_tolsq k <= k_zsq k ->
  let R1 := sqrt (k_X1 k * k_X1 k + beta * beta * k_RTV1 k) in let R2 := sqrt (k_X2 k * k_X2 k + beta * beta * k_RTV2 k) in
  let QB := ((k_t k * k_X1 k + beta * beta * k_Y1 k) / R1 - (k_t k * k_X2 k + beta * beta * k_Y2 k) / R2) / (k_XTY k * k_XTY k + (k_t k * k_t k + beta * beta) * k_zsq k) in
  let FT1 := (k_X1 k + R1) / (R1 * k_RTV1 k) in let FT2 := (k_X2 k + R2) / (R2 * k_RTV2 k) in
  0 < R1 /\ 0 < R2 /\ 0 < k_RTV1 k /\ 0 < k_RTV2 k /\
  subsonic (- (beta * beta)) k = Some (V3 (k_z k * QB / (4 * PI)) (k_z k * (FT1 - FT2 - QB * k_t k) / (4 * PI)) (- (QB * k_XTY k + FT1 * k_Y1 k - FT2 * k_Y2 k) / (4 * PI))).
Proof.
  intros Hb Hs H1 H2 HD Hz. cbn zeta.
  assert (Ht : 0 < k_tolsq k) by (unfold k_tolsq, k_tol; apply Rmult_lt_0_compat; lra).
  assert (B2 : 0 < beta * beta) by nra.
  assert (P1 : 0 < k_X1 k * k_X1 k + beta * beta * k_RTV1 k) by (pose proof (Rle_0_sqr (k_X1 k)) as U; unfold Rsqr in U; assert (0 < beta * beta * k_RTV1 k) by (apply Rmult_lt_0_compat; lra); lra).
  assert (P2 : 0 < k_X2 k * k_X2 k + beta * beta * k_RTV2 k) by (pose proof (Rle_0_sqr (k_X2 k)) as U; unfold Rsqr in U; assert (0 < beta * beta * k_RTV2 k) by (apply Rmult_lt_0_compat; lra); lra).
  pose proof (sqrt_lt_R0 _ P1) as S1. pose proof (sqrt_lt_R0 _ P2) as S2.
  split; [exact S1|]. split; [exact S2|]. split; [lra|]. split; [lra|].
  unfold subsonic. cbn zeta.
  replace (k_X1 k * k_X1 k - - (beta * beta) * k_RTV1 k) with (k_X1 k * k_X1 k + beta * beta * k_RTV1 k) by ring.
  replace (k_X2 k * k_X2 k - - (beta * beta) * k_RTV2 k) with (k_X2 k * k_X2 k + beta * beta * k_RTV2 k) by ring.
  replace (k_t k * k_t k - - (beta * beta)) with (k_t k * k_t k + beta * beta) by ring.
  replace (k_t k * k_X1 k - - (beta * beta) * k_Y1 k) with (k_t k * k_X1 k + beta * beta * k_Y1 k) by ring.
  replace (k_t k * k_X2 k - - (beta * beta) * k_Y2 k) with (k_t k * k_X2 k + beta * beta * k_Y2 k) by ring.
  set (R1 := sqrt (k_X1 k * k_X1 k + _)) in *. set (R2 := sqrt (k_X2 k * k_X2 k + _)) in *.
  destruct (Req_EM_T (k_s k) 0) as [|_]; [exfalso; lra|]. destruct (Req_EM_T R1 0) as [|_]; [exfalso; lra|]. destruct (Req_EM_T R2 0) as [|_]; [exfalso; lra|].
  rewrite (proj2 (Rltb_false _ _) H1), (proj2 (Rltb_false _ _) H2), (proj2 (Rltb_false _ _) HD).
  destruct Hz as [Hz|Hz].
  - rewrite (proj2 (Rltb_true (k_zsq k) (k_tolsq k))) by (unfold k_zsq; rewrite Hz; lra). rewrite Hz. do 2 f_equal; lra.
  - rewrite (proj2 (Rltb_false _ _) Hz). do 2 f_equal; lra.
Qed.

Lemma abs_small (e : R) : 0 < e -> Rabs 0 <= e. Proof. intro. rewrite Rabs_R0. lra. Qed.
Lemma stretched_minus beta a b : 0 < beta -> minus (stretched beta b) (stretched beta a) = stretched beta (minus b a).
Proof. intro H. unfold minus, stretched; cbn [vx vy vz]. f_equal. field. lra. Qed.
Lemma norm_flattened_sq v : norm (flattened v) * norm (flattened v) = vy v * vy v + vz v * vz v.
Proof. rewrite norm_sq. unfold flattened, vdot; cbn [vx vy vz]. ring. Qed.
Lemma sq_mono a b : 0 <= a -> a <= b -> a * a <= b * b. Proof. intros. apply Rmult_le_compat; lra. Qed.

Lemma influence_savart mach a b o : 0 <= mach < 1 -> vy a <= vy b ->
  let beta := sqrt (1 - mach * mach) in apart beta a b o ->
  exists v, influence mach {| b_a := a; b_b := b |} o = Some v /\
    biot_savart (stretched beta a) (stretched beta b) (stretched beta o) (V3 (beta * vx v) (vy v) (vz v)).
Proof.
  intros Hm Hy beta HA.
  assert (Hbb : beta * beta = 1 - mach * mach) by (apply sqrt_sqrt; nra).
  assert (Hb : 0 < beta) by (apply sqrt_lt_R0; nra).
  destruct (axes_of a b o Hy (ap_width _ _ _ _ HA)) as [SC [Ew [Hs [Ed [Era Erb]]]]].
  unfold influence. set (k := local_axes _ o) in *.
  replace (mach * mach - 1) with (- (beta * beta)) by lra. rewrite (proj2 (Rltb_true (- (beta * beta)) 0)) by nra.
  set (c := k_cos k) in *. set (s := k_sin k) in *. set (h := k_s k) in *. set (t := k_t k) in *. set (z := k_z k) in *.
  set (X1 := k_X1 k) in *. set (Y1 := k_Y1 k) in *. set (X2 := k_X2 k) in *. set (Y2 := k_Y2 k) in *.
  assert (EX2 : X2 = X1 - 2 * h * t) by (unfold X1, X2, k_X1, k_X2; fold t h; ring).
  assert (EY2 : Y2 = Y1 - 2 * h) by (unfold Y1, Y2, k_Y1, k_Y2; fold h; ring).
  assert (EXT : k_XTY k = X1 - t * Y1) by (unfold X1, Y1, k_XTY, k_X1, k_Y1; fold t h; ring).
  assert (SS : s * s = 1 - c * c) by lra.
  assert (ER1 : k_RTV1 k = Y1 * Y1 + z * z) by reflexivity. assert (ER2 : k_RTV2 k = Y2 * Y2 + z * z) by reflexivity.
  assert (Etol : k_tolsq k = width a b / 1000 * (width a b / 1000)) by (unfold k_tolsq, k_tol; fold h; rewrite Ew; field).
  assert (Hw0 : 0 <= width a b / 1000) by lra.
  assert (T1 : k_tolsq k <= k_RTV1 k).
  { rewrite Etol. eapply Rle_trans; [apply sq_mono; [exact Hw0|exact (ap_a _ _ _ _ HA)]|]. rewrite norm_flattened_sq, Era; cbn [vx vy vz]. right. rewrite ER1. ring [SS]. }
  assert (T2 : k_tolsq k <= k_RTV2 k).
  { rewrite Etol. eapply Rle_trans; [apply sq_mono; [exact Hw0|exact (ap_b _ _ _ _ HA)]|]. rewrite norm_flattened_sq, Erb; cbn [vx vy vz]. right. rewrite ER2. ring [SS]. }
  assert (Ecr : cross (stretched beta (minus b a)) (stretched beta (minus o a)) =
    V3 (2 * h * z) (2 * h / beta * (s * (X1 - t * Y1) - t * z * c)) (- (2 * h / beta) * (c * (X1 - t * Y1) + t * z * s))).
  { rewrite Ed, Era. unfold cross, stretched; cbn [vx vy vz]. f_equal; field [SS]; lra. }
  set (D := (X1 - t * Y1) * (X1 - t * Y1) + (t * t + beta * beta) * (z * z)).
  assert (EQ : vdot (cross (stretched beta (minus b a)) (stretched beta (minus o a))) (cross (stretched beta (minus b a)) (stretched beta (minus o a))) = (2 * h / beta) * (2 * h / beta) * D).
  { rewrite Ecr. unfold vdot, D; cbn [vx vy vz]. field [SS]. lra. }
  assert (T3 : k_tolsq k <= D).
  { pose proof (ap_line _ _ _ _ HA) as L. rewrite !stretched_minus in L by exact Hb.
    assert (Q : width a b * (width a b / 1000) * (width a b * (width a b / 1000)) <= beta * beta * ((2 * h / beta) * (2 * h / beta) * D)).
    { rewrite <- EQ, <- norm_sq. eapply Rle_trans; [apply sq_mono; [|exact L]|right; ring]. apply Rmult_le_pos; lra. }
    replace (beta * beta * ((2 * h / beta) * (2 * h / beta) * D)) with (4 * (h * h) * D) in Q by (field; lra).
    rewrite Etol. rewrite Ew in Q |- *. assert (0 < 4 * (h * h)) by nra. apply (Rmult_le_reg_l (4 * (h * h))); [assumption|]. eapply Rle_trans; [right|exact Q]. field. }
  assert (T4 : z = 0 \/ k_tolsq k <= k_zsq k).
  { assert (E : vdot (cross e_x (minus b a)) (minus o a) = 2 * h * z) by (rewrite Ed, Era; unfold vdot, cross, e_x; cbn [vx vy vz]; ring [SS]).
    destruct (ap_plane _ _ _ _ HA) as [P|P]; rewrite E in P.
    - left. apply (Rmult_eq_reg_l (2 * h)); lra.
    - right. rewrite Etol. unfold k_zsq; fold z. rewrite Ew in P |- *.
      assert (0 <= 2 * h * (2 * h / 1000)) by (apply Rmult_le_pos; lra).
      pose proof (sq_mono _ _ H P) as Q. rewrite <- Rabs_mult, (Rabs_right (2 * h * z * (2 * h * z))) in Q by (apply Rle_ge; pose proof (Rle_0_sqr (2 * h * z)) as U; unfold Rsqr in U; exact U).
      assert (0 < 4 * (h * h)) by nra. apply (Rmult_le_reg_l (4 * (h * h))); [assumption|]. lra. }
  assert (T3' : k_tolsq k <= k_XTY k * k_XTY k + (k_t k * k_t k + beta * beta) * k_zsq k) by (rewrite EXT; unfold k_zsq; fold z t; exact T3).
  destruct (subsonic_clear beta k Hb Hs T1 T2 T3' T4) as [P1 [P2 [V1 [V2 E]]]]. rewrite E. clear E.
  rewrite EXT in *. unfold k_zsq in *. fold z t X1 X2 Y1 Y2 in P1, P2, V1, V2, T3' |- *. fold D. rewrite ER1, ER2 in *.
  set (R1 := sqrt (X1 * X1 + _)) in *. set (R2 := sqrt (X2 * X2 + _)) in *.
  set (FT1 := (X1 + R1) / (R1 * _)). set (FT2 := (X2 + R2) / (R2 * _)).
  set (QB := ((t * X1 + beta * beta * Y1) / R1 - (t * X2 + beta * beta * Y2) / R2) / D).
  assert (Ht : 0 < k_tolsq k) by (rewrite Etol, Ew; apply Rmult_lt_0_compat; lra).
  assert (HD : 0 < D) by lra.
  eexists. split; [reflexivity|]. cbn [vx vy vz]. fold c s.
  (* the three pieces *)
  set (a' := stretched beta a). set (b' := stretched beta b). set (o' := stretched beta o).
  assert (Ma : minus o' a' = V3 (X1 / beta) (Y1 * c - z * s) (Y1 * s + z * c)) by (unfold o', a'; rewrite stretched_minus, Era by exact Hb; reflexivity).
  assert (Mb : minus o' b' = V3 (X2 / beta) (Y2 * c - z * s) (Y2 * s + z * c)) by (unfold o', b'; rewrite stretched_minus, Erb by exact Hb; reflexivity).
  assert (Mab : minus b' a' = V3 (2 * h * t / beta) (2 * h * c) (2 * h * s)) by (unfold a', b'; rewrite stretched_minus, Ed by exact Hb; reflexivity).
  assert (Q1 : (Y1 * c - z * s) * (Y1 * c - z * s) + (Y1 * s + z * c) * (Y1 * s + z * c) = Y1 * Y1 + z * z) by ring [SS].
  assert (Q2 : (Y2 * c - z * s) * (Y2 * c - z * s) + (Y2 * s + z * c) * (Y2 * s + z * c) = Y2 * Y2 + z * z) by ring [SS].
  assert (N1 : sqrt (X1 / beta * (X1 / beta) + (Y1 * c - z * s) * (Y1 * c - z * s) + (Y1 * s + z * c) * (Y1 * s + z * c)) = R1 / beta).
  { rewrite Rplus_assoc, Q1. rewrite <- (sqrt_square (R1 / beta)) by (apply Rlt_le, Rdiv_lt_0_compat; lra). f_equal.
    replace (R1 / beta * (R1 / beta)) with (R1 * R1 / (beta * beta)) by (field; lra). unfold R1. rewrite sqrt_sqrt by (apply Rlt_le; apply Rnot_le_lt; intro; unfold R1 in P1; rewrite sqrt_neg_0 in P1 by assumption; lra). field. lra. }
  assert (N2 : sqrt (X2 / beta * (X2 / beta) + (Y2 * c - z * s) * (Y2 * c - z * s) + (Y2 * s + z * c) * (Y2 * s + z * c)) = R2 / beta).
  { rewrite Rplus_assoc, Q2. rewrite <- (sqrt_square (R2 / beta)) by (apply Rlt_le, Rdiv_lt_0_compat; lra). f_equal.
    replace (R2 / beta * (R2 / beta)) with (R2 * R2 / (beta * beta)) by (field; lra). unfold R2. rewrite sqrt_sqrt by (apply Rlt_le; apply Rnot_le_lt; intro; unfold R2 in P2; rewrite sqrt_neg_0 in P2 by assumption; lra). field. lra. }
  assert (Bound : of_segment a' b' o' (V3 (beta * QB * z) (QB * (s * (X1 - t * Y1) - t * z * c)) (- QB * (c * (X1 - t * Y1) + t * z * s)))).
  { pose proof (segment_closed a' b' o' _ _ _ _ _ _ Mab Ma) as K. cbn zeta in K.
    assert (EA : 2 * h * t / beta * (2 * h * t / beta) + 2 * h * c * (2 * h * c) + 2 * h * s * (2 * h * s) = 4 * h * h * (t * t / (beta * beta) + 1)) by (field [SS]; lra).
    assert (EB : 2 * h * t / beta * (X1 / beta) + 2 * h * c * (Y1 * c - z * s) + 2 * h * s * (Y1 * s + z * c) = 2 * h * (t * X1 / (beta * beta) + Y1)) by (field [SS]; lra).
    rewrite EA, EB, N1 in K. rewrite Rplus_assoc, Q1 in K.
    assert (EQ' : 4 * h * h * (t * t / (beta * beta) + 1) * (X1 / beta * (X1 / beta) + (Y1 * Y1 + z * z)) - 2 * h * (t * X1 / (beta * beta) + Y1) * (2 * h * (t * X1 / (beta * beta) + Y1)) = 4 * h * h * D / (beta * beta)) by (unfold D; field; lra).
    assert (EN : 4 * h * h * (t * t / (beta * beta) + 1) - 2 * (2 * h * (t * X1 / (beta * beta) + Y1)) + (X1 / beta * (X1 / beta) + (Y1 * Y1 + z * z)) = X2 / beta * (X2 / beta) + (Y2 * c - z * s) * (Y2 * c - z * s) + (Y2 * s + z * c) * (Y2 * s + z * c)).
    { rewrite Rplus_assoc, Q2, EX2, EY2. field. lra. }
    rewrite EQ', EN, N2 in K.
    assert (4 * h * h * D / (beta * beta) > 0) by (apply Rlt_gt, Rdiv_lt_0_compat; nra).
    assert (4 * h * h * (t * t / (beta * beta) + 1) > 0).
    { apply Rlt_gt, Rmult_lt_0_compat; [nra|]. assert (0 <= t * t / (beta * beta)) by (apply Rmult_le_pos; [nra|left; apply Rinv_0_lt_compat; nra]). lra. }
    specialize (K ltac:(assumption) ltac:(assumption)).
    match goal with |- of_segment _ _ _ ?g => match type of K with of_segment _ _ _ ?kk => replace g with kk; [exact K|] end end.
    unfold scaled, QB; cbn [vx vy vz]. f_equal; rewrite EX2, EY2; field [SS]; repeat split; lra. }
  assert (Leg1 : forall L, 0 < L -> of_segment (plus a' (scaled L e_x)) a' o' (scaled ((X1 / R1 + far (X1 / beta) (Y1 * Y1 + z * z) L) / (Y1 * Y1 + z * z)) (V3 0 (Y1 * s + z * c) (- (Y1 * c - z * s))))).
  { intros L HL. pose proof (leg_to a' o' L _ _ _ Ma ltac:(rewrite Q1; exact V1) HL) as K. rewrite Q1, N1 in K. replace (X1 / beta / (R1 / beta)) with (X1 / R1) in K by (field; lra). exact K. }
  assert (Leg2 : forall L, 0 < L -> of_segment b' (plus b' (scaled L e_x)) o' (scaled ((X2 / R2 + far (X2 / beta) (Y2 * Y2 + z * z) L) / (Y2 * Y2 + z * z)) (V3 0 (- (Y2 * s + z * c)) (Y2 * c - z * s)))).
  { intros L HL. pose proof (leg_from b' o' L _ _ _ Mb ltac:(rewrite Q2; exact V2) HL) as K. rewrite Q2, N2 in K. replace (X2 / beta / (R2 / beta)) with (X2 / R2) in K by (field; lra). exact K. }
  intros eps Heps.
  set (K1 := (Rabs (Y1 * s + z * c) + Rabs (Y1 * c - z * s)) / (Y1 * Y1 + z * z)). set (K2 := (Rabs (Y2 * s + z * c) + Rabs (Y2 * c - z * s)) / (Y2 * Y2 + z * z)).
  assert (HK1 : 0 <= K1) by (apply Rmult_le_pos; [pose proof (Rabs_pos (Y1 * s + z * c)); pose proof (Rabs_pos (Y1 * c - z * s)); lra|left; apply Rinv_0_lt_compat; lra]).
  assert (HK2 : 0 <= K2) by (apply Rmult_le_pos; [pose proof (Rabs_pos (Y2 * s + z * c)); pose proof (Rabs_pos (Y2 * c - z * s)); lra|left; apply Rinv_0_lt_compat; lra]).
  set (d := eps / (K1 + K2 + 1)). assert (Hd : 0 < d) by (apply Rdiv_lt_0_compat; lra).
  destruct (far_limit (X1 / beta) (Y1 * Y1 + z * z) d V1 Hd) as [L1 [HL1 F1]].
  destruct (far_limit (X2 / beta) (Y2 * Y2 + z * z) d V2 Hd) as [L2 [HL2 F2]].
  exists (Rmax L1 L2). intros L HL. pose proof (Rmax_l L1 L2). pose proof (Rmax_r L1 L2).
  specialize (F1 L ltac:(lra)). specialize (F2 L ltac:(lra)). specialize (Leg1 L ltac:(lra)). specialize (Leg2 L ltac:(lra)).
  eexists. split; [exists (scaled ((X1 / R1 + far (X1 / beta) (Y1 * Y1 + z * z) L) / (Y1 * Y1 + z * z)) (V3 0 (Y1 * s + z * c) (- (Y1 * c - z * s)))); eexists; eexists; split; [exact Leg1|]; split; [exact Bound|]; split; [exact Leg2|]; reflexivity|].
  set (g1 := far (X1 / beta) (Y1 * Y1 + z * z) L) in *. set (g2 := far (X2 / beta) (Y2 * Y2 + z * z) L) in *.
  pose proof PI_RGT_0 as HPI.
  assert (BND : forall p q, Rabs p <= Rabs (Y1 * s + z * c) + Rabs (Y1 * c - z * s) -> Rabs q <= Rabs (Y2 * s + z * c) + Rabs (Y2 * c - z * s) ->
     Rabs ((1 - g1) / (Y1 * Y1 + z * z) * p + (1 - g2) / (Y2 * Y2 + z * z) * q) <= eps).
  { intros p q Hp Hq. eapply Rle_trans; [apply Rabs_triang|]. unfold Rdiv. rewrite !Rabs_mult.
    rewrite (Rabs_right (/ (Y1 * Y1 + z * z))) by (left; apply Rinv_0_lt_compat; lra). rewrite (Rabs_right (/ (Y2 * Y2 + z * z))) by (left; apply Rinv_0_lt_compat; lra).
    rewrite (Rabs_minus_sym 1 g1), (Rabs_minus_sym 1 g2).
    assert (I1 : / (Y1 * Y1 + z * z) * Rabs p <= K1) by (unfold K1, Rdiv; rewrite Rmult_comm; apply Rmult_le_compat_r; [left; apply Rinv_0_lt_compat; lra|exact Hp]).
    assert (I2 : / (Y2 * Y2 + z * z) * Rabs q <= K2) by (unfold K2, Rdiv; rewrite Rmult_comm; apply Rmult_le_compat_r; [left; apply Rinv_0_lt_compat; lra|exact Hq]).
    assert (0 <= / (Y1 * Y1 + z * z) * Rabs p) by (apply Rmult_le_pos; [left; apply Rinv_0_lt_compat; lra|apply Rabs_pos]).
    assert (0 <= / (Y2 * Y2 + z * z) * Rabs q) by (apply Rmult_le_pos; [left; apply Rinv_0_lt_compat; lra|apply Rabs_pos]).
    assert (J1 : Rabs (g1 - 1) * / (Y1 * Y1 + z * z) * Rabs p <= d * K1) by (rewrite Rmult_assoc; apply Rmult_le_compat; try assumption; apply Rabs_pos).
    assert (J2 : Rabs (g2 - 1) * / (Y2 * Y2 + z * z) * Rabs q <= d * K2) by (rewrite Rmult_assoc; apply Rmult_le_compat; try assumption; apply Rabs_pos).
    assert (d * (K1 + K2 + 1) = eps) by (unfold d; field; lra). lra. }
  pose proof (Rabs_pos (Y1 * s + z * c)). pose proof (Rabs_pos (Y1 * c - z * s)). pose proof (Rabs_pos (Y2 * s + z * c)). pose proof (Rabs_pos (Y2 * c - z * s)).
  unfold plus, scaled; cbn [vx vy vz]. split; [|split].
  - replace (4 * PI * _ - _) with 0; [apply abs_small; exact Heps|]. field. lra.
  - match goal with |- Rabs ?x <= _ => replace x with ((1 - g1) / (Y1 * Y1 + z * z) * (Y1 * s + z * c) + (1 - g2) / (Y2 * Y2 + z * z) * (- (Y2 * s + z * c))) end; [apply BND; [|rewrite Rabs_Ropp]; lra|].
    unfold FT1, FT2. field. repeat split; lra.
  - match goal with |- Rabs ?x <= _ => replace x with ((1 - g1) / (Y1 * Y1 + z * z) * (- (Y1 * c - z * s)) + (1 - g2) / (Y2 * Y2 + z * z) * (Y2 * c - z * s)) end; [apply BND; [rewrite Rabs_Ropp|]; lra|].
    unfold FT1, FT2. field. repeat split; lra.
Qed.
