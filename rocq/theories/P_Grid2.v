(** * Proofs: panels *)
From Coq Require Import Reals List Bool Arith ZArith Lra Lia Sorted.
From Verif Require Import PyBase M_Opt M_Rot M_Noise M_Evtol M_Vlm M_Field M_Grid S_Vlm S_Rot S_Grid P_Opt P_Noise P_Field P_Rotor P_Vlm P_Grid.
Import ListNotations.
Local Open Scope R_scope.

Lemma interp_flat x : forall l, Forall (fun p => snd p = 0) l -> interp x l = 0.
Proof.
  induction l as [|[a b] l IH]; intro F; [reflexivity|]. inversion F as [|? ? E F']; subst. cbn in E. subst b. destruct l as [|[a' b'] l]; [reflexivity|].
  inversion F' as [|? ? E' _]; subst. cbn in E'. subst b'. rewrite interp_cons. destruct (Rltb x a); [reflexivity|]. destruct (Rltb x a'); [unfold Rdiv; ring|]. apply IH. exact F'.
Qed.
Lemma camber_flat w a c x : uncambered a -> camber w a c x = 0.
Proof.
  intro U. unfold camber, camber_line. apply interp_flat. destruct (w_cut w) as [[f sl]|].
  - rewrite map_map, Forall_map. cbn. eapply Forall_impl; [|exact U]. cbn. intros p ->. unfold Rdiv. ring.
  - rewrite Forall_map. cbn. eapply Forall_impl; [|exact U]. cbn. intros p ->. ring.
Qed.
(** the points of a chord in one expression *)
Definition chord_point (w : surface) (a b : station) (side y x x' : R) : v3 := placed w a side y (twisted w a b (y - s_y a) x x').
Lemma quarter_edge a c n k f : (0 < n)%nat ->
  edge a c n k + (edge a c n n - edge a c n 0) / INR n * f = edge a c n k + f * (edge a c n (S k) - edge a c n k).
Proof. intro N. unfold edge. rewrite S_INR. cbn [INR]. assert (0 < INR n) by (apply lt_0_INR; exact N). field. lra. Qed.
Lemma twisted_affine w a b e x0 x1 f : uncambered a ->
  twisted w a b e (x0 + f * (x1 - x0)) (x0 + f * (x1 - x0)) =
  (fst (twisted w a b e x0 x0) + f * (fst (twisted w a b e x1 x1) - fst (twisted w a b e x0 x0)),
   snd (twisted w a b e x0 x0) + f * (snd (twisted w a b e x1 x1) - snd (twisted w a b e x0 x0))).
Proof. intro U. unfold twisted. cbv zeta. cbn [fst snd]. unfold turned_x, turned_z, flat_x, flat_z. rewrite !camber_flat by exact U. f_equal; ring. Qed.
Lemma twisted_free w a b e x x' : uncambered a -> twisted w a b e x x' = twisted w a b e x x.
Proof. intro U. unfold twisted. cbv zeta. unfold flat_z. rewrite !camber_flat by exact U. reflexivity. Qed.
Lemma placed_part w a side y p q f : placed w a side y (fst p + f * (fst q - fst p), snd p + f * (snd q - snd p)) = part f (placed w a side y p) (placed w a side y q).
Proof. unfold placed, part, plus, scaled, minus, vmore. destruct (w_vertical w); cbn; f_equal; ring. Qed.
Lemma chord_part w a b side y x0 x1 f x' : uncambered a ->
  chord_point w a b side y (x0 + f * (x1 - x0)) x' = part f (chord_point w a b side y x0 x0) (chord_point w a b side y x1 x1).
Proof. intro U. unfold chord_point. rewrite (twisted_free w a b _ _ x' U), twisted_affine by exact U. apply placed_part. Qed.

(** on a chord: quarters *)
Lemma quarters w n a b side ya yb k : (0 < n)%nat -> uncambered a -> let p := panel_points w n a b side ya yb k in
  t_ah p = part (1 / 4) (t_a1 p) (t_a2 p) /\ t_ac p = part (3 / 4) (t_a1 p) (t_a2 p) /\
  t_bh p = part (1 / 4) (t_b1 p) (t_b2 p) /\ t_bc p = part (3 / 4) (t_b1 p) (t_b2 p).
Proof.
  intros N U p. unfold p, panel_points. cbn [t_ah t_ac t_bh t_bc t_a1 t_a2 t_b1 t_b2].
  repeat split; rewrite quarter_edge by exact N;
    match goal with |- placed w a side ?y (twisted _ _ _ _ ?x ?x') = ?r => change (chord_point w a b side y x x' = r) end;
    rewrite chord_part by exact U; (replace (25 / 100) with (1 / 4) by lra) || (replace (75 / 100) with (3 / 4) by lra); reflexivity.
Qed.
(** linear along a section with the same twist *)
Lemma chord_linear a b e e' f : s_y b <> s_y a -> chord_at a b (e + f * (e' - e)) = chord_at a b e + f * (chord_at a b e' - chord_at a b e).
Proof. intro. unfold chord_at. field. lra. Qed.
Lemma twist_same a b e : s_twist a = s_twist b -> twist_at a b e = s_twist a.
Proof. intro E. unfold twist_at. rewrite E. unfold Rdiv. ring. Qed.
Lemma middle w n a b side ya yb k : (0 < n)%nat -> uncambered a -> s_twist a = s_twist b -> s_y b <> s_y a -> (forall f sl, w_cut w = Some (f, sl) -> f <> 0) ->
  let p := panel_points w n a b side ya yb k in t_ch p = part (1 / 2) (t_ah p) (t_bh p) /\ t_c p = part (1 / 2) (t_ac p) (t_bc p).
Proof.
  intros N U T Y F p.
  assert (H : forall f g, placed w a side (yb - (yb - ya) / 2) (twisted w a b (yb - (yb - ya) / 2 - s_y a)
      (edge a (chord_at a b (yb - (yb - ya) / 2 - s_y a)) n k + (edge a (chord_at a b (yb - (yb - ya) / 2 - s_y a)) n n - edge a (chord_at a b (yb - (yb - ya) / 2 - s_y a)) n 0) / INR n * f)
      (edge a (chord_at a b (yb - (yb - ya) / 2 - s_y a)) n k + (edge a (chord_at a b (yb - (yb - ya) / 2 - s_y a)) n n - edge a (chord_at a b (yb - (yb - ya) / 2 - s_y a)) n 0) / INR n * f)) =
    part (1 / 2) (placed w a side ya (twisted w a b (ya - s_y a)
      (edge a (chord_at a b (ya - s_y a)) n k + (edge a (chord_at a b (ya - s_y a)) n n - edge a (chord_at a b (ya - s_y a)) n 0) / INR n * f) (g ya)))
    (placed w a side yb (twisted w a b (yb - s_y a)
      (edge a (chord_at a b (yb - s_y a)) n k + (edge a (chord_at a b (yb - s_y a)) n n - edge a (chord_at a b (yb - s_y a)) n 0) / INR n * f) (g yb)))).
  { intros f g. rewrite !quarter_edge by exact N. rewrite !(twisted_free w a b _ _ (g _) U). unfold twisted. cbv zeta. unfold flat_z, pivot_x, pivot_z, flat_x.
    rewrite !camber_flat by exact U. rewrite !twist_same by exact T.
    replace (yb - (yb - ya) / 2 - s_y a) with ((ya - s_y a) + 1 / 2 * ((yb - s_y a) - (ya - s_y a))) by field.
    rewrite (chord_linear a b _ _ _ Y). unfold part, plus, scaled, minus, placed, vmore, turned_x, turned_z, edge.
    destruct (w_cut w) as [[fr [|]]|]; [pose proof (F _ _ eq_refl) as F'|pose proof (F _ _ eq_refl) as F'|clear F]; destruct (w_vertical w); cbn [vx vy vz fst snd]; f_equal;
      unfold Rdiv; try ring; field; try lra. }
  split; [exact (H (25 / 100) (fun y => edge a (chord_at a b (y - s_y a)) n k + (edge a (chord_at a b (y - s_y a)) n n - edge a (chord_at a b (y - s_y a)) n 0) / INR n * (25 / 100)))|]. unfold p, panel_points. cbn [t_c t_ac t_bc].
  rewrite (twisted_free w a b (ya - s_y a) _ (edge a (chord_at a b (ya - s_y a)) n (S k)) U).
  rewrite (twisted_free w a b (yb - s_y a) _ (edge a (chord_at a b (yb - s_y a)) n k) U).
  rewrite <- (twisted_free w a b (ya - s_y a) _ 0 U). rewrite <- (twisted_free w a b (yb - s_y a) _ 0 U). exact (H (75 / 100) (fun _ => 0)).
Qed.

(** across a section *)
Lemma at_section a b : s_y b <> s_y a -> chord_at a b (s_y b - s_y a) = s_chord b /\ twist_at a b (s_y b - s_y a) = s_twist b.
Proof. intro. unfold chord_at, twist_at. split; field; lra. Qed.
Lemma at_start b c : chord_at b c (s_y b - s_y b) = s_chord b /\ twist_at b c (s_y b - s_y b) = s_twist b.
Proof. unfold chord_at, twist_at. split; ring. Qed.
Lemma across_section w n a b c side x x' : s_y b <> s_y a -> uncambered a -> uncambered b ->
  s_x b = s_x a + (s_y b - s_y a) * tan (s_sweep a) -> s_z b = s_z a + (s_y b - s_y a) * tan (s_dihedral a) ->
  (w_vertical w = true -> inverted a = inverted b) -> s_le a = s_le b -> s_te a = s_te b ->
  chord_point w a b side (s_y b) (edge a (chord_at a b (s_y b - s_y a)) n x) (edge a (chord_at a b (s_y b - s_y a)) n x') =
  chord_point w b c side (s_y b) (edge b (chord_at b c (s_y b - s_y b)) n x) (edge b (chord_at b c (s_y b - s_y b)) n x').
Proof.
  intros Y UA UB X Z V L T. unfold chord_point. rewrite (twisted_free w a b _ _ _ UA), (twisted_free w b c _ _ _ UB).
  assert (E : twisted w a b (s_y b - s_y a) (edge a (chord_at a b (s_y b - s_y a)) n x) (edge a (chord_at a b (s_y b - s_y a)) n x) =
    twisted w b c (s_y b - s_y b) (edge b (chord_at b c (s_y b - s_y b)) n x) (edge b (chord_at b c (s_y b - s_y b)) n x)).
  { unfold twisted. cbv zeta. destruct (at_section a b Y) as [-> ->]. destruct (at_start b c) as [-> ->]. unfold flat_z, pivot_x, pivot_z, flat_x.
    rewrite !camber_flat by assumption. rewrite X, Z. unfold edge. rewrite L, T. replace (s_y b - s_y b) with 0 by ring. rewrite !Rmult_0_l, !Rplus_0_r.
    destruct (w_cut w) as [[f [|]]|]; reflexivity. }
  rewrite E. unfold placed. destruct (w_vertical w); [rewrite V by reflexivity|]; reflexivity.
Qed.
(** twist turns a chord about the leading edge, nose up *)
Lemma chord_twist w n a b side ya yb k : (0 < n)%nat -> uncambered a -> w_vertical w = false -> let p := panel_points w n a b side ya yb k in
  let t := twist_at a b (ya - s_y a) in let c := chord_at a b (ya - s_y a) * (s_te a - s_le a) / INR n in
  minus (t_a2 p) (t_a1 p) = V3 (c * cos t) 0 (- (c * sin t)).
Proof.
  intros N U V p t c. unfold p, panel_points. cbn [t_a1 t_a2]. unfold placed, twisted. rewrite V. cbv zeta. unfold minus, vmore. cbn [vx vy vz fst snd].
  fold t. unfold turned_x, turned_z, flat_z, flat_x. rewrite !camber_flat by exact U.
  assert (E : edge a (chord_at a b (ya - s_y a)) n (S k) - edge a (chord_at a b (ya - s_y a)) n k = c).
  { unfold edge, c. rewrite S_INR. assert (0 < INR n) by (apply lt_0_INR; exact N). field. lra. }
  rewrite <- E. f_equal; ring.
Qed.
(** sides *)
Lemma placed_opposite w a y xz : placed w a (-1) y xz = opposite (w_vertical w) (placed w a 1 y xz).
Proof. unfold placed, opposite, mirror, vmore. destruct (w_vertical w); cbn [vx vy vz fst snd]; f_equal; ring. Qed.
Lemma points_opposite w n a b ya yb k : panel_points w n a b (-1) ya yb k = map_points (opposite (w_vertical w)) (panel_points w n a b 1 ya yb k).
Proof.
  unfold panel_points, map_points.
  cbn [t_a1 t_ah t_ac t_a2 t_b1 t_bh t_bc t_b2 t_ch t_c]. rewrite !placed_opposite. reflexivity.
Qed.
Lemma side_opposite w n l ys : side_points w n l ys (-1) = match side_points w n l ys 1 with Ok p => Ok (map (map_points (opposite (w_vertical w))) p) | Err e => Err e end.
Proof.
  unfold side_points. destruct (strips (map s_y l) 0 ys) as [st|e]; [|reflexivity]. cbn [bind]. f_equal. rewrite concat_map, map_map. f_equal. apply map_ext.
  intros [[i ya] yb]. rewrite map_map. apply map_ext. intro k. apply points_opposite.
Qed.
(** areas *)
Lemma panel_area_flat w n a b side ya yb k : (0 < n)%nat -> uncambered a -> s_twist a = 0 -> s_twist b = 0 -> w_vertical w = false -> (side = 1 \/ side = -1) ->
  0 < cos (s_dihedral a) -> ya <= yb -> 0 <= chord_at a b (ya - s_y a) -> 0 <= chord_at a b (yb - s_y a) -> s_le a <= s_te a ->
  panel_area (corners (panel_points w n a b side ya yb k)) =
  (chord_at a b (ya - s_y a) + chord_at a b (yb - s_y a)) / 2 * (s_te a - s_le a) / INR n * ((yb - ya) / cos (s_dihedral a)).
Proof.
  intros N U T1 T2 V SD C Y CA CB LT. assert (NR : 0 < INR n) by (apply lt_0_INR; exact N).
  assert (T0 : forall e, twist_at a b e = 0) by (intro; rewrite twist_same; congruence).
  set (ca := chord_at a b (ya - s_y a)) in *. set (cb := chord_at a b (yb - s_y a)) in *. set (d := (s_te a - s_le a) / INR n).
  set (xa := pivot_x w a (ya - s_y a) ca). set (xb := pivot_x w a (yb - s_y a) cb).
  assert (D : 0 <= d) by (unfold d; apply Rmult_le_pos; [lra|]; left; apply Rinv_0_lt_compat; lra).
  set (t := tan (s_dihedral a)).
  assert (TC : t * cos (s_dihedral a) = sin (s_dihedral a)) by (unfold t, tan; field; lra).
  assert (SQ : sqrt (1 + t * t) = / cos (s_dihedral a)).
  { apply sqrt_lem_1; [nra|left; apply Rinv_0_lt_compat; lra|]. pose proof (sin2_cos2 (s_dihedral a)) as SC. unfold Rsqr in SC.
    apply (Rmult_eq_reg_l (cos (s_dihedral a) * cos (s_dihedral a))); [|nra]. rewrite <- TC in SC.
    replace (cos (s_dihedral a) * cos (s_dihedral a) * (/ cos (s_dihedral a) * / cos (s_dihedral a))) with 1 by (field; lra). lra. }
  assert (NORM : forall x y z q, 0 <= q -> x = 0 -> y * y = q * q * (t * t) * ((yb - ya) * (yb - ya)) -> z * z = q * q * ((yb - ya) * (yb - ya)) ->
    npnorm (V3 x y z) = q * (yb - ya) * / cos (s_dihedral a)).
  { intros x y z q Q -> Hy Hz. unfold npnorm. cbn [vx vy vz]. rewrite Hy, Hz.
    replace (0 * 0 + q * q * (t * t) * ((yb - ya) * (yb - ya)) + q * q * ((yb - ya) * (yb - ya))) with ((q * (yb - ya)) * (q * (yb - ya)) * (1 + t * t)) by ring.
    assert (0 <= q * (yb - ya)) by (apply Rmult_le_pos; lra). rewrite sqrt_mult by nra. rewrite sqrt_square by assumption. rewrite SQ. reflexivity. }
  unfold panel_area, corners. cbn [q_a1 q_b1 q_a2 q_b2]. unfold panel_points. cbn [t_a1 t_a2 t_b1 t_b2]. fold ca cb.
  assert (EA : edge a ca n (S k) = edge a ca n k + ca * d) by (unfold edge, d; rewrite S_INR; field; lra).
  assert (EB : edge a cb n (S k) = edge a cb n k + cb * d) by (unfold edge, d; rewrite S_INR; field; lra).
  unfold placed, twisted. rewrite V. cbv zeta. cbn [fst snd]. rewrite !T0. unfold turned_x, turned_z. rewrite cos_0, sin_0. unfold flat_x, flat_z, pivot_z. rewrite !camber_flat by exact U.
  unfold vmore, vless, npcross. cbn [vx vy vz]. fold ca cb t. rewrite EA, EB. generalize (edge a ca n k), (edge a cb n k). intros ea eb.
  fold xa xb. unfold d in *.
  rewrite (NORM _ _ _ (ca * ((s_te a - s_le a) / INR n))); [|nra|ring| |]; [rewrite (NORM _ _ _ (cb * ((s_te a - s_le a) / INR n))); [|nra|ring| |]|..].
  - field. lra.
  - ring.
  - destruct SD as [-> | ->]; ring.
  - ring.
  - destruct SD as [-> | ->]; ring.
Qed.
