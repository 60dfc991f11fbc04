(** * Proofs about wings *)
From Coq Require Import Reals List Bool Lra Lia Psatz.
From Verif Require Import M_Opt P_Opt M_Wing S_Wing.
Import ListNotations.
Local Open Scope R_scope.
Local Open Scope list_scope.

(** ** Integrals *)
Lemma same_slope : forall F G f, (forall t, derivable_pt_lim F t (f t)) -> (forall t, derivable_pt_lim G t (f t)) ->
  forall a b, F b - F a = G b - G a.
Proof.
  intros F G f HF HG a b.
  assert (D : forall x, derivable_pt_lim (fun x => F x - G x) x 0).
  { intro x. replace 0 with (f x - f x) by ring. apply (derivable_pt_lim_minus F G x _ _ (HF x) (HG x)). }
  assert (P : derivable (fun x => F x - G x)) by (intro x; exists 0; apply D).
  enough (F b - G b = F a - G a) by lra.
  assert (E : constant (fun x => F x - G x)).
  { apply (null_derivative_1 _ P). intro x. apply derive_pt_eq_0, D. }
  apply (E b a).
Qed.
Lemma integral_unique : forall f a b v w, integral f a b v -> integral f a b w -> v = w.
Proof.
  intros f a b v w (F & HF & <-) (G & HG & <-). apply (same_slope F G f HF HG).
Qed.
(** a cubic, differentiated *)
Lemma cubic_derivative : forall a b c d t,
  derivable_pt_lim (fun t => a + b * t + c * t ^ 2 + d * t ^ 3) t (b + 2 * c * t + 3 * d * t ^ 2).
Proof.
  intros a b c d t.
  replace (b + 2 * c * t + 3 * d * t ^ 2)
    with (0 + b * 1 + c * (INR 2 * t ^ pred 2) + d * (INR 3 * t ^ pred 3)) by (simpl; ring).
  apply derivable_pt_lim_plus; [apply derivable_pt_lim_plus; [apply derivable_pt_lim_plus |] |].
  - apply derivable_pt_lim_const.
  - apply (derivable_pt_lim_scal id). apply derivable_pt_lim_id.
  - apply (derivable_pt_lim_scal (fun t => t ^ 2)). apply derivable_pt_lim_pow.
  - apply (derivable_pt_lim_scal (fun t => t ^ 3)). apply derivable_pt_lim_pow.
Qed.
Lemma integral_quadratic : forall f p q r a b,
  (forall t, f t = p + q * t + r * t ^ 2) ->
  integral f a b (p * (b - a) + q * (b ^ 2 - a ^ 2) / 2 + r * (b ^ 3 - a ^ 3) / 3).
Proof.
  intros f p q r a b E. exists (fun t => 0 + p * t + (q / 2) * t ^ 2 + (r / 3) * t ^ 3). split.
  - intro t. rewrite E. replace (p + q * t + r * t ^ 2) with (p + 2 * (q / 2) * t + 3 * (r / 3) * t ^ 2) by field.
    apply cubic_derivative.
  - field.
Qed.

Lemma straight_affine : forall c0 c1 h y, h <> 0 -> straight c0 c1 h y = c0 + (c1 - c0) / h * y.
Proof. intros. unfold straight. field. trivial. Qed.
Lemma straight_integral : forall c0 c1 h, h <> 0 -> integral (straight c0 c1 h) 0 h (h * (c0 + c1) / 2).
Proof.
  intros c0 c1 h H.
  replace (h * (c0 + c1) / 2) with (c0 * (h - 0) + (c1 - c0) / h * (h ^ 2 - 0 ^ 2) / 2 + 0 * (h ^ 3 - 0 ^ 3) / 3)
    by (field; trivial).
  apply integral_quadratic. intro t. rewrite straight_affine by trivial. ring.
Qed.
Lemma straight_square_integral : forall c0 c1 h, h <> 0 ->
  integral (fun y => straight c0 c1 h y ^ 2) 0 h (h * (c0 ^ 2 + c0 * c1 + c1 ^ 2) / 3).
Proof.
  intros c0 c1 h H. set (k := (c1 - c0) / h).
  replace (h * (c0 ^ 2 + c0 * c1 + c1 ^ 2) / 3)
    with (c0 ^ 2 * (h - 0) + 2 * c0 * k * (h ^ 2 - 0 ^ 2) / 2 + k ^ 2 * (h ^ 3 - 0 ^ 3) / 3)
    by (unfold k; field; trivial).
  apply integral_quadratic. intro t. rewrite straight_affine by trivial. fold k. ring.
Qed.
Lemma straight_moment_integral : forall x0 s c0 c1 h, h <> 0 ->
  integral (fun y => (x0 + s * y) * straight c0 c1 h y) 0 h
    (x0 * h * (c0 + c1) / 2 + s * h ^ 2 * (c0 + 2 * c1) / 6).
Proof.
  intros x0 s c0 c1 h H. set (k := (c1 - c0) / h).
  replace (x0 * h * (c0 + c1) / 2 + s * h ^ 2 * (c0 + 2 * c1) / 6)
    with (x0 * c0 * (h - 0) + (x0 * k + s * c0) * (h ^ 2 - 0 ^ 2) / 2 + s * k * (h ^ 3 - 0 ^ 3) / 3)
    by (unfold k; field; trivial).
  apply integral_quadratic. intro t. rewrite straight_affine by trivial. fold k. ring.
Qed.
Lemma straight_part_integral : forall c0 c1 h a b, h <> 0 ->
  integral (straight c0 c1 h) a b ((b - a) * (straight c0 c1 h a + straight c0 c1 h b) / 2).
Proof.
  intros c0 c1 h a b H. set (k := (c1 - c0) / h).
  replace ((b - a) * (straight c0 c1 h a + straight c0 c1 h b) / 2)
    with (c0 * (b - a) + k * (b ^ 2 - a ^ 2) / 2 + 0 * (b ^ 3 - a ^ 3) / 3)
    by (rewrite !straight_affine by trivial; fold k; field).
  apply integral_quadratic. intro t. rewrite straight_affine by trivial. fold k. ring.
Qed.

(** ** The trapezoidal wing *)
Lemma span_square : forall w, sensible w -> 0 < p_span (wing_planform w) /\ p_span (wing_planform w) ^ 2 = w_ar w * w_sref w.
Proof.
  intros w (S & A & T).
  assert (E : p_span (wing_planform w) = sqrt (w_ar w * w_sref w)).
  { unfold wing_planform. destruct (if w_vertical w then _ else _). destruct (w_flap w); reflexivity. }
  rewrite E. assert (P : 0 < w_ar w * w_sref w) by (apply Rmult_lt_0_compat; trivial). split.
  - apply sqrt_lt_R0, P.
  - replace (sqrt (w_ar w * w_sref w) ^ 2) with (sqrt (w_ar w * w_sref w) * sqrt (w_ar w * w_sref w)) by ring.
    apply sqrt_sqrt. lra.
Qed.

(** the outputs, one equation each *)
Section Outputs.
  Variable w : wing.
  Let b := p_span (wing_planform w).
  Let cr := p_root (wing_planform w).
  Let ct := p_tip (wing_planform w).
  Let t := w_taper w.
  Lemma out_root : cr = 2 * w_sref w / b / (1 + t).
  Proof. unfold cr, b, t, wing_planform. destruct (if w_vertical w then _ else _). destruct (w_flap w); reflexivity. Qed.
  Lemma out_tip : ct = t * cr.
  Proof. unfold ct, cr, t, wing_planform. destruct (if w_vertical w then _ else _). destruct (w_flap w); reflexivity. Qed.
  Lemma out_mac : p_mac (wing_planform w) = 2 / 3 * (cr + ct - cr * ct / (cr + ct)).
  Proof. unfold cr, ct, wing_planform. destruct (if w_vertical w then _ else _). destruct (w_flap w); reflexivity. Qed.
  Lemma out_mgc : p_mgc (wing_planform w) = (cr + ct) / 2.
  Proof. unfold cr, ct, wing_planform. destruct (if w_vertical w then _ else _). destruct (w_flap w); reflexivity. Qed.
  Lemma out_wetted : p_wetted (wing_planform w) = 2 * b / 2 * (cr + ct) * (1 + (2/10) * w_tc w).
  Proof. unfold b, cr, ct, wing_planform. destruct (if w_vertical w then _ else _). destruct (w_flap w); reflexivity. Qed.
  Lemma out_le : tan (p_le (wing_planform w)) = tan (w_sweep w) - 4 / w_ar w * (0 - (25/100)) * (1 - t) / (1 + t).
  Proof. unfold t, wing_planform. destruct (if w_vertical w then _ else _). destruct (w_flap w); cbn [p_le]; apply tan_atan. Qed.
  Lemma out_le_range : - PI / 2 < p_le (wing_planform w) < PI / 2.
  Proof. unfold wing_planform. destruct (if w_vertical w then _ else _). destruct (w_flap w); cbn [p_le]; apply atan_bound. Qed.
  Lemma out_length : p_length (wing_planform w) = tan (p_le (wing_planform w)) * b / 2 + ct.
  Proof. unfold b, ct, wing_planform. destruct (if w_vertical w then _ else _). destruct (w_flap w); reflexivity. Qed.
  Lemma out_total : p_span_total (wing_planform w) = b / cos (w_dihedral w).
  Proof. unfold b, wing_planform. destruct (if w_vertical w then _ else _). destruct (w_flap w); reflexivity. Qed.
  Lemma out_center : p_center (wing_planform w) =
    let y := b / 6 * ((1 + 2 * t) / (1 + t)) in
    (p_mac (wing_planform w) * (25/100) + y * tan (p_le (wing_planform w)),
     if w_symmetric w then 0 else if w_vertical w then y * tan (w_dihedral w) else y,
     if w_vertical w then y else y * tan (w_dihedral w)).
  Proof. unfold b, t, wing_planform. destruct (w_vertical w); destruct (w_flap w); reflexivity. Qed.
  Lemma out_flap : w_flap w = None -> p_affected (wing_planform w) = 0 /\ p_flap (wing_planform w) = None.
  Proof. intro E. unfold wing_planform. rewrite E. destruct (w_vertical w); split; reflexivity. Qed.
  Lemma out_flap_some : forall f, w_flap w = Some f ->
    let cs := cr + (ct - cr) * f_start f in
    let ce := cr + (ct - cr) * f_end f in
    p_affected (wing_planform w) = (cs + ce) * (f_end f - f_start f) * b / 2 /\
    p_flap (wing_planform w) =
      Some (FlapOut (2 / 3 * (cs + ce - cs * ce / (cs + ce)) * f_chord_fraction f)
                    ((cs * f_chord_fraction f + ce * f_chord_fraction f) * (f_end f - f_start f) * b / 2)).
  Proof. intros f E. unfold b, cr, ct, wing_planform. rewrite E. destruct (w_vertical w); split; reflexivity. Qed.
End Outputs.

Lemma chords_positive : forall w, sensible w -> 0 < p_root (wing_planform w) /\ 0 < p_tip (wing_planform w).
Proof.
  intros w H. destruct (span_square w H) as (B & _). destruct H as (S & A & T).
  assert (Q : 0 < p_root (wing_planform w)).
  { rewrite out_root. apply Rdiv_lt_0_compat; [apply Rdiv_lt_0_compat |]; lra. }
  split; [exact Q |]. rewrite out_tip. apply Rmult_lt_0_compat; lra.
Qed.
Lemma trapezoid_area : forall w, sensible w ->
  p_span (wing_planform w) * (p_root (wing_planform w) + p_tip (wing_planform w)) / 2 = w_sref w.
Proof.
  intros w H. destruct (span_square w H) as (B & _). destruct H as (S & A & T).
  rewrite out_tip, out_root. field. lra.
Qed.

(** the mean aerodynamic chord of a straight-edged panel *)
Definition mac_of (c0 c1 : R) : R := 2 / 3 * (c0 + c1 - c0 * c1 / (c0 + c1)).
Lemma mac_of_square : forall c0 c1 h, 0 < c0 + c1 -> mac_of c0 c1 * (h * (c0 + c1) / 2) = h * (c0 ^ 2 + c0 * c1 + c1 ^ 2) / 3.
Proof. intros. unfold mac_of. field. lra. Qed.
Lemma mac_of_bounds : forall c0 c1, 0 <= c0 -> 0 <= c1 -> 0 < c0 + c1 ->
  (c0 + c1) / 2 <= mac_of c0 c1 /\ Rmin c0 c1 <= mac_of c0 c1 <= Rmax c0 c1.
Proof.
  intros c0 c1 H0 H1 H.
  assert (E : mac_of c0 c1 = (c0 + c1) / 2 + (c0 - c1) ^ 2 / (6 * (c0 + c1))) by (unfold mac_of; field; lra).
  assert (P : 0 <= (c0 - c1) ^ 2 / (6 * (c0 + c1))).
  { apply Rle_mult_inv_pos; [apply pow2_ge_0 | lra]. }
  split; [lra | split].
  - pose proof (Rmin_l c0 c1). pose proof (Rmin_r c0 c1). lra.
  - assert (U : forall a c, 0 <= a -> a <= c -> 0 < a + c -> mac_of a c <= c /\ mac_of c a <= c).
    { intros a c Ha Hc Hs.
      assert (mac_of a c = c - (c - a) * (c + 2 * a) / (3 * (a + c))) by (unfold mac_of; field; lra).
      assert (mac_of c a = c - (c - a) * (c + 2 * a) / (3 * (a + c))) by (unfold mac_of; field; lra).
      assert (0 <= (c - a) * (c + 2 * a) / (3 * (a + c))).
      { apply Rle_mult_inv_pos; [apply Rmult_le_pos |]; lra. }
      lra. }
    destruct (Rle_dec c0 c1).
    + rewrite Rmax_right by trivial. apply U; trivial.
    + rewrite Rmax_left by lra. apply (U c1 c0); lra.
Qed.

(** ** Segmented wings *)
Lemma sumover_neighbours : forall f l, sumover f l = neighbours (fun a b => f (a, b)) l.
Proof.
  intros f l. unfold sumover, panels. induction l as [| a [| b rest] IH]; try reflexivity.
  cbn [tl combine map total fold_right neighbours] in *. rewrite <- IH. reflexivity.
Qed.
Lemma neighbours_cons : forall f a b rest, neighbours f (a :: b :: rest) = f a b + neighbours f (b :: rest).
Proof. reflexivity. Qed.
Lemma neighbours_scal : forall k f l, neighbours (fun a b => k * f a b) l = k * neighbours f l.
Proof.
  intros k f l. induction l as [| a [| b rest] IH]; cbn [neighbours] in *; try ring. rewrite IH. ring.
Qed.
Lemma neighbours_plus : forall f g l, neighbours (fun a b => f a b + g a b) l = neighbours f l + neighbours g l.
Proof.
  intros f g l. induction l as [| a [| b rest] IH]; cbn [neighbours] in *; try ring. rewrite IH. ring.
Qed.
(** sums over an ordered wing only look at proper panels *)
Definition panel (a b : seg) : Prop := s_loc a < s_loc b /\ 0 < s_chord a /\ 0 <= s_chord b.
Lemma outboard_cons : forall a b rest, outboard (a :: b :: rest) -> panel a b /\ outboard (b :: rest).
Proof.
  intros a b rest (L & C & O). repeat split; trivial. destruct rest as [| c rest].
  - exact O.
  - destruct O as (_ & P & _). lra.
Qed.
Lemma neighbours_ext : forall f g l, outboard l -> (forall a b, panel a b -> f a b = g a b) ->
  neighbours f l = neighbours g l.
Proof.
  intros f g l O E. induction l as [| a [| b rest] IH]; try reflexivity.
  apply outboard_cons in O as (P & O). cbn [neighbours] in *. rewrite (E a b P), IH by exact O. reflexivity.
Qed.
Lemma neighbours_le : forall f g l, outboard l -> (forall a b, panel a b -> f a b <= g a b) ->
  neighbours f l <= neighbours g l.
Proof.
  intros f g l O E. induction l as [| a [| b rest] IH]; try (cbn; lra).
  apply outboard_cons in O as (P & O). pose proof (E a b P). pose proof (IH O). cbn [neighbours] in *. lra.
Qed.
Lemma neighbours_pos : forall f a b rest, outboard (a :: b :: rest) -> (forall a b, panel a b -> 0 < f a b) ->
  0 < neighbours f (a :: b :: rest).
Proof.
  intros f a b rest O E. apply outboard_cons in O as (P & O).
  assert (neighbours (fun _ _ => 0) (b :: rest) <= neighbours f (b :: rest)).
  { apply neighbours_le; [exact O |]. intros. apply Rlt_le, E. trivial. }
  assert (Z : forall l, neighbours (fun _ _ => 0) l = 0).
  { induction l as [| x [| y l] IH]; cbn [neighbours] in *; lra. }
  rewrite Z in H. pose proof (E a b P). cbn [neighbours] in *. lra.
Qed.
(** lengths add up to the distance between the first and the last segment *)
Lemma last_default : forall (A : Type) (l : list A) d e, l <> [] -> last l d = last l e.
Proof.
  induction l as [| x [| y l] IH]; intros d e H; [congruence | reflexivity |].
  cbn [last]. apply IH. discriminate.
Qed.
Lemma lengths_telescope : forall l a, neighbours (fun a b => s_loc b - s_loc a) (a :: l) = s_loc (last (a :: l) a) - s_loc a.
Proof.
  induction l as [| b rest IH]; intro a; [cbn; ring |].
  change (s_loc b - s_loc a + neighbours (fun a b => s_loc b - s_loc a) (b :: rest) = s_loc (last (b :: rest) a) - s_loc a).
  rewrite IH. rewrite (last_default _ (b :: rest) b a) by discriminate. ring.
Qed.
Lemma lengths_cover : forall l, covers l -> neighbours (fun a b => s_loc b - s_loc a) l = 1.
Proof.
  intros l (a & m & b & -> & A & B). rewrite lengths_telescope, A.
  rewrite app_comm_cons, last_last, B. ring.
Qed.

Section Panel.
  Variables (semispan RC : R).
  Hypothesis HS : 0 < semispan.
  Hypothesis HR : 0 < RC.
  Let ca (a : seg) := RC * s_chord a.
  Lemma reach_pos : forall a b, panel a b -> 0 < reach semispan a b.
  Proof. intros a b (L & _). unfold reach. apply Rmult_lt_0_compat; lra. Qed.
  Lemma len_reach : forall a b, len_dim semispan (a, b) = reach semispan a b.
  Proof. intros. unfold len_dim, len_ndim, reach. cbn. ring. Qed.
  Lemma area_trapezoid : forall a b, area semispan RC (a, b) = reach semispan a b * (ca a + ca b) / 2.
  Proof. intros. unfold area. rewrite len_reach. unfold c_in, c_out, ca. cbn. field. Qed.
  Lemma area_pos : forall a b, panel a b -> 0 < area semispan RC (a, b).
  Proof.
    intros a b P. rewrite area_trapezoid. pose proof (reach_pos a b P). destruct P as (_ & A & B).
    assert (0 < ca a) by (unfold ca; apply Rmult_lt_0_compat; trivial).
    assert (0 <= ca b) by (unfold ca; apply Rmult_le_pos; lra).
    unfold Rdiv. apply Rmult_lt_0_compat; [apply Rmult_lt_0_compat |]; lra.
  Qed.
  Lemma chord_squared_value : forall a b, panel a b ->
    semispan * chord_squared RC (a, b) = reach semispan a b * (ca a ^ 2 + ca a * ca b + ca b ^ 2) / 3.
  Proof.
    intros a b (L & A & B). unfold chord_squared, reach, c_in, c_out, len_ndim. cbn [fst snd]. fold (ca a) (ca b).
    destruct (Req_EM_T (ca a) (ca b)) as [E | E].
    - rewrite <- E. field.
    - destruct (Req_EM_T (s_loc b - s_loc a) 0); [lra |]. field. split; lra.
  Qed.
  Lemma panel_le_tan : forall a b, panel a b ->
    tan (panel_le semispan RC (a, b)) * reach semispan a b = ca a / 4 + tan (s_sweep a) * reach semispan a b - ca b / 4.
  Proof.
    intros a b P. unfold panel_le. rewrite tan_atan, len_reach. unfold c_in, c_out. cbn [fst snd].
    fold (ca a) (ca b). pose proof (reach_pos a b P). field. lra.
  Qed.
  Lemma one_side : forall l, sumover (area semispan RC) l = trapezoids semispan RC l.
  Proof.
    intro l. rewrite sumover_neighbours. unfold trapezoids. induction l as [| a [| b rest] IH]; try reflexivity.
    cbn [neighbours] in *. rewrite IH, area_trapezoid. reflexivity.
  Qed.
  Lemma trapezoids_pos : forall a b rest, outboard (a :: b :: rest) -> 0 < trapezoids semispan RC (a :: b :: rest).
  Proof.
    intros. unfold trapezoids. apply neighbours_pos; [trivial |]. intros x y P.
    pose proof (area_pos x y P) as Q. rewrite area_trapezoid in Q. exact Q.
  Qed.
End Panel.

Lemma first_moment_unique : forall S RC slope l x0 m m', outboard l ->
  first_moment S RC slope x0 l m -> first_moment S RC slope x0 l m' -> m = m'.
Proof.
  intros S RC slope. induction l as [| a [| b rest] IH]; intros x0 m m' O H H'; inversion H; inversion H'; subst; trivial.
  apply outboard_cons in O as (_ & O). f_equal.
  - eapply integral_unique; eassumption.
  - eapply IH; eassumption.
Qed.
Lemma moments_cons : forall S RC dx dy dz p rest mx my mz,
  moments S RC (dx + tan (panel_le S RC p) * len_dim S p) (dy + len_dim S p)
    (dz + tan (s_dihedral (fst p)) * len_dim S p) rest = (mx, my, mz) ->
  moments S RC dx dy dz (p :: rest) =
    (let '(cx, cy, cz) := segment_centroid (panel_le S RC p) (len_dim S p) (panel_taper p)
                            (s_dihedral (fst p)) (c_in RC p) (c_out RC p) in
     ((cx + dx) * area S RC p + mx, (cy + dy) * area S RC p + my, (cz + dz) * area S RC p + mz)).
Proof. intros S RC dx dy dz p rest mx my mz E. cbn [moments]. rewrite E. reflexivity. Qed.

Lemma moments_integrals : forall S RC, 0 < S -> 0 < RC -> forall l a, outboard (a :: l) -> forall dx dy dz,
  exists mx my mz, moments S RC dx dy dz (panels (a :: l)) = (mx, my, mz) /\
    first_moment S RC (fun a => tan (s_sweep a)) (dx + RC * s_chord a / 4) (a :: l)
      (mx - S * neighbours (fun a b => chord_squared RC (a, b)) (a :: l) / 4) /\
    first_moment S RC (fun _ => 1) dy (a :: l) my /\
    first_moment S RC (fun a => tan (s_dihedral a)) dz (a :: l) mz.
Proof.
  intros S RC HS HR. induction l as [| b rest IH]; intros a O dx dy dz.
  - exists 0, 0, 0. cbn. split; [reflexivity |]. replace (0 - S * 0 / 4) with 0 by field. repeat split; constructor.
  - apply outboard_cons in O as (P & O).
    pose proof (reach_pos S HS a b P) as L. pose proof P as (_ & A & B).
    assert (SA : 0 < RC * s_chord a) by (apply Rmult_lt_0_compat; trivial).
    assert (SB : 0 <= RC * s_chord b) by (apply Rmult_le_pos; lra).
    pose proof (panel_le_tan S RC HS a b P) as T.
    pose proof (chord_squared_value S RC a b P) as Q. cbv zeta in T, Q.
    destruct (IH b O (dx + tan (panel_le S RC (a, b)) * reach S a b) (dy + reach S a b)
                (dz + tan (s_dihedral a) * reach S a b)) as (mx & my & mz & E & Hx & Hy & Hz).
    change (panels (a :: b :: rest)) with ((a, b) :: panels (b :: rest)).
    rewrite <- !(len_reach S a b) in E.
    rewrite (moments_cons _ _ _ _ _ (a, b) _ mx my mz E). unfold segment_centroid.
    rewrite len_reach, area_trapezoid. unfold c_in, c_out. cbn [fst snd]. rewrite T.
    eexists _, _, _. split; [reflexivity |].
    set (L0 := reach S a b) in *. set (c0 := RC * s_chord a) in *. set (c1 := RC * s_chord b) in *.
    rewrite neighbours_cons. cbv beta. split; [| split].
    + match goal with |- first_moment _ _ _ ?x _ ?m => 
        replace m with ((x * L0 * (c0 + c1) / 2 + tan (s_sweep a) * L0 ^ 2 * (c0 + 2 * c1) / 6) +
          (mx - S * neighbours (fun a b => chord_squared RC (a, b)) (b :: rest) / 4)) end.
      * constructor.
        -- unfold local_chord. apply straight_moment_integral. fold L0. lra.
        -- fold L0. rewrite T in Hx. 
           replace (dx + c0 / 4 + tan (s_sweep a) * L0) with (dx + (c0 / 4 + tan (s_sweep a) * L0 - c1 / 4) + c1 / 4) by field.
           exact Hx.
      * replace (S * (chord_squared RC (a, b) + neighbours (fun a b => chord_squared RC (a, b)) (b :: rest)) / 4)
          with (S * chord_squared RC (a, b) / 4 + S * neighbours (fun a b => chord_squared RC (a, b)) (b :: rest) / 4) by field.
        rewrite Q. field. lra.
    + match goal with |- first_moment _ _ _ _ _ ?m =>
        replace m with ((dy * L0 * (c0 + c1) / 2 + 1 * L0 ^ 2 * (c0 + 2 * c1) / 6) + my) end.
      * constructor; fold L0.
        -- unfold local_chord. apply (straight_moment_integral dy 1). fold L0. lra.
        -- rewrite Rmult_1_l. exact Hy.
      * unfold panel_taper. cbn [fst snd]. unfold c0, c1. field.
        assert (0 < s_chord a + s_chord b) by lra. split; lra.
    + match goal with |- first_moment _ _ _ _ _ ?m =>
        replace m with ((dz * L0 * (c0 + c1) / 2 + tan (s_dihedral a) * L0 ^ 2 * (c0 + 2 * c1) / 6) + mz) end.
      * constructor; fold L0.
        -- unfold local_chord. apply (straight_moment_integral dz (tan (s_dihedral a))). fold L0. lra.
        -- exact Hz.
      * unfold panel_taper. cbn [fst snd]. unfold c0, c1. field.
        assert (0 < s_chord a + s_chord b) by lra. split; lra.
Qed.

(** ** One more break on a straight edge *)
Lemma divided_head : forall a l l', divided (a :: l) l' -> exists r, l' = a :: r.
Proof.
  intros a l l' H. remember (a :: l) as k eqn:E. revert a l E. induction H; intros x k E; inversion E; subst; eauto.
Qed.
Lemma on_line_panels : forall a m b, panel a b -> on_line a m b -> panel a m /\ panel m b /\ 0 < s_chord m.
Proof.
  intros a m b (L & A & B) ((L1 & L2) & C & _).
  assert (M : 0 < s_chord m).
  { rewrite C, straight_affine by lra.
    replace (s_chord a + (s_chord b - s_chord a) / (s_loc b - s_loc a) * (s_loc m - s_loc a))
      with ((s_chord a * (s_loc b - s_loc m) + s_chord b * (s_loc m - s_loc a)) / (s_loc b - s_loc a)) by (field; lra).
    apply Rdiv_lt_0_compat; [| lra].
    assert (0 < s_chord a * (s_loc b - s_loc m)) by (apply Rmult_lt_0_compat; lra).
    assert (0 <= s_chord b * (s_loc m - s_loc a)) by (apply Rmult_le_pos; lra). lra. }
  unfold panel. repeat split; lra.
Qed.
Lemma divided_outboard : forall l l', divided l l' -> outboard l -> outboard l'.
Proof.
  intros l l' H. induction H as [| a m b rest l' OL H IH | a l l' H IH]; intro O.
  - exact O.
  - apply IH. pose proof (outboard_cons _ _ _ O) as (P & O'). pose proof (on_line_panels a m b P OL) as (P1 & P2 & M).
    destruct P1 as (? & ? & _). destruct P2 as (? & _). cbn [outboard]. repeat split; trivial.
  - destruct l as [| b rest].
    + inversion H; subst. exact O.
    + pose proof (outboard_cons _ _ _ O) as (P & O'). destruct (divided_head _ _ _ H) as (r & ->).
      destruct O as (? & ? & _). cbn [outboard]. repeat split; trivial. apply IH, O'.
Qed.
Lemma divided_neighbours : forall f, 
  (forall a m b, panel a b -> on_line a m b -> f a m + f m b = f a b) ->
  forall l l', divided l l' -> outboard l -> neighbours f l' = neighbours f l.
Proof.
  intros f Hf l l' H. induction H as [| a m b rest l' OL H IH | a l l' H IH]; intro O.
  - reflexivity.
  - pose proof (outboard_cons _ _ _ O) as (P & O'). rewrite IH.
    + change (neighbours f (a :: m :: b :: rest)) with (f a m + (f m b + neighbours f (b :: rest))).
      change (neighbours f (a :: b :: rest)) with (f a b + neighbours f (b :: rest)).
      rewrite <- (Hf a m b P OL). ring.
    + eapply divided_outboard; [| exact O]. apply (divided_here a m b rest _ OL). constructor.
  - destruct l as [| b rest].
    + inversion H; subst. reflexivity.
    + pose proof (outboard_cons _ _ _ O) as (P & O'). destruct (divided_head _ _ _ H) as (r & ->).
      cbn [neighbours]. cbn [neighbours] in IH. rewrite (IH O'). reflexivity.
Qed.
Lemma divided_last : forall l l', divided l l' -> forall d, last l' d = last l d.
Proof.
  intros l l' H. induction H as [| a m b rest l' OL H IH | a l l' H IH]; intro d.
  - reflexivity.
  - rewrite IH. reflexivity.
  - destruct l as [| b rest].
    + inversion H; subst. reflexivity.
    + destruct (divided_head _ _ _ H) as (r & ->). cbn [last] in *. apply IH.
Qed.
Lemma divided_moment : forall S RC slope, 0 < S -> 0 < RC ->
  (forall a m b, on_line a m b -> slope m = slope a) ->
  forall l l', divided l l' -> outboard l -> forall x0 v, first_moment S RC slope x0 l v -> first_moment S RC slope x0 l' v.
Proof.
  intros S RC slope HS HR Hsl l l' H. induction H as [| a m b rest l' OL H IH | a l l' H IH]; intros O x0 v HM.
  - exact HM.
  - pose proof (outboard_cons _ _ _ O) as (P & O').
    apply IH; [eapply divided_outboard; [| exact O]; apply (divided_here a m b rest _ OL); constructor |].
    inversion HM as [| | ? ? ? ? v0 m0 HI HR' E1 E2 E3]; subst. clear HM.
    pose proof (on_line_panels a m b P OL) as (P1 & P2 & M).
    pose proof (reach_pos S HS _ _ P). pose proof (reach_pos S HS _ _ P1). pose proof (reach_pos S HS _ _ P2).
    pose proof (Hsl a m b OL) as Sm.
    assert (V := straight_moment_integral x0 (slope a) (RC * s_chord a) (RC * s_chord b) (reach S a b)).
    rewrite (integral_unique _ _ _ _ _ HI (V ltac:(lra))). clear V HI.
    assert (V1 := straight_moment_integral x0 (slope a) (RC * s_chord a) (RC * s_chord m) (reach S a m) ltac:(lra)).
    assert (V2 := straight_moment_integral (x0 + slope a * reach S a m) (slope m) (RC * s_chord m) (RC * s_chord b) (reach S m b) ltac:(lra)).
    match type of V1 with integral _ _ _ ?v1 => match type of V2 with integral _ _ _ ?v2 =>
      match goal with |- first_moment _ _ _ _ _ (?v + m0) => replace (v + m0) with (v1 + (v2 + m0)) end end end.
    + constructor; [exact V1 |]. constructor; [exact V2 |].
      replace (x0 + slope a * reach S a m + slope m * reach S m b) with (x0 + slope a * reach S a b); [exact HR' |].
      rewrite Sm. unfold reach. ring.
    + rewrite Sm. destruct OL as ((L1 & L2) & C & _). rewrite C, straight_affine by lra. unfold reach. field. lra.
  - destruct l as [| b rest].
    + inversion H; subst. exact HM.
    + pose proof (outboard_cons _ _ _ O) as (P & O'). destruct (divided_head _ _ _ H) as (r & ->).
      inversion HM; subst. constructor; [assumption |]. apply IH; assumption.
Qed.

(** ** The result of wing_segmented_planform *)
Lemma sides_pos : forall sym, 0 < sides sym.
Proof. intros []; unfold sides; lra. Qed.
Lemma neighbours_chords : forall RC l a,
  neighbours (fun a b => RC * s_chord a / 4 - RC * s_chord b / 4) (a :: l)
  = RC * s_chord a / 4 - RC * s_chord (last (a :: l) a) / 4.
Proof.
  intros RC. induction l as [| b rest IH]; intro a; [cbn; ring |].
  rewrite neighbours_cons, IH. change (last (a :: b :: rest) a) with (last (b :: rest) a).
  rewrite (last_default _ (b :: rest) b a) by discriminate. ring.
Qed.
Lemma le_sum : forall S RC, 0 < S -> forall l a, outboard (a :: l) ->
  S * neighbours (fun a b => len_ndim (a, b) * tan (panel_le S RC (a, b))) (a :: l)
  = RC * s_chord a / 4 - RC * s_chord (last (a :: l) a) / 4
    + S * neighbours (fun a b => (s_loc b - s_loc a) * tan (s_sweep a)) (a :: l).
Proof.
  intros S RC HS l a O. rewrite <- neighbours_chords, <- !neighbours_scal, <- neighbours_plus.
  apply neighbours_ext; [exact O |]. intros x y P. pose proof (panel_le_tan S RC HS x y P) as T. cbv zeta in T.
  unfold reach in T. unfold len_ndim. cbn [fst snd]. lra.
Qed.

Record segmented_facts (span RC : R) (sym : bool) (l : list seg) (first : seg) (g : segmented) : Prop := {
  fact_total : g_total_span g = neighbours (fun a b => reach (span / sides sym) a b / cos (s_dihedral a)) l * sides sym;
  fact_mgc : g_mgc g * span = trapezoids (span / sides sym) RC l * sides sym;
  fact_mac : g_mac g * trapezoids (span / sides sym) RC l = span / sides sym * neighbours (fun a b => chord_squared RC (a, b)) l;
  fact_tip : g_tip g = RC * s_chord (last l first);
  fact_taper : g_taper g = s_chord (last l first) / s_chord first;
  fact_c4 : g_c4 g = atan (neighbours (fun a b => (s_loc b - s_loc a) * tan (s_sweep a)) l);
  fact_le : - PI / 2 < g_le g < PI / 2 /\
    tan (g_le g) * (span / sides sym) =
      RC * s_chord first / 4 + tan (g_c4 g) * (span / sides sym) - g_tip g / 4;
  fact_tc : g_tc g * (trapezoids (span / sides sym) RC l * sides sym / 2)
            = neighbours (fun a b => reach (span / sides sym) a b * (RC * s_chord a + RC * s_chord b) / 2 * s_tc a) l;
  fact_center : exists x y z, g_side_center g = (x, y, z) /\ g_center g = (x, (if sym then 0 else y), z) /\
     first_moment (span / sides sym) RC (fun a => tan (s_sweep a)) (RC * s_chord first / 4) l
       (x * trapezoids (span / sides sym) RC l) /\
     first_moment (span / sides sym) RC (fun _ => 1) 0 l (y * trapezoids (span / sides sym) RC l) /\
     first_moment (span / sides sym) RC (fun a => tan (s_dihedral a)) 0 l (z * trapezoids (span / sides sym) RC l);
  fact_length : g_length g = tan (g_le g) * (span / sides sym) + g_tip g }.

Lemma segmented_result : forall span RC sym a b rest ow old,
  0 < span -> 0 < RC -> outboard (a :: b :: rest) ->
  let l := a :: b :: rest in
  let S := span / sides sym in
  let ref := trapezoids S RC l * sides sym in
  exists g,
    segmented_planform span RC sym l ow old =
      Some (g, if ow then Areas ref (neighbours (fun a b => 2 * (1 + (2/10) * s_tc a) * (reach S a b * (RC * s_chord a + RC * s_chord b) / 2)) l) (span ^ 2 / ref)
               else old) /\
    segmented_facts span RC sym l a g.
Proof.
  intros span RC sym a b rest ow old Hs HR O l S ref.
  assert (HS : 0 < S) by (apply Rdiv_lt_0_compat; [exact Hs | apply sides_pos]).
  assert (HA : 0 < trapezoids S RC l) by (apply trapezoids_pos; assumption).
  pose proof (sides_pos sym) as Hd.
  destruct (moments_integrals S RC HS HR (b :: rest) a O 0 0 0) as (mx & my & mz & E & Hx & Hy & Hz). fold l in E, Hx, Hy, Hz.
  unfold segmented_planform. unfold l at 1. fold l S. rewrite E, one_side.
  assert (W : sumover (wet S RC) l
    = neighbours (fun a b => 2 * (1 + (2/10) * s_tc a) * (reach S a b * (RC * s_chord a + RC * s_chord b) / 2)) l).
  { rewrite sumover_neighbours. apply neighbours_ext; [exact O |]. intros. unfold wet. rewrite area_trapezoid. reflexivity. }
  rewrite W. eexists. split; [reflexivity |].
  split; cbn [g_total_span g_mgc g_mac g_tip g_taper g_c4 g_le g_tc g_side_center g_center g_length]; fold S.
  - f_equal. rewrite sumover_neighbours. apply neighbours_ext; [exact O |]. intros. rewrite len_reach. reflexivity.
  - field. lra.
  - rewrite sumover_neighbours. field. lra.
  - reflexivity.
  - reflexivity.
  - rewrite sumover_neighbours. reflexivity.
  - split; [apply atan_bound |]. rewrite !tan_atan, !sumover_neighbours.
    pose proof (le_sum S RC HS (b :: rest) a O) as L. fold l in L.
    rewrite Rmult_comm, L.
    change (neighbours (fun a b => len_ndim (a, b) * tan (s_sweep (fst (a, b)))) l)
      with (neighbours (fun a b => (s_loc b - s_loc a) * tan (s_sweep a)) l). ring.
  - rewrite sumover_neighbours. 
    replace (neighbours (fun a b => area S RC (a, b) * s_tc (fst (a, b))) l)
      with (neighbours (fun a b => reach S a b * (RC * s_chord a + RC * s_chord b) / 2 * s_tc a) l).
    + field. lra.
    + apply neighbours_ext; [exact O |]. intros. rewrite area_trapezoid. reflexivity.
  - rewrite sumover_neighbours.
    replace (trapezoids S RC l * sides sym / sides sym) with (trapezoids S RC l) by (field; lra).
    eexists _, _, _. split; [reflexivity |]. split; [reflexivity |]. split; [| split].
    + rewrite Rplus_0_l in Hx. match goal with |- first_moment _ _ _ _ _ ?m =>
        replace m with (mx - S * neighbours (fun a b => chord_squared RC (a, b)) l / 4) end; [exact Hx |].
      field. lra.
    + replace (my / trapezoids S RC l * trapezoids S RC l) with my by (field; lra). exact Hy.
    + replace (mz / trapezoids S RC l * trapezoids S RC l) with mz by (field; lra). exact Hz.
  - ring.
Qed.

(** ** Segment properties *)
Lemma semispans : forall span sym, span * (5/10) * (2 - (if sym : bool then 1 else 0)) = span / sides sym.
Proof. intros span []; unfold sides; field. Qed.
Lemma q_reference_value : forall S RC off tc sym inner a b,
  q_reference (seg_properties S RC off tc sym inner (a, b)) = (reach S a b * (RC * s_chord a + RC * s_chord b) / 2) * sides sym.
Proof.
  intros. unfold seg_properties. rewrite len_reach. unfold c_in, c_out. cbn. destruct sym; unfold sides; field.
Qed.
Lemma all_properties_panels : forall S RC off tc sym l,
  length (all_properties S RC off tc sym l) = length (panels l) /\
  forall i p, nth_error (panels l) i = Some p ->
    nth_error (all_properties S RC off tc sym l) i = Some (seg_properties S RC off tc sym (Nat.eqb i 0) p).
Proof.
  intros S RC off tc sym l. unfold all_properties. destruct (panels l) as [| p0 rest]; split.
  - reflexivity.
  - intros [| i] p; discriminate.
  - cbn. rewrite map_length. reflexivity.
  - intros [| i] p E.
    + cbn in *. inversion E. reflexivity.
    + cbn in *. apply map_nth_error. exact E.
Qed.
Lemma panels_nth : forall l i a b, nth_error l i = Some a -> nth_error l (S i) = Some b -> nth_error (panels l) i = Some (a, b).
Proof.
  induction l as [| x [| y l] IH]; intros [| i] a b A B; cbn in *; try discriminate.
  - inversion A; inversion B; subst. reflexivity.
  - apply (IH i a b A B).
Qed.
Lemma panels_length : forall l, length (panels l) = pred (length l).
Proof.
  intro l. unfold panels. rewrite combine_length. destruct l as [| x l]; [reflexivity |]. cbn [length tl pred]. apply Nat.min_r. lia.
Qed.
Lemma total_reference : forall S RC off tc sym l,
  total (map q_reference (all_properties S RC off tc sym l)) = trapezoids S RC l * sides sym.
Proof.
  intros. unfold all_properties.
  assert (M : forall l, total (map q_reference (map (seg_properties S RC off tc sym false) (panels l))) = trapezoids S RC l * sides sym).
  { clear l. induction l as [| a [| b rest] IH]; try (cbn; ring).
    change (panels (a :: b :: rest)) with ((a, b) :: panels (b :: rest)).
    cbn [map total fold_right]. rewrite q_reference_value. unfold total in IH. rewrite IH.
    unfold trapezoids. rewrite neighbours_cons. ring. }
  destruct l as [| a [| b rest]]; [cbn; ring | cbn; ring |].
  change (panels (a :: b :: rest)) with ((a, b) :: panels (b :: rest)).
  cbn [map total fold_right]. rewrite q_reference_value. specialize (M (b :: rest)). unfold total in M. rewrite M.
  unfold trapezoids. rewrite neighbours_cons. ring.
Qed.
Lemma nth_panel : forall l i a b, outboard l -> nth_error l i = Some a -> nth_error l (S i) = Some b -> panel a b.
Proof.
  induction l as [| x [| y l] IH]; intros [| i] a b O A B; cbn in A, B; try discriminate.
  - inversion A; inversion B; subst. apply outboard_cons in O. apply O.
  - apply outboard_cons in O as (_ & O). eapply (IH i); eassumption.
Qed.
(** a panel seen from [off] metres outboard of its inner end *)
Lemma straight_shift : forall c0 c1 h off, h <> 0 ->
  c0 + off * ((c1 - c0) / h) = straight c0 c1 h off /\ straight c0 c1 h h = c1.
Proof. intros. unfold straight. split; field; trivial. Qed.
Lemma straight_part_square : forall c0 c1 h a b, h <> 0 ->
  let p := straight c0 c1 h a in let q := straight c0 c1 h b in
  integral (fun y => straight c0 c1 h y ^ 2) a b ((b - a) * (p ^ 2 + p * q + q ^ 2) / 3).
Proof.
  intros c0 c1 h a b H p q. set (k := (c1 - c0) / h).
  replace ((b - a) * (p ^ 2 + p * q + q ^ 2) / 3)
    with (c0 ^ 2 * (b - a) + 2 * c0 * k * (b ^ 2 - a ^ 2) / 2 + k ^ 2 * (b ^ 3 - a ^ 3) / 3)
    by (unfold p, q; rewrite !straight_affine by trivial; fold k; field).
  apply integral_quadratic. intro t. rewrite straight_affine by trivial. fold k. ring.
Qed.
Lemma straight_between : forall c0 c1 h y, 0 < h -> 0 <= y < h -> 0 < c0 -> 0 <= c1 -> 0 < straight c0 c1 h y.
Proof.
  intros c0 c1 h y H Y A B. unfold straight.
  replace (c0 + (c1 - c0) * (y / h)) with ((c0 * (h - y) + c1 * y) / h) by (field; lra).
  apply Rdiv_lt_0_compat; [| lra].
  assert (0 < c0 * (h - y)) by (apply Rmult_lt_0_compat; lra).
  assert (0 <= c1 * y) by (apply Rmult_le_pos; lra). lra.
Qed.

(** ** Control surfaces *)
Definition cut (l r : R) (cs : control) : list control :=
  match overlap (k_start cs) (k_end cs) l r with Some s => [part cs s] | None => [] end.
Fixpoint cuts (w_cs : list control) (prev : option R) (locs : list R) : list (R * list control) :=
  match locs with
  | [] => []
  | r :: rest =>
      (r, match prev with None => [] | Some l => flat_map (cut l r) w_cs end) :: cuts w_cs (Some r) rest
  end.
Lemma attach_cuts : forall cs done locs prev, 
  attach cs prev (cuts done prev locs) = cuts (done ++ [cs]) prev locs.
Proof.
  intros cs done. induction locs as [| r rest IH]; intros prev; [reflexivity |].
  cbn [cuts attach]. rewrite IH. destruct prev as [l |]; [| reflexivity].
  rewrite flat_map_app. cbn [flat_map]. rewrite app_nil_r. change (cut l r cs) with
    (match overlap (k_start cs) (k_end cs) l r with Some s => [part cs s] | None => [] end).
  destruct (overlap _ _ _ _); rewrite ?app_nil_r; reflexivity.
Qed.
Lemma populate_cuts : forall w_cs locs, populate w_cs locs = cuts w_cs None locs.
Proof.
  intros w_cs locs. unfold populate.
  assert (B : map (fun x => (x, [])) locs = cuts [] None locs).
  { generalize (@None R). induction locs as [| r rest IH]; intro p; [reflexivity |].
    cbn [map cuts flat_map]. rewrite (IH (Some r)). destruct p; reflexivity. }
  rewrite B. change w_cs with ([] ++ w_cs) at 2. generalize (@nil control) as done.
  induction w_cs as [| cs rest IH]; intro done.
  - rewrite app_nil_r. reflexivity.
  - cbn [fold_left]. rewrite attach_cuts, IH, <- app_assoc. reflexivity.
Qed.
Ltac cmp :=
  repeat match goal with
  | |- context [Rltb ?x ?y] => destruct (Rltb x y) eqn:?; [rewrite Rltb_true in * | rewrite Rltb_false in *]
  | |- context [Req_EM_T ?x ?y] => destruct (Req_EM_T x y)
  end.
Lemma overlap_value : forall s e l r, s < e -> l < r ->
  overlap s e l r =
    if Rlt_dec (Rmax s l) (Rmin e r)
    then (if Req_EM_T s l then (if Rlt_dec r e then None else Some (Rmax s l, Rmin e r)) else Some (Rmax s l, Rmin e r))
    else None.
Proof.
  intros s e l r H L. unfold overlap.
  destruct (Rtotal_order s l) as [A | [A | A]]; destruct (Rtotal_order e r) as [B | [B | B]].
  all: try (assert (M : Rmax s l = l) by (apply Rmax_right; lra)).
  all: try (assert (M : Rmax s l = s) by (apply Rmax_left; lra)).
  all: try (assert (N : Rmin e r = e) by (apply Rmin_left; lra)).
  all: try (assert (N : Rmin e r = r) by (apply Rmin_right; lra)).
  all: rewrite M, N.
  all: repeat match goal with
    | |- context [Rltb ?x ?y] => let F := fresh in destruct (Rltb x y) eqn:F; [apply Rltb_true in F | apply Rltb_false in F]; try lra
    | |- context [Req_EM_T ?x ?y] => destruct (Req_EM_T x y); try lra
    | |- context [Rlt_dec ?x ?y] => destruct (Rlt_dec x y); try lra
    end; cbn [andb]; try reflexivity; try lra; subst; try reflexivity; try (exfalso; lra).
Qed.

Definition misses (cs : control) (l r : R) : {forgotten cs l r} + {~ forgotten cs l r}.
Proof.
  unfold forgotten. destruct (Req_EM_T (k_start cs) l); [| right; tauto].
  destruct (Rlt_dec r (k_end cs)); [left | right]; tauto.
Defined.
Lemma cut_clip : forall cs l r, k_start cs < k_end cs -> l < r ->
  cut l r cs = if misses cs l r then [] else clip cs l r.
Proof.
  intros cs l r H L. unfold cut, clip. rewrite overlap_value by assumption.
  destruct (misses cs l r) as [(E & F) | N].
  - destruct (Rlt_dec _ _); [| reflexivity]. destruct (Req_EM_T _ _); [| contradiction].
    destruct (Rlt_dec r (k_end cs)); [reflexivity | contradiction].
  - destruct (Rlt_dec _ _); [| reflexivity].
    assert (Q : (if Req_EM_T (k_start cs) l
          then if Rlt_dec r (k_end cs) then None else Some (Rmax (k_start cs) l, Rmin (k_end cs) r)
          else Some (Rmax (k_start cs) l, Rmin (k_end cs) r)) = Some (Rmax (k_start cs) l, Rmin (k_end cs) r)).
    { destruct (Req_EM_T _ _); [| reflexivity]. destruct (Rlt_dec r (k_end cs)); [| reflexivity].
      exfalso. apply N. split; assumption. }
    rewrite Q. unfold part. cbn [fst snd]. do 2 f_equal. field. lra.
Qed.
(** the share of a panel that the surface takes up *)
Definition clamp (s e x : R) : R := Rmin (Rmax x s) e.
Definition share (cs : control) (l r : R) : R := clamp (k_start cs) (k_end cs) r - clamp (k_start cs) (k_end cs) l.
Lemma clip_span : forall cs l r, k_start cs < k_end cs -> l < r ->
  total (map k_span (clip cs l r)) = k_span cs * (share cs l r / (k_end cs - k_start cs)).
Proof.
  intros cs l r H L. unfold clip, share, clamp.
  destruct (Rlt_dec _ _) as [D | D]; cbn [map total fold_right k_span].
  - rewrite Rplus_0_r. do 2 f_equal.
    unfold Rmax, Rmin in *. repeat destruct (Rle_dec _ _); lra.
  - assert (E : Rmin (Rmax r (k_start cs)) (k_end cs) - Rmin (Rmax l (k_start cs)) (k_end cs) = 0).
    { unfold Rmax, Rmin in *. repeat destruct (Rle_dec _ _); lra. }
    rewrite E. unfold Rdiv. ring.
Qed.
Lemma cut_tag : forall cs l r p, In p (cut l r cs) -> k_tag p = k_tag cs.
Proof. intros cs l r p. unfold cut. destruct (overlap _ _ _ _); intros []; subst; [reflexivity | contradiction]. Qed.
Lemma filter_all : forall (A : Type) (f : A -> bool) l, (forall x, In x l -> f x = true) -> filter f l = l.
Proof.
  intros A f. induction l as [| x l IH]; intro H; [reflexivity |]. cbn [filter]. rewrite H by (left; reflexivity).
  f_equal. apply IH. intros y Hy. apply H. right. exact Hy.
Qed.
Lemma filter_none : forall (A : Type) (f : A -> bool) l, (forall x, In x l -> f x = false) -> filter f l = [].
Proof.
  intros A f. induction l as [| x l IH]; intro H; [reflexivity |]. cbn [filter]. rewrite H by (left; reflexivity).
  apply IH. intros y Hy. apply H. right. exact Hy.
Qed.
Lemma cuts_of_tag : forall cs w_cs l r, NoDup (map k_tag w_cs) -> In cs w_cs ->
  filter (fun p => Nat.eqb (k_tag p) (k_tag cs)) (flat_map (cut l r) w_cs) = cut l r cs.
Proof.
  intros cs w_cs l r N I. induction w_cs as [| c rest IH]; [contradiction |].
  cbn [map] in N. inversion N as [| ? ? N1 N2]; subst. cbn [flat_map]. rewrite filter_app.
  destruct I as [-> | I].
  - rewrite (filter_all _ _ (cut l r cs)), (filter_none _ _ (flat_map (cut l r) rest)).
    + apply app_nil_r.
    + intros p Hp. apply in_flat_map in Hp as (d & Hd & Hp). apply cut_tag in Hp. apply Nat.eqb_neq.
      rewrite Hp. intro E. apply N1. rewrite <- E. apply in_map. exact Hd.
    + intros p Hp. apply Nat.eqb_eq. apply (cut_tag _ _ _ _ Hp).
  - rewrite IH by assumption. rewrite filter_none; [reflexivity |].
    intros p Hp. apply cut_tag in Hp. apply Nat.eqb_neq. rewrite Hp. intro E. apply N1. rewrite E. apply in_map. exact I.
Qed.
Lemma total_app : forall l l', total (l ++ l') = total l + total l'.
Proof. unfold total. induction l as [| x l IH]; intro l'; cbn [fold_right app]; [ring | rewrite IH; ring]. Qed.

(** what is attached and what is forgotten, panel by panel *)
Fixpoint along (f : R -> R -> R) (l : R) (locs : list R) : R :=
  match locs with [] => 0 | r :: rest => f l r + along f r rest end.
Definition loss (cs : control) (l r : R) : R := if misses cs l r then share cs l r else 0.
Lemma span_of_cuts : forall cs w_cs, NoDup (map k_tag w_cs) -> In cs w_cs -> k_start cs < k_end cs ->
  forall locs l, ascending (l :: locs) ->
  span_of (k_tag cs) (cuts w_cs (Some l) locs)
  = k_span cs / (k_end cs - k_start cs) * along (fun l r => share cs l r - loss cs l r) l locs.
Proof.
  intros cs w_cs N I H. induction locs as [| r rest IH]; intros l A.
  - cbn. unfold span_of, parts. cbn. field. lra.
  - destruct A as (L & A). unfold span_of, parts in *. cbn [cuts map concat snd].
    rewrite filter_app, map_app, total_app, (IH r A), (cuts_of_tag cs w_cs l r N I), cut_clip by assumption.
    cbn [along]. rewrite Rmult_plus_distr_l. f_equal. unfold loss. destruct (misses cs l r).
    + cbn. field. lra.
    + rewrite clip_span by assumption. field. lra.
Qed.
Lemma along_minus : forall f g locs l, along (fun l r => f l r - g l r) l locs = along f l locs - along g l locs.
Proof. intros f g. induction locs as [| r rest IH]; intro l; cbn [along]; [ring |]. rewrite IH. ring. Qed.
Lemma share_telescope : forall cs locs l,
  along (share cs) l locs = clamp (k_start cs) (k_end cs) (last (l :: locs) l) - clamp (k_start cs) (k_end cs) l.
Proof.
  intros cs. induction locs as [| r rest IH]; intro l; [cbn; ring |].
  cbn [along]. rewrite IH. change (last (l :: r :: rest) l) with (last (r :: rest) l).
  rewrite (last_default _ (r :: rest) r l) by discriminate. unfold share. ring.
Qed.
Lemma span_of_populate : forall cs w_cs locs l, NoDup (map k_tag w_cs) -> In cs w_cs -> k_start cs < k_end cs ->
  ascending (l :: locs) -> l <= k_start cs -> k_end cs <= last (l :: locs) l ->
  span_of (k_tag cs) (populate w_cs (l :: locs))
  = k_span cs * (1 - along (loss cs) l locs / (k_end cs - k_start cs)).
Proof.
  intros cs w_cs locs l N I H A Hl He. rewrite populate_cuts. cbn [cuts].
  unfold span_of at 1, parts. cbn [map snd concat app].
  change (span_of (k_tag cs) (cuts w_cs (Some l) locs) = k_span cs * (1 - along (loss cs) l locs / (k_end cs - k_start cs))).
  rewrite (span_of_cuts cs w_cs N I H locs l A), along_minus, share_telescope. unfold clamp.
  rewrite (Rmax_right l) by assumption. rewrite (Rmin_left (k_start cs)) by lra.
  rewrite (Rmax_left (last (l :: locs) l)) by lra. rewrite (Rmin_right _ (k_end cs)) by assumption.
  field. lra.
Qed.
Lemma loss_zero : forall cs locs l, (forall a b, adjacent (l :: locs) a b -> ~ forgotten cs a b) -> along (loss cs) l locs = 0.
Proof.
  intros cs. induction locs as [| r rest IH]; intros l H; [reflexivity |]. cbn [along]. rewrite IH.
  - unfold loss. destruct (misses cs l r) as [F |]; [| ring]. exfalso. apply (H l r); [| exact F].
    exists [], rest. reflexivity.
  - intros a b (before & after & E). apply H. exists (l :: before), after. rewrite E. reflexivity.
Qed.
Lemma ascending_lt : forall locs l x, ascending (l :: locs) -> In x locs -> l < x.
Proof.
  induction locs as [| r rest IH]; intros l x A I; [contradiction |]. destruct A as (L & A).
  destruct I as [-> | I]; [exact L |]. pose proof (IH r x A I). lra.
Qed.
Lemma loss_one : forall cs, k_start cs < k_end cs -> forall before l locs a b after, ascending (l :: locs) ->
  l :: locs = before ++ a :: b :: after -> forgotten cs a b -> along (loss cs) l locs = b - a.
Proof.
  intros cs H. induction before as [| x before IH]; intros l locs a b after A E F.
  - cbn in E. inversion E; subst. cbn [along]. destruct A as (L & A).
    rewrite loss_zero.
    + unfold loss. destruct (misses cs a b); [| contradiction]. destruct F as (F1 & F2). unfold share, clamp.
      rewrite (Rmax_left b) by lra. rewrite (Rmin_left b) by lra. rewrite (Rmax_left a) by lra. rewrite (Rmin_left a) by lra. ring.
    + intros c d (bf & af & E') (G & _). destruct F as (F1 & _).
      assert (I : In c (b :: after)) by (rewrite E'; apply in_or_app; right; left; reflexivity).
      pose proof (ascending_lt (b :: after) a c (conj L A) I). lra.
  - cbn in E. inversion E; subst. destruct (before ++ a :: b :: after) as [| r rest] eqn:E'; [destruct before; discriminate |].
    destruct A as (L & A). cbn [along]. rewrite (IH r rest a b after A (eq_sym E') F).
    assert (I : In a (r :: rest)) by (rewrite <- E'; apply in_or_app; right; left; reflexivity).
    pose proof (ascending_lt (r :: rest) x a (conj L A) I). destruct F as (F1 & F2).
    unfold loss. destruct (misses cs x r) as [(G & _) |]; [lra | ring].
Qed.
Lemma cuts_nth : forall w_cs locs prev i, nth_error (cuts w_cs prev locs) (S i) =
  match nth_error locs i, nth_error locs (S i) with
  | Some l, Some r => Some (r, flat_map (cut l r) w_cs)
  | _, _ => None
  end.
Proof.
  intros w_cs. induction locs as [| x locs IH]; intros prev i.
  - destruct i; reflexivity.
  - cbn [cuts nth_error]. destruct i as [| i].
    + destruct locs as [| y locs]; reflexivity.
    + change (nth_error (cuts w_cs (Some x) locs) (S i) = match nth_error locs i, nth_error locs (S i) with Some l, Some r => Some (r, flat_map (cut l r) w_cs) | _, _ => None end). apply IH.
Qed.
Lemma ascending_nth : forall locs i l r, ascending locs -> nth_error locs i = Some l -> nth_error locs (S i) = Some r -> l < r.
Proof.
  induction locs as [| x [| y locs] IH]; intros [| i] l r A E F; cbn in E, F; try discriminate.
  - inversion E; inversion F; subst. apply A.
  - apply (IH i l r); [apply A | exact E | exact F].
Qed.

(** ** Bounds on the mean chords *)
Lemma neighbours_le_in : forall f g l, outboard l ->
  (forall a b, In a l -> In b l -> panel a b -> f a b <= g a b) -> neighbours f l <= neighbours g l.
Proof.
  intros f g l O E. induction l as [| a [| b rest] IH]; try (cbn; lra).
  apply outboard_cons in O as (P & O). rewrite !neighbours_cons.
  pose proof (E a b (or_introl eq_refl) (or_intror (or_introl eq_refl)) P).
  assert (neighbours f (b :: rest) <= neighbours g (b :: rest)); [| lra].
  apply (IH O). intros x y X Y. apply E; right; assumption.
Qed.
Lemma squares : forall S RC, 0 < S -> 0 < RC -> forall l, outboard l ->
  S * neighbours (fun a b => chord_squared RC (a, b)) l
  = neighbours (fun a b => mac_of (RC * s_chord a) (RC * s_chord b) * (reach S a b * (RC * s_chord a + RC * s_chord b) / 2)) l.
Proof.
  intros S RC HS HR l O. rewrite <- neighbours_scal. apply neighbours_ext; [exact O |]. intros a b P.
  rewrite (chord_squared_value S RC a b P). destruct P as (_ & A & B).
  assert (0 < RC * s_chord a) by (apply Rmult_lt_0_compat; trivial).
  assert (0 <= RC * s_chord b) by (apply Rmult_le_pos; lra).
  rewrite mac_of_square by lra. reflexivity.
Qed.
Lemma mac_between : forall S RC m M l, 0 < S -> 0 < RC -> outboard l ->
  (forall s, In s l -> m <= RC * s_chord s <= M) ->
  m * trapezoids S RC l <= S * neighbours (fun a b => chord_squared RC (a, b)) l <= M * trapezoids S RC l.
Proof.
  intros S RC m M l HS HR O B. rewrite squares by assumption. unfold trapezoids. rewrite <- !neighbours_scal.
  split; apply neighbours_le_in; trivial; intros x y X Y P; apply Rmult_le_compat_r.
  1, 3: pose proof (area_pos S RC HS HR x y P) as Q; rewrite area_trapezoid in Q; lra.
  all: destruct P as (_ & CX & CY).
  all: assert (PX : 0 < RC * s_chord x) by (apply Rmult_lt_0_compat; trivial).
  all: assert (PY : 0 <= RC * s_chord y) by (apply Rmult_le_pos; lra).
  all: destruct (mac_of_bounds (RC * s_chord x) (RC * s_chord y)) as (_ & Q1 & Q2); try lra.
  - apply Rle_trans with (2 := Q1). apply Rmin_glb; [apply (B x X) | apply (B y Y)].
  - apply Rle_trans with (1 := Q2). apply Rmax_lub; [apply (B x X) | apply (B y Y)].
Qed.
Lemma mean_square : forall S RC l m, 0 < S -> 0 < RC -> outboard l ->
  2 * m * trapezoids S RC l - m ^ 2 * (S * neighbours (fun a b => s_loc b - s_loc a) l)
  <= S * neighbours (fun a b => chord_squared RC (a, b)) l.
Proof.
  intros S RC l m HS HR O.
  assert (E : 2 * m * trapezoids S RC l - m ^ 2 * (S * neighbours (fun a b => s_loc b - s_loc a) l)
    = neighbours (fun a b => 2 * m * (reach S a b * (RC * s_chord a + RC * s_chord b) / 2) + (- m ^ 2 * S) * (s_loc b - s_loc a)) l).
  { rewrite neighbours_plus, !neighbours_scal. unfold trapezoids. ring. }
  rewrite E, <- neighbours_scal. apply neighbours_le; [exact O |]. intros a b P.
  rewrite (chord_squared_value S RC a b P). pose proof (reach_pos S HS a b P) as L.
  set (x := RC * s_chord a). set (y := RC * s_chord b).
  replace (2 * m * (reach S a b * (x + y) / 2) + - m ^ 2 * S * (s_loc b - s_loc a))
    with (reach S a b * (x ^ 2 + x * y + y ^ 2) / 3
          - reach S a b * ((((x - m) + (y - m)) ^ 2 + (x - m) ^ 2 + (y - m) ^ 2) / 6)) by (unfold reach; field).
  assert (0 <= reach S a b * ((((x - m) + (y - m)) ^ 2 + (x - m) ^ 2 + (y - m) ^ 2) / 6)); [| lra].
  apply Rmult_le_pos; [lra |].
  pose proof (pow2_ge_0 ((x - m) + (y - m))). pose proof (pow2_ge_0 (x - m)). pose proof (pow2_ge_0 (y - m)). lra.
Qed.

(** ** Division of panels: totals of segment_properties *)
Definition first_slope (S RC : R) (l : list seg) : R :=
  match l with a :: b :: _ => (RC * s_chord b - RC * s_chord a) / reach S a b | _ => 0 end.
Lemma divided_slope : forall S RC, 0 < S -> forall l l', divided l l' -> outboard l -> first_slope S RC l' = first_slope S RC l.
Proof.
  intros S RC HS l l' H. induction H as [| a m b rest l' OL H IH | a l l' H IH]; intro O.
  - reflexivity.
  - pose proof (outboard_cons _ _ _ O) as (P & O').
    rewrite IH by (eapply divided_outboard; [| exact O]; apply (divided_here a m b rest _ OL); constructor).
    cbn [first_slope]. destruct OL as ((L1 & L2) & C & _). rewrite C, straight_affine by lra. unfold reach.
    destruct P as (L & _). field. repeat split; lra.
  - destruct l as [| b rest].
    + inversion H; subst. reflexivity.
    + destruct (divided_head _ _ _ H) as (r & ->). reflexivity.
Qed.
Definition wet_factor (t : R) : R := if Rltb t (5/100) then 2003/1000 else 1977/1000 + (52/100) * t.
Lemma wetted_value : forall S RC off tc sym inner p,
  q_wetted (seg_properties S RC off tc sym inner p) = wet_factor tc * q_exposed (seg_properties S RC off tc sym inner p).
Proof. intros. unfold seg_properties, wet_factor. cbn. destruct (Rltb tc (5/100)); reflexivity. Qed.
Lemma exposed_value : forall S RC off tc sym a b, 0 < reach S a b ->
  q_exposed (seg_properties S RC off tc sym true (a, b))
    = ((reach S a b - off) * (straight (RC * s_chord a) (RC * s_chord b) (reach S a b) off + RC * s_chord b) / 2) * sides sym /\
  q_exposed (seg_properties S RC off tc sym false (a, b)) = q_reference (seg_properties S RC off tc sym false (a, b)).
Proof.
  intros S RC off tc sym a b L. split; [| destruct sym; reflexivity].
  unfold seg_properties. rewrite len_reach. unfold c_in, c_out. cbn [fst snd q_exposed].
  destruct (straight_shift (RC * s_chord a) (RC * s_chord b) (reach S a b) off) as (E & _); [lra |]. rewrite E.
  destruct sym; unfold sides; field.
Qed.
Lemma total_wetted : forall S RC off tc sym a b rest, 0 < S -> outboard (a :: b :: rest) ->
  total (map q_wetted (all_properties S RC off tc sym (a :: b :: rest))) =
  wet_factor tc * (trapezoids S RC (a :: b :: rest)
                   - off * (RC * s_chord a + off * first_slope S RC (a :: b :: rest) / 2)) * sides sym.
Proof.
  intros S RC off tc sym a b rest HS O.
  apply outboard_cons in O as (P & O). pose proof (reach_pos S HS a b P) as L.
  unfold all_properties. change (panels (a :: b :: rest)) with ((a, b) :: panels (b :: rest)).
  assert (M : forall l, total (map q_wetted (map (seg_properties S RC off tc sym false) (panels l)))
                        = wet_factor tc * trapezoids S RC l * sides sym).
  { induction l as [| x [| y l] IH]; try (cbn; ring).
    change (panels (x :: y :: l)) with ((x, y) :: panels (y :: l)).
    cbn [map total fold_right]. unfold total in IH. rewrite IH, wetted_value.
    replace (q_exposed (seg_properties S RC off tc sym false (x, y))) with (q_reference (seg_properties S RC off tc sym false (x, y)))
      by (destruct sym; reflexivity).
    rewrite q_reference_value. unfold trapezoids. rewrite neighbours_cons. ring. }
  cbn [map total fold_right]. specialize (M (b :: rest)). unfold total in M. rewrite M, wetted_value.
  destruct (exposed_value S RC off tc sym a b L) as (E & _). rewrite E.
  unfold trapezoids. rewrite neighbours_cons. cbn [first_slope]. rewrite straight_affine by lra. field. lra.
Qed.

(** the whole of wing_segmented_planform *)
Lemma segmented_whole : forall span RC off sym a b rest (ow : bool) old,
  0 < span -> 0 < RC -> outboard (a :: b :: rest) ->
  let l := a :: b :: rest in
  let S := span / sides sym in
  let ref := trapezoids S RC l * sides sym in
  let before := if ow then Areas ref (neighbours (fun a b => 2 * (1 + (2/10) * s_tc a) * (reach S a b * (RC * s_chord a + RC * s_chord b) / 2)) l) (span ^ 2 / ref)
                else old in
  exists g, 0 < S /\ 0 < trapezoids S RC l /\ segmented_facts span RC sym l a g /\
    wing_segmented_planform span RC off sym l ow old =
      Some (g, all_properties S RC off (g_tc g) sym l,
            Areas (if Req_EM_T (a_reference before) 0 then ref else a_reference before)
                  (if Req_EM_T (a_wetted before) 0
                   then wet_factor (g_tc g) * (trapezoids S RC l - off * (RC * s_chord a + off * first_slope S RC l / 2)) * sides sym
                   else a_wetted before)
                  (a_ar before)).
Proof.
  intros span RC off sym a b rest ow old Hs HR O l S ref before.
  assert (HS : 0 < S) by (apply Rdiv_lt_0_compat; [exact Hs | apply sides_pos]).
  assert (HA : 0 < trapezoids S RC l) by (apply trapezoids_pos; assumption).
  destruct (segmented_result span RC sym a b rest ow old Hs HR O) as (g & E & F). fold l S ref before in E, F.
  exists g. split; [exact HS |]. split; [exact HA |]. split; [exact F |].
  unfold wing_segmented_planform. rewrite E. unfold segment_properties. rewrite semispans. fold S.
  rewrite total_reference.
  pose proof (total_wetted S RC off (g_tc g) sym a b rest HS O) as W. fold l in W. rewrite W.
  do 2 f_equal. destruct (Req_EM_T (a_reference before) 0), (Req_EM_T (a_wetted before) 0); reflexivity.
Qed.
Lemma facts_unique : forall span RC sym l first g g', 0 < span -> 0 < RC -> outboard l -> 0 < trapezoids (span / sides sym) RC l ->
  segmented_facts span RC sym l first g -> segmented_facts span RC sym l first g' -> g = g'.
Proof.
  intros span RC sym l first g g' Hs HR O HT [A1 A2 A3 A4 A5 A6 A7 A8 A9 A10] [B1 B2 B3 B4 B5 B6 B7 B8 B9 B10].
  pose proof (sides_pos sym) as Hd. assert (HS : 0 < span / sides sym) by (apply Rdiv_lt_0_compat; assumption).
  destruct A9 as (x & y & z & C1 & C2 & C3 & C4 & C5). destruct B9 as (x' & y' & z' & D1 & D2 & D3 & D4 & D5).
  pose proof (first_moment_unique _ _ _ _ _ _ _ O C3 D3) as E1. apply Rmult_eq_reg_r in E1; [| lra].
  pose proof (first_moment_unique _ _ _ _ _ _ _ O C4 D4) as E2. apply Rmult_eq_reg_r in E2; [| lra].
  pose proof (first_moment_unique _ _ _ _ _ _ _ O C5 D5) as E3. apply Rmult_eq_reg_r in E3; [| lra]. subst x' y' z'.
  assert (G2 : g_mgc g = g_mgc g') by (apply (Rmult_eq_reg_r span); lra).
  assert (G3 : g_mac g = g_mac g') by (apply (Rmult_eq_reg_r (trapezoids (span / sides sym) RC l)); lra).
  assert (G6 : g_c4 g = g_c4 g') by congruence.
  assert (G4 : g_tip g = g_tip g') by congruence.
  assert (G7 : g_le g = g_le g').
  { destruct A7 as (R1 & T1). destruct B7 as (R2 & T2). rewrite <- (atan_tan (g_le g)) by lra.
    rewrite <- (atan_tan (g_le g')) by lra. f_equal.
    apply (Rmult_eq_reg_r (span / sides sym)); [| lra]. rewrite T1, T2, G6, G4. reflexivity. }
  assert (G8 : g_tc g = g_tc g').
  { apply (Rmult_eq_reg_r (trapezoids (span / sides sym) RC l * sides sym / 2)); [lra |].
    apply Rgt_not_eq. unfold Rdiv. apply Rmult_lt_0_compat; [apply Rmult_lt_0_compat |]; lra. }
  destruct g, g'; cbn in *. subst. f_equal; congruence.
Qed.
