(** * Theorems about wing planforms (C29-C32) *)
From Coq Require Import Reals List Bool Lra Lia.
From Verif Require Import M_Opt P_Opt M_Wing S_Wing P_Wing.
Import ListNotations.
Local Open Scope R_scope.
Local Open Scope list_scope.

Lemma some3 : forall (A B C : Type) (a a' : A) (b b' : B) (c c' : C),
  Some (a, b, c) = Some (a', b', c') -> a' = a /\ b' = b /\ c' = c.
Proof. intros. repeat split; congruence. Qed.

(** ** C29: the trapezoidal wing *)

(** span, chords and area fit together *)
Theorem C29_area : forall w, sensible w ->
  let p := wing_planform w in
  0 < p_span p /\ 0 < p_root p /\ 0 < p_tip p /\
  p_span p ^ 2 = w_ar w * w_sref w /\
  p_tip p = w_taper w * p_root p /\
  p_mgc p * p_span p = w_sref w /\
  integral (straight (p_root p) (p_tip p) (p_span p / 2)) 0 (p_span p / 2) (w_sref w / 2).
Proof.
  intros w H p. destruct (span_square w H) as (B & Q). destruct (chords_positive w H) as (C & T).
  pose proof (trapezoid_area w H) as A. fold p in B, Q, C, T, A.
  split; [exact B |]. split; [exact C |]. split; [exact T |]. split; [exact Q |].
  split; [apply out_tip |]. split.
  - unfold p. rewrite out_mgc. fold p. lra.
  - replace (w_sref w / 2) with (p_span p / 2 * (p_root p + p_tip p) / 2) by lra.
    apply straight_integral. lra.
Qed.

(** and nothing else fits: measuring a trapezoid's area, aspect ratio and taper and laying it out
    again gives the same trapezoid *)
Theorem C29_round_trip : forall b cr ct sweep tc dih v s f, 0 < b -> 0 < cr -> 0 < ct ->
  let area := b * (cr + ct) / 2 in
  let p := wing_planform (Wing area (ct / cr) sweep (b ^ 2 / area) tc dih v s f) in
  p_span p = b /\ p_root p = cr /\ p_tip p = ct.
Proof.
  intros b cr ct sweep tc dih v s f B C T area p.
  assert (A : 0 < area) by (apply Rdiv_lt_0_compat; [apply Rmult_lt_0_compat |]; lra).
  assert (H : sensible (Wing area (ct / cr) sweep (b ^ 2 / area) tc dih v s f)).
  { split; [exact A |]. split; cbn [w_ar w_taper]; apply Rdiv_lt_0_compat; trivial. apply pow_lt, B. }
  destruct (span_square _ H) as (P & Q). fold p in P, Q. cbn [w_ar w_sref] in Q.
  assert (E : p_span p = b).
  { apply Rsqr_inj; try lra. rewrite !Rsqr_pow2, Q. field. lra. }
  split; [exact E |].
  assert (E1 : p_root p = cr).
  { unfold p. rewrite out_root. fold p. rewrite E. cbn [w_sref w_taper]. unfold area. field. repeat split; lra. }
  split; [exact E1 |]. unfold p. rewrite out_tip. fold p. rewrite E1. cbn. field. lra.
Qed.

(** the mean aerodynamic chord is the mean of the chord weighted by itself *)
Theorem C29_mac : forall w v, sensible w ->
  let p := wing_planform w in
  integral (fun y => straight (p_root p) (p_tip p) (p_span p / 2) y ^ 2) 0 (p_span p / 2) v ->
  p_mac p * w_sref w = 2 * v /\
  p_mgc p <= p_mac p /\ Rmin (p_root p) (p_tip p) <= p_mac p <= Rmax (p_root p) (p_tip p).
Proof.
  intros w v H p I. destruct (span_square w H) as (B & _). destruct (chords_positive w H) as (C & T).
  pose proof (trapezoid_area w H) as A. fold p in B, C, T, A.
  assert (E : p_mac p = mac_of (p_root p) (p_tip p)) by apply out_mac.
  assert (M : p_mgc p = (p_root p + p_tip p) / 2) by apply out_mgc.
  rewrite E, M. split; [| apply mac_of_bounds; lra].
  rewrite (integral_unique _ _ _ _ _ I (straight_square_integral (p_root p) (p_tip p) (p_span p / 2) ltac:(lra))), <- A.
  rewrite <- mac_of_square by lra. field.
Qed.

(** the leading edge has the sweep that puts the quarter-chord line where its sweep says, all along
    the half span *)
Theorem C29_sweep : forall w y, sensible w ->
  let p := wing_planform w in
  - PI / 2 < p_le p < PI / 2 /\
  leading (p_le p) y + straight (p_root p) (p_tip p) (p_span p / 2) y / 4 = p_root p / 4 + tan (w_sweep w) * y.
Proof.
  intros w y H p. split; [apply out_le_range |].
  destruct (span_square w H) as (B & Q). fold p in B, Q. destruct H as (S & A & T).
  unfold leading. unfold p at 1. rewrite out_le. unfold straight.
  replace (p_tip p) with (w_taper w * p_root p) by (symmetry; apply out_tip).
  assert (E : p_root p = 2 * w_sref w / p_span p / (1 + w_taper w)) by apply out_root. rewrite E.
  replace (w_sref w) with (p_span p ^ 2 / w_ar w) by (rewrite Q; field; lra). field. lra.
Qed.

(** the aerodynamic centre is the quarter-chord point of the section whose chord is the mean
    aerodynamic one; that section is where the half wing's area centres *)
Theorem C29_center : forall w v, sensible w ->
  let p := wing_planform w in
  integral (fun y => y * straight (p_root p) (p_tip p) (p_span p / 2) y) 0 (p_span p / 2) v ->
  exists y, y * w_sref w = 2 * v /\ 0 < y < p_span p / 2 /\
    straight (p_root p) (p_tip p) (p_span p / 2) y = p_mac p /\
    p_center p = (leading (p_le p) y + p_mac p / 4,
                  if w_symmetric w then 0 else if w_vertical w then y * tan (w_dihedral w) else y,
                  if w_vertical w then y else y * tan (w_dihedral w)).
Proof.
  intros w v H p I. destruct (span_square w H) as (B & Q). destruct (chords_positive w H) as (C & T).
  pose proof (trapezoid_area w H) as A. fold p in B, Q, C, T, A. destruct H as (Hs & Ha & Ht).
  assert (ET : p_tip p = w_taper w * p_root p) by apply out_tip.
  exists (p_span p / 6 * ((1 + 2 * w_taper w) / (1 + w_taper w))).
  assert (I' : integral (fun y => (0 + 1 * y) * straight (p_root p) (p_tip p) (p_span p / 2) y) 0 (p_span p / 2) v).
  { destruct I as (F & HF & E). exists F. split; [| exact E]. intro t. rewrite Rplus_0_l, Rmult_1_l. apply HF. }
  pose proof (integral_unique _ _ _ _ _ I' (straight_moment_integral 0 1 _ _ (p_span p / 2) ltac:(lra))) as V. clear I I'.
  split.
  - rewrite V, <- A, ET. field. lra.
  - split; [split |].
    + apply Rmult_lt_0_compat; [lra |]. apply Rdiv_lt_0_compat; lra.
    + replace (p_span p / 2) with (p_span p / 6 * 3) by field. apply Rmult_lt_compat_l; [lra |].
      apply (Rmult_lt_reg_r (1 + w_taper w)); [lra |]. replace ((1 + 2 * w_taper w) / (1 + w_taper w) * (1 + w_taper w)) with (1 + 2 * w_taper w) by (field; lra). lra.
    + split.
      * replace (p_mac p) with (2 / 3 * (p_root p + p_tip p - p_root p * p_tip p / (p_root p + p_tip p))) by (symmetry; apply out_mac).
        unfold straight. rewrite ET. field. lra.
      * unfold p at 1. rewrite out_center. fold p. cbv zeta. unfold leading. f_equal. f_equal. field. lra.
Qed.

(** length from the root leading edge to the tip trailing edge, wetted area, developed span *)
Theorem C29_extent : forall w, sensible w ->
  let p := wing_planform w in
  p_length p = leading (p_le p) (p_span p / 2) + p_tip p /\
  p_wetted p = 2 * w_sref w * (1 + w_tc w / 5) /\
  (cos (w_dihedral w) <> 0 -> p_span_total p * cos (w_dihedral w) = p_span p).
Proof.
  intros w H p. pose proof (trapezoid_area w H) as A. fold p in A. split; [| split].
  - unfold p. rewrite out_length. unfold leading. field.
  - unfold p. rewrite out_wetted. fold p. rewrite <- A. field.
  - intro N. unfold p. rewrite out_total. field. exact N.
Qed.

(** a flap's area is its share of the chord over its share of the span, on both sides; the affected
    area is that of the whole chord there, and the flap chord its share of the mean aerodynamic
    chord of that part *)
Theorem C29_flap : forall w f v v2, sensible w -> w_flap w = Some f -> 0 <= f_start f < f_end f -> f_end f <= 1 ->
  let p := wing_planform w in
  let half := p_span p / 2 in
  integral (straight (p_root p) (p_tip p) half) (f_start f * half) (f_end f * half) v ->
  integral (fun y => straight (p_root p) (p_tip p) half y ^ 2) (f_start f * half) (f_end f * half) v2 ->
  exists o, p_flap p = Some o /\
    p_affected p = 2 * v /\ o_area o = f_chord_fraction f * p_affected p /\
    o_chord o * v = f_chord_fraction f * v2.
Proof.
  intros w f v v2 H E F1 F2 p half I1 I2.
  destruct (span_square w H) as (B & Q). destruct (chords_positive w H) as (C & T). fold p in B, Q, C, T.
  destruct (out_flap_some w f E) as (E1 & E2). fold p in E1, E2.
  eexists. split; [exact E2 |]. rewrite E1. cbn [o_area o_chord].
  assert (HN : half <> 0) by (unfold half; lra).
  assert (Es : straight (p_root p) (p_tip p) half (f_start f * half) = p_root p + (p_tip p - p_root p) * f_start f)
    by (unfold straight; field; exact HN).
  assert (Ee : straight (p_root p) (p_tip p) half (f_end f * half) = p_root p + (p_tip p - p_root p) * f_end f)
    by (unfold straight; field; exact HN).
  pose proof (integral_unique _ _ _ _ _ I1 (straight_part_integral _ _ _ _ _ HN)) as V.
  pose proof (integral_unique _ _ _ _ _ I2 (straight_part_square _ _ _ _ _ HN)) as V2. cbv zeta in V2.
  rewrite Es, Ee in V, V2.
  set (cs := p_root p + (p_tip p - p_root p) * f_start f) in *.
  set (ce := p_root p + (p_tip p - p_root p) * f_end f) in *.
  assert (Pos : forall x, 0 <= x <= 1 -> 0 < p_root p + (p_tip p - p_root p) * x).
  { intros x X. replace (p_root p + (p_tip p - p_root p) * x) with (p_root p * (1 - x) + p_tip p * x) by ring.
    assert (0 <= p_root p * (1 - x)) by (apply Rmult_le_pos; lra). assert (0 <= p_tip p * x) by (apply Rmult_le_pos; lra).
    destruct (Req_dec x 0) as [-> |]; [lra |]. assert (0 < p_tip p * x) by (apply Rmult_lt_0_compat; lra). lra. }
  assert (0 < cs) by (apply Pos; lra). assert (0 < ce) by (apply Pos; lra).
  split; [| split].
  - rewrite V. unfold half. field.
  - field.
  - rewrite V, V2. unfold half. field. lra.
Qed.

(** a wing on one side only (a fin) is laid out as if its span were two half spans: unless it is
    untapered, its quarter-chord line misses the tip's quarter chord, and the aerodynamic centre is
    reported at half the height of the area's centre *)
Theorem C29_one_sided_refuted : forall w v, sensible w -> w_symmetric w = false -> w_vertical w = true ->
  let p := wing_planform w in
  (w_taper w <> 1 ->
   leading (p_le p) (p_span p) + p_tip p / 4 <> p_root p / 4 + tan (w_sweep w) * p_span p) /\
  (integral (fun y => y * straight (p_root p) (p_tip p) (p_span p) y) 0 (p_span p) v ->
   exists x y z, p_center p = (x, y, z) /\ 2 * z * w_sref w = v).
Proof.
  intros w v H Hsym Hvert p. destruct (span_square w H) as (B & Q). destruct (chords_positive w H) as (C & T).
  pose proof (trapezoid_area w H) as A. fold p in B, Q, C, T, A.
  assert (ET : p_tip p = w_taper w * p_root p) by apply out_tip.
  split.
  - intros NT E. pose proof (C29_sweep w (p_span p) H) as (_ & W). cbv zeta in W. fold p in W.
    unfold straight in W. replace (p_span p / (p_span p / 2)) with 2 in W by (field; lra).
    assert (D : p_root p = p_tip p) by lra. apply NT.
    rewrite ET in D. apply (Rmult_eq_reg_r (p_root p)); lra.
  - intro I. unfold p at 1. rewrite out_center, Hsym, Hvert. fold p. cbv zeta.
    eexists _, _, _. split; [reflexivity |].
    assert (I' : integral (fun y => (0 + 1 * y) * straight (p_root p) (p_tip p) (p_span p) y) 0 (p_span p) v).
    { destruct I as (F & HF & E). exists F. split; [| exact E]. intro t. rewrite Rplus_0_l, Rmult_1_l. apply HF. }
    rewrite (integral_unique _ _ _ _ _ I' (straight_moment_integral 0 1 _ _ (p_span p) ltac:(lra))).
    rewrite <- A, ET. destruct H as (_ & _ & Ht). field. lra.
Qed.

(** a wing of 200 square metres *)
Definition big_wing := Wing 200 (1/2) (1/4) 8 (1/10) 0 false true (Some (Flap (1/10) (6/10) (3/10))).
Example big_wing_sensible : sensible big_wing /\ p_span (wing_planform big_wing) = 40 /\
  p_root (wing_planform big_wing) = 20 / 3 /\ p_tip (wing_planform big_wing) = 10 / 3.
Proof.
  assert (H : sensible big_wing) by (unfold sensible; cbn; lra). split; [exact H |].
  assert (E : p_span (wing_planform big_wing) = 40).
  { destruct (span_square _ H) as (P & Q). cbn [w_ar w_sref big_wing] in Q. apply Rsqr_inj; try lra. rewrite !Rsqr_pow2, Q. ring. }
  split; [exact E |].
  assert (E1 : p_root (wing_planform big_wing) = 20 / 3).
  { rewrite out_root, E. cbn. field. }
  split; [exact E1 |]. rewrite out_tip, E1. cbn. field.
Qed.
Example big_wing_mac : exists v, integral (fun y => straight (20/3) (10/3) 20 y ^ 2) 0 20 v /\
  p_mac (wing_planform big_wing) * 200 = 2 * v.
Proof.
  eexists. split; [apply straight_square_integral; lra |].
  destruct big_wing_sensible as (H & S & E & F). rewrite out_mac, E, F. field.
Qed.
Example fin : sensible (Wing 20 (1/2) 1 2 (1/10) 0 true false None).
Proof. unfold sensible; cbn; lra. Qed.

(** ** C30: the segmented wing *)

(** a wing without segments is refused; any other gets an answer *)
Theorem C30_defined : forall span RC off sym l ow old,
  wing_segmented_planform span RC off sym l ow old = None <-> l = [].
Proof.
  intros. unfold wing_segmented_planform, segmented_planform. destruct l as [| a l]; [split; reflexivity |].
  split; [| discriminate]. destruct (moments _ _ _ _ _ _) as ((mx & my) & mz).
  destruct (segment_properties _ _ _ _ _ _ _ _ _). discriminate.
Qed.

(** area: the trapezoids, on both sides of a symmetric wing; aspect ratio and mean chord fit it.
    Without [overwrite_reference] the stored area, wetted area and aspect ratio stay, except that a
    zero reference area is filled in. *)
Theorem C30_area : forall span RC off sym l ow old g qs a,
  0 < span -> 0 < RC -> outboard l -> (2 <= length l)%nat ->
  wing_segmented_planform span RC off sym l ow old = Some (g, qs, a) ->
  let both := (if sym then 2 else 1) * trapezoids (span / (if sym then 2 else 1)) RC l in
  0 < both /\ g_mgc g * span = both /\
  a_reference a = (if ow then both else if Req_EM_T (a_reference old) 0 then both else a_reference old) /\
  (if ow then a_ar a * both = span ^ 2 else a_ar a = a_ar old) /\
  (ow = false -> a_wetted old <> 0 -> a_wetted a = a_wetted old).
Proof.
  intros span RC off sym l ow old g qs a Hs HR O HL E.
  destruct l as [| x [| y rest]]; cbn in HL; try lia.
  destruct (segmented_whole span RC off sym x y rest ow old Hs HR O) as (g' & HS & HT & F & E').
  rewrite E' in E. inversion E; subst; clear E E'.
  pose proof (fact_mgc _ _ _ _ _ _ F) as Hm. pose proof (sides_pos sym) as Hd.
  change (if sym then 2 else 1) with (sides sym).
  set (T := trapezoids (span / sides sym) RC (x :: y :: rest)) in *.
  assert (P : 0 < T * sides sym) by (apply Rmult_lt_0_compat; assumption).
  rewrite (Rmult_comm (sides sym)). split; [exact P |]. split; [exact Hm |].
  destruct ow; cbn [a_reference a_ar a_wetted].
  - destruct (Req_EM_T (T * sides sym) 0); [lra |]. repeat split; try reflexivity; try discriminate. field. split; lra.
  - repeat split; try reflexivity. intros _ N. destruct (Req_EM_T (a_wetted old) 0); [contradiction | reflexivity].
Qed.

(** the mean aerodynamic chord is the mean of the chord weighted by itself, over all panels; also
    the area-weighted mean of the panels' own mean aerodynamic chords *)
Theorem C30_mac : forall span RC off sym l ow old g qs a v,
  0 < span -> 0 < RC -> outboard l -> (2 <= length l)%nat ->
  wing_segmented_planform span RC off sym l ow old = Some (g, qs, a) ->
  let semispan := span / (if sym then 2 else 1) in
  (forall i j, s_loc i < s_loc j -> integral (fun y => local_chord semispan RC i j y ^ 2) 0 (reach semispan i j) (v i j)) ->
  g_mac g * trapezoids semispan RC l = neighbours v l /\
  g_mac g * trapezoids semispan RC l =
    neighbours (fun i j =>
      let c0 := RC * s_chord i in let c1 := RC * s_chord j in
      2 / 3 * (c0 + c1 - c0 * c1 / (c0 + c1)) * (reach semispan i j * (c0 + c1) / 2)) l.
Proof.
  intros span RC off sym l ow old g qs a v Hs HR O HL E S V. 
  destruct l as [| x [| y rest]]; cbn in HL; try lia.
  destruct (segmented_whole span RC off sym x y rest ow old Hs HR O) as (g' & HS & HT & F & E').
  rewrite E' in E. inversion E; subst; clear E E'.
  change (if sym then 2 else 1) with (sides sym) in S. fold S in HS, HT.
  pose proof (fact_mac _ _ _ _ _ _ F) as Hm. fold S in Hm. rewrite Hm. split; [| exact (squares S RC HS HR _ O)].
  rewrite <- neighbours_scal. apply neighbours_ext; [exact O |]. intros i j P.
  rewrite (chord_squared_value S RC i j P). pose proof (reach_pos S HS i j P).
  assert (W : integral (fun y => local_chord S RC i j y ^ 2) 0 (reach S i j)
    (reach S i j * ((RC * s_chord i) ^ 2 + RC * s_chord i * (RC * s_chord j) + (RC * s_chord j) ^ 2) / 3))
    by (apply straight_square_integral; lra).
  destruct P as (L & _). apply (integral_unique _ _ _ _ _ W (V i j L)).
Qed.

(** it lies between the smallest and the largest chord, and above the mean geometric chord *)
Theorem C30_mac_bounds : forall span RC off sym l ow old g qs a m M,
  0 < span -> 0 < RC -> outboard l -> (2 <= length l)%nat ->
  wing_segmented_planform span RC off sym l ow old = Some (g, qs, a) ->
  (forall s, In s l -> m <= RC * s_chord s <= M) ->
  m <= g_mac g <= M /\ (covers l -> g_mgc g <= g_mac g).
Proof.
  intros span RC off sym l ow old g qs a m M Hs HR O HL E B.
  destruct l as [| x [| y rest]]; cbn in HL; try lia.
  destruct (segmented_whole span RC off sym x y rest ow old Hs HR O) as (g' & HS & HT & F & E').
  rewrite E' in E. inversion E; subst; clear E E'.
  pose proof (fact_mac _ _ _ _ _ _ F) as Hm. pose proof (fact_mgc _ _ _ _ _ _ F) as Hg. pose proof (sides_pos sym) as Hd.
  set (S := span / sides sym) in *. set (l := x :: y :: rest) in *. set (T := trapezoids S RC l) in *.
  destruct (mac_between S RC m M l HS HR O B) as (B1 & B2). fold T in B1, B2. rewrite <- Hm in B1, B2.
  split; [split; apply (Rmult_le_reg_r T); assumption |].
  intro C. pose proof (mean_square S RC l (T / S) HS HR O) as Q. rewrite (lengths_cover l C), <- Hm in Q. fold T in Q.
  apply (Rmult_le_reg_r T); [exact HT |].
  replace (g_mgc g) with (T / S).
  - replace (2 * (T / S) * T - (T / S) ^ 2 * (S * 1)) with (T / S * T) in Q by (field; lra). exact Q.
  - apply (Rmult_eq_reg_r span); [| lra]. rewrite Hg. unfold S. field. split; lra.
Qed.

(** sweeps: following the panels' quarter-chord lines from root to tip ends where the reported
    quarter-chord sweep says; the reported leading-edge sweep ends at the tip's leading edge *)
Theorem C30_sweep : forall span RC off sym root l ow old g qs a,
  0 < span -> 0 < RC -> outboard (root :: l) -> l <> [] ->
  wing_segmented_planform span RC off sym (root :: l) ow old = Some (g, qs, a) ->
  let semispan := span / (if sym then 2 else 1) in
  let tip := last l root in
  tan (g_c4 g) * semispan = neighbours (fun i j => tan (s_sweep i) * reach semispan i j) (root :: l) /\
  leading (g_le g) semispan + g_tip g / 4 = RC * s_chord root / 4 + tan (g_c4 g) * semispan /\
  g_tip g = RC * s_chord tip /\ g_taper g * s_chord root = s_chord tip /\
  g_length g = leading (g_le g) semispan + g_tip g /\
  - PI / 2 < g_c4 g < PI / 2 /\ - PI / 2 < g_le g < PI / 2.
Proof.
  intros span RC off sym x l ow old g qs a Hs HR O HL E S tip. 
  destruct l as [| y rest]; [congruence |].
  destruct (segmented_whole span RC off sym x y rest ow old Hs HR O) as (g' & HS & HT & F & E').
  rewrite E' in E. inversion E; subst; clear E E'.
  change (if sym then 2 else 1) with (sides sym) in S. fold S in HS.
  pose proof (fact_c4 _ _ _ _ _ _ F) as H1. pose proof (fact_le _ _ _ _ _ _ F) as (H2 & H3).
  pose proof (fact_tip _ _ _ _ _ _ F) as H4. pose proof (fact_taper _ _ _ _ _ _ F) as H5.
  pose proof (fact_length _ _ _ _ _ _ F) as H6. fold S in H3, H6.
  change (last (x :: y :: rest) x) with tip in H4, H5. unfold leading.
  split; [| split; [| split; [| split; [| split; [| split]]]]]; trivial.
  - rewrite H1, tan_atan, Rmult_comm, <- neighbours_scal. apply neighbours_ext; [exact O |].
    intros. unfold reach. ring.
  - lra.
  - rewrite H5. field. destruct O as (_ & P & _). lra.
  - rewrite H1. apply atan_bound.
Qed.

(** the aerodynamic centre of one side is the area-weighted mean of the quarter-chord points; a
    symmetric wing's centre is on the plane of symmetry *)
Theorem C30_center : forall span RC off sym root l ow old g qs a mx my mz,
  0 < span -> 0 < RC -> outboard (root :: l) -> l <> [] ->
  wing_segmented_planform span RC off sym (root :: l) ow old = Some (g, qs, a) ->
  let semispan := span / (if sym then 2 else 1) in
  let A := trapezoids semispan RC (root :: l) in
  first_moment semispan RC (fun s => tan (s_sweep s)) (RC * s_chord root / 4) (root :: l) mx ->
  first_moment semispan RC (fun _ => 1) 0 (root :: l) my ->
  first_moment semispan RC (fun s => tan (s_dihedral s)) 0 (root :: l) mz ->
  g_side_center g = (mx / A, my / A, mz / A) /\
  g_center g = (mx / A, if sym then 0 else my / A, mz / A).
Proof.
  intros span RC off sym x l ow old g qs a mx my mz Hs HR O HL E S A Hx Hy Hz.
  destruct l as [| y rest]; [congruence |].
  destruct (segmented_whole span RC off sym x y rest ow old Hs HR O) as (g' & HS & HT & F & E').
  rewrite E' in E. inversion E; subst; clear E E'.
  change (if sym then 2 else 1) with (sides sym) in S. fold S A in HS, HT.
  destruct (fact_center _ _ _ _ _ _ F) as (cx & cy & cz & E1 & E2 & M1 & M2 & M3). fold S A in M1, M2, M3.
  rewrite (first_moment_unique _ _ _ _ _ _ _ O Hx M1), (first_moment_unique _ _ _ _ _ _ _ O Hy M2),
    (first_moment_unique _ _ _ _ _ _ _ O Hz M3), E1, E2.
  assert (Q : forall t, t * A / A = t) by (intro; field; lra). rewrite !Q. split; reflexivity.
Qed.
(** such moments exist *)
Theorem C30_moments_exist : forall S RC slope l x0, 0 < S -> outboard l -> exists m, first_moment S RC slope x0 l m.
Proof.
  intros S RC slope. induction l as [| a [| b rest] IH]; intros x0 HS O; [exists 0; constructor | exists 0; constructor |].
  apply outboard_cons in O as (P & O). destruct (IH (x0 + slope a * reach S a b) HS O) as (m & M).
  eexists. apply moment_panel; [| exact M]. apply straight_moment_integral. pose proof (reach_pos S HS a b P). lra.
Qed.

(** describing the same shape with more breaks changes none of the wing's quantities *)
Theorem C30_divided : forall span RC off sym l l' ow old g qs a g' qs' a',
  0 < span -> 0 < RC -> outboard l -> (2 <= length l)%nat -> divided l l' ->
  wing_segmented_planform span RC off sym l ow old = Some (g, qs, a) ->
  wing_segmented_planform span RC off sym l' ow old = Some (g', qs', a') ->
  g' = g /\ a' = a.
Proof.
  intros span RC off sym l l' ow old g qs a g' qs' a' Hs HR O HL D E E'.
  destruct l as [| x [| y rest]]; cbn in HL; try lia.
  destruct (divided_head _ _ _ D) as (r & ->).
  assert (exists y' rest', r = y' :: rest') as (y' & rest' & ->).
  { destruct r as [| y' rest']; [| eauto]. exfalso.
    assert (LN : forall k k', divided k k' -> (length k <= length k')%nat).
    { intros k k' H. induction H; cbn in *; lia. }
    apply LN in D. cbn in D. lia. }
  pose proof (divided_outboard _ _ D O) as O'.
  destruct (segmented_whole span RC off sym x y rest ow old Hs HR O) as (h & HS & HT & F & W).
  destruct (segmented_whole span RC off sym x y' rest' ow old Hs HR O') as (h' & _ & HT' & F' & W').
  rewrite W in E. rewrite W' in E'. apply some3 in E as (-> & -> & ->). apply some3 in E' as (-> & -> & ->). clear W W'.
  rename h into g. rename h' into g'.
  set (S := span / sides sym) in *. set (l := x :: y :: rest) in *. set (l' := x :: y' :: rest') in *.
  assert (N : forall f, (forall a m b, panel a b -> on_line a m b -> f a m + f m b = f a b) ->
    neighbours f l' = neighbours f l) by (intros f Hf; apply (divided_neighbours f Hf _ _ D O)).
  assert (ET : trapezoids S RC l' = trapezoids S RC l).
  { apply N. intros i m j P ((L1 & L2) & C & _). rewrite C, straight_affine by lra. unfold reach. field. lra. }
  assert (G : g' = g).
  { assert (F2 : segmented_facts span RC sym l x g').
    { assert (EW : forall d, last l' d = last l d) by (apply divided_last; exact D).
      destruct F' as [A1 A2 A3 A4 A5 A6 A7 A8 A9 A10]. fold S in A1, A2, A3, A7, A8, A9, A10.
      split; fold S; rewrite <- ?ET, <- ?EW; trivial.
      - rewrite A1. f_equal. apply N. intros i m j P (L & _ & _ & _ & ->). unfold reach, Rdiv. ring.
      - rewrite A3. f_equal. apply N. intros i m j P OL.
        pose proof (on_line_panels i m j P OL) as (P1 & P2 & _).
        apply (Rmult_eq_reg_l S); [| lra]. rewrite Rmult_plus_distr_l.
        rewrite !(chord_squared_value S RC) by assumption. destruct OL as ((L1 & L2) & C & _).
        rewrite C, straight_affine by lra. unfold reach. field. lra.
      - rewrite A6. f_equal. apply N. intros i m j P (L & _ & -> & _). ring.
      - rewrite A8. apply N. intros i m j P ((L1 & L2) & C & _ & -> & _). rewrite C, straight_affine by lra. unfold reach. field. lra.
      - destruct A9 as (cx & cy & cz & B1 & B2 & B3 & B4 & B5). exists cx, cy, cz. split; [exact B1 |]. split; [exact B2 |].
        destruct (C30_moments_exist S RC (fun s => tan (s_sweep s)) l (RC * s_chord x / 4) HS O) as (m1 & M1).
        destruct (C30_moments_exist S RC (fun _ => 1) l 0 HS O) as (m2 & M2).
        destruct (C30_moments_exist S RC (fun s => tan (s_dihedral s)) l 0 HS O) as (m3 & M3).
        pose proof (divided_moment S RC (fun s => tan (s_sweep s)) HS HR ltac:(intros ? ? ? (_ & _ & -> & _); reflexivity) _ _ D O _ _ M1) as K1.
        pose proof (divided_moment S RC (fun _ => 1) HS HR ltac:(reflexivity) _ _ D O _ _ M2) as K2.
        pose proof (divided_moment S RC (fun s => tan (s_dihedral s)) HS HR ltac:(intros ? ? ? (_ & _ & _ & _ & ->); reflexivity) _ _ D O _ _ M3) as K3.
        fold l' in B3, B4, B5. 
        rewrite (first_moment_unique _ _ _ _ _ _ _ O' B3 K1), (first_moment_unique _ _ _ _ _ _ _ O' B4 K2),
          (first_moment_unique _ _ _ _ _ _ _ O' B5 K3). auto. }
    apply (facts_unique span RC sym l x _ _ Hs HR O HT F2 F). }
  split; [exact G |]. subst g'.
  rewrite ET, (divided_slope S RC HS l l' D O).
  assert (EN : neighbours (fun a b => 2 * (1 + (2/10) * s_tc a) * (reach S a b * (RC * s_chord a + RC * s_chord b) / 2)) l'
    = neighbours (fun a b => 2 * (1 + (2/10) * s_tc a) * (reach S a b * (RC * s_chord a + RC * s_chord b) / 2)) l).
  { apply N. intros i m j P ((L1 & L2) & C & _ & -> & _). rewrite C, straight_affine by lra. unfold reach. field. lra. }
  rewrite EN. reflexivity.
Qed.

(** a symmetric trapezoidal wing described by two segments gets what wing_planform computes *)
Definition two_segments (w : wing) (tip : seg) : list seg :=
  [Seg 0 1 (w_sweep w) (w_tc w) (w_dihedral w);
   Seg 1 (w_taper w) (s_sweep tip) (s_tc tip) (s_dihedral tip)].
Lemma two_segments_outboard : forall w tip, sensible w -> outboard (two_segments w tip).
Proof. intros w tip (_ & _ & T). cbn. lra. Qed.
Theorem C30_trapezoid : forall w tip off old g qs a,
  sensible w -> w_symmetric w = true -> w_vertical w = false ->
  let p := wing_planform w in
  wing_segmented_planform (p_span p) (p_root p) off true (two_segments w tip) true old = Some (g, qs, a) ->
  a_reference a = w_sref w /\ a_ar a = w_ar w /\
  g_mgc g = p_mgc p /\ g_mac g = p_mac p /\ g_tip g = p_tip p /\ g_taper g = w_taper w /\
  g_le g = p_le p /\ tan (g_c4 g) = tan (w_sweep w) /\ g_tc g = w_tc w /\
  g_total_span g = p_span_total p /\ g_center g = p_center p /\ g_length g = p_length p.
Proof.
  intros w tip off old g qs a H Hsym Hver p E.
  destruct (span_square w H) as (B & Q). destruct (chords_positive w H) as (C & T).
  pose proof (trapezoid_area w H) as A. fold p in B, Q, C, T, A.
  assert (ET : p_tip p = w_taper w * p_root p) by apply out_tip.
  assert (EM : p_mac p = 2 / 3 * (p_root p + p_tip p - p_root p * p_tip p / (p_root p + p_tip p))) by apply out_mac.
  pose proof (two_segments_outboard w tip H) as O. unfold two_segments in *. pose proof H as (Hsr & Har & Htp).
  set (r := Seg 0 1 (w_sweep w) (w_tc w) (w_dihedral w)) in *.
  set (t := Seg 1 (w_taper w) (s_sweep tip) (s_tc tip) (s_dihedral tip)) in *.
  destruct (segmented_whole (p_span p) (p_root p) off true r t [] true old B C O) as (h & HS & HT & F & W).
  rewrite W in E. apply some3 in E as (-> & -> & ->). clear W. rename h into g. cbn [a_reference a_ar].
  assert (ER : reach (p_span p / 2) r t = p_span p / 2) by (unfold reach; cbn; ring).
  assert (ETr : trapezoids (p_span p / sides true) (p_root p) [r; t] = w_sref w / 2).
  { unfold trapezoids, sides. rewrite neighbours_cons, ER. cbn [neighbours s_chord r t]. rewrite <- A, ET. field. }
  rewrite ETr in *. 
  split; [unfold sides; destruct (Req_EM_T _ 0); lra |].
  split; [rewrite Q; unfold sides; field; lra |].
  destruct F as [A1 A2 A3 A4 A5 A6 A7 A8 A9 A10].
  assert (EG : g_mgc g = p_mgc p).
  { apply (Rmult_eq_reg_r (p_span p)); [| lra]. rewrite A2, ETr. unfold p at 1. rewrite out_mgc. fold p. unfold sides. lra. }
  split; [exact EG |].
  assert (EMac : g_mac g = p_mac p).
  { apply (Rmult_eq_reg_r (w_sref w / 2)); [| lra]. rewrite ETr in A3. rewrite A3. 
    rewrite squares by assumption. rewrite neighbours_cons. unfold sides. rewrite ER.
    cbn [neighbours s_chord r t]. unfold mac_of. rewrite EM, ET, <- A, ET. field. lra. }
  split; [exact EMac |].
  change (last [r; t] r) with t in *. cbn [s_chord r t] in A4, A5.
  assert (ETip : g_tip g = p_tip p) by (rewrite A4, ET; ring).
  split; [exact ETip |]. split; [rewrite A5; field |].
  assert (EC : tan (g_c4 g) = tan (w_sweep w)).
  { rewrite A6, tan_atan, neighbours_cons. cbn. ring. }
  assert (EL : g_le g = p_le p).
  { destruct A7 as (R1 & T1). pose proof (out_le_range w) as R2. fold p in R2.
    rewrite <- (atan_tan (g_le g)) by lra. rewrite <- (atan_tan (p_le p)) by lra. f_equal.
    apply (Rmult_eq_reg_r (p_span p / sides true)); [| unfold sides; lra]. rewrite T1, EC, ETip.
    pose proof (C29_sweep w (p_span p / sides true) H) as (_ & K). cbv zeta in K. fold p in K. unfold leading, straight in K.
    unfold sides in *. replace (p_span p / 2 / (p_span p / 2)) with 1 in K by (field; lra). cbn [s_chord r]. lra. }
  split; [exact EL |]. split; [exact EC |].
  assert (Etc : g_tc g = w_tc w).
  { apply (Rmult_eq_reg_r (w_sref w / 2)); [| lra]. rewrite ETr in A8.
    replace (w_sref w / 2) with (w_sref w / 2 * sides true / 2) at 1 by (unfold sides; field). rewrite A8, neighbours_cons.
    unfold sides. rewrite ER. cbn [neighbours s_chord s_tc r t]. rewrite <- A, ET. field. }
  split; [exact Etc |].
  split.
  { rewrite A1, neighbours_cons. unfold sides. rewrite ER. unfold p. rewrite out_total. fold p. cbn [neighbours s_dihedral r].
    unfold Rdiv. generalize (/ cos (w_dihedral w)). intro k. field. }
  split.
  - destruct A9 as (x & y & z & E1 & E2 & M1 & M2 & M3). rewrite E2.
    unfold p at 1. rewrite out_center, Hsym, Hver. fold p. cbv zeta.
    rewrite ETr in M1, M2, M3. unfold sides in M1, M2, M3.
    assert (K : forall slope x0 m, first_moment (p_span p / 2) (p_root p) slope x0 [r; t] m ->
      m = x0 * (p_span p / 2) * (p_root p + p_tip p) / 2 + slope r * (p_span p / 2) ^ 2 * (p_root p + 2 * p_tip p) / 6).
    { intros slope x0 m M. inversion M as [| | ? ? ? ? v m0 I M0]; subst. inversion M0; subst. rewrite Rplus_0_r.
      unfold local_chord in I. rewrite ER in I. cbn [s_chord r t] in I. rewrite Rmult_1_r, (Rmult_comm (p_root p)), <- ET in I.
      apply (integral_unique _ _ _ _ _ I). apply straight_moment_integral. lra. }
    apply K in M1. apply K in M3. cbn [s_sweep s_dihedral s_chord r] in M1, M3.
    assert (X : x = p_mac p * (25 / 100) + p_span p / 6 * ((1 + 2 * w_taper w) / (1 + w_taper w)) * tan (p_le p)).
    { apply (Rmult_eq_reg_r (w_sref w / 2)); [| lra]. rewrite M1. rewrite EM.
      unfold p at 15. rewrite out_le. fold p. rewrite <- A, ET.
      replace (4 / w_ar w) with (4 * (p_span p * (p_root p + p_tip p) / 2) / p_span p ^ 2) by (rewrite A, Q; field; lra). rewrite ET. field.
      repeat split; lra. }
    assert (Z : z = p_span p / 6 * ((1 + 2 * w_taper w) / (1 + w_taper w)) * tan (w_dihedral w)).
    { apply (Rmult_eq_reg_r (w_sref w / 2)); [| lra]. rewrite M3, <- A, ET. field. lra. }
    rewrite X, Z. reflexivity.
  - rewrite A10, EL, ETip. unfold p at 4. rewrite out_length. fold p. unfold sides. field.
Qed.

(** every segment but the last gets its area, the exposed part of it (the innermost segment loses
    [off] metres to the fuselage), its mean aerodynamic chord and a wetted area; the reference areas
    add up to the wing's *)
Theorem C30_segments : forall span RC off sym l ow old g qs a,
  0 < span -> 0 < RC -> outboard l -> (2 <= length l)%nat ->
  wing_segmented_planform span RC off sym l ow old = Some (g, qs, a) ->
  let k := if sym then 2 else 1 in
  let semispan := span / k in
  length qs = pred (length l) /\
  fold_right Rplus 0 (map q_reference qs) = k * trapezoids semispan RC l /\
  forall n i j q v, nth_error l n = Some i -> nth_error l (S n) = Some j -> nth_error qs n = Some q ->
    let inner := if Nat.eqb n 0 then off else 0 in
    0 <= inner < reach semispan i j ->
    integral (local_chord semispan RC i j) inner (reach semispan i j) v ->
    q_reference q = k * (reach semispan i j * (RC * s_chord i + RC * s_chord j) / 2) /\
    q_exposed q = k * v /\ 0 < q_exposed q /\
    q_wetted q = (if Rlt_dec (g_tc g) (1/20) then 2003/1000 else 1977/1000 + 52/100 * g_tc g) * q_exposed q /\
    (forall v2, integral (fun y => local_chord semispan RC i j y ^ 2) inner (reach semispan i j) v2 ->
       q_mac q * v = v2) /\
    q_taper q * local_chord semispan RC i j inner = RC * s_chord j.
Proof.
  intros span RC off sym l ow old g qs a Hs HR O HL E k Sp.
  destruct l as [| x [| y rest]]; cbn in HL; try lia.
  destruct (segmented_whole span RC off sym x y rest ow old Hs HR O) as (h & HS & HT & F & W).
  rewrite W in E. apply some3 in E as (-> & -> & ->). clear W. rename h into g.
  change k with (sides sym) in *. change (span / k) with (span / sides sym) in Sp. fold Sp in HS, HT.
  set (l := x :: y :: rest) in *. fold Sp.
  destruct (all_properties_panels Sp RC off (g_tc g) sym l) as (LN & NT).
  split; [rewrite LN; apply panels_length |].
  split; [pose proof (total_reference Sp RC off (g_tc g) sym l) as R; unfold total in R; rewrite R; ring |].
  intros n i j q v Hi Hj Hq inner HI IV.
  pose proof (nth_panel l n i j O Hi Hj) as P. pose proof (reach_pos Sp HS i j P) as L.
  rewrite (NT n (i, j) (panels_nth l n i j Hi Hj)) in Hq.
  assert (EQ : q = seg_properties Sp RC off (g_tc g) sym (n =? 0)%nat (i, j)) by congruence. clear Hq.
  destruct P as (_ & CI & CJ).
  assert (PI : 0 < RC * s_chord i) by (apply Rmult_lt_0_compat; trivial).
  assert (PJ : 0 <= RC * s_chord j) by (apply Rmult_le_pos; lra).
  assert (LN0 : reach Sp i j <> 0) by lra.
  destruct (straight_shift (RC * s_chord i) (RC * s_chord j) (reach Sp i j) inner LN0) as (_ & EJ).
  assert (PC : 0 < straight (RC * s_chord i) (RC * s_chord j) (reach Sp i j) inner) by (apply straight_between; trivial).
  unfold local_chord in *. 
  pose proof (integral_unique _ _ _ _ _ IV (straight_part_integral _ _ _ _ _ LN0)) as V. rewrite EJ in V.
  set (ci := straight (RC * s_chord i) (RC * s_chord j) (reach Sp i j) inner) in *. set (cj := RC * s_chord j) in *.
  assert (ERf : q_reference q = sides sym * (reach Sp i j * (RC * s_chord i + cj) / 2)).
  { rewrite EQ, q_reference_value. fold cj. ring. }
  assert (ER : q_exposed q = sides sym * v).
  { rewrite V, EQ. destruct (exposed_value Sp RC off (g_tc g) sym i j L) as (X1 & X2).
    unfold ci, cj, inner in *. destruct (n =? 0)%nat.
    - rewrite X1. field.
    - rewrite X2, q_reference_value. unfold straight. field. lra. }
  assert (EW : (if Nat.eqb n 0 then RC * s_chord i + off * ((cj - RC * s_chord i) / reach Sp i j) else RC * s_chord i) = ci).
  { unfold ci, inner. destruct (n =? 0)%nat; unfold straight; field; lra. }
  assert (PV : 0 < v). { rewrite V. unfold Rdiv. apply Rmult_lt_0_compat; [apply Rmult_lt_0_compat |]; lra. }
  split; [exact ERf |]. split; [exact ER |].
  split; [rewrite ER; apply Rmult_lt_0_compat; [apply sides_pos | exact PV] |].
  split.
  { rewrite EQ at 1. rewrite wetted_value, <- EQ. f_equal. unfold wet_factor, Rltb.
    destruct (Rlt_dec (g_tc g) (5 / 100)), (Rlt_dec (g_tc g) (1 / 20)); lra. }
  assert (ETp : q_taper q = cj / ci).
  { rewrite EQ. unfold seg_properties. rewrite len_reach. unfold c_in, c_out. cbn [fst snd q_taper]. fold cj. rewrite EW. reflexivity. }
  split.
  - intros v2 I2. rewrite (integral_unique _ _ _ _ _ I2 (straight_part_square _ _ _ _ _ LN0)), EJ. fold ci.
    assert (EMq : q_mac q = ci * 2 / 3 * ((1 + cj / ci + (cj / ci) ^ 2) / (1 + cj / ci))).
    { rewrite EQ. unfold seg_properties. rewrite len_reach. unfold c_in, c_out. cbn [fst snd q_mac]. fold cj. rewrite EW. reflexivity. }
    rewrite EMq, V. field. split; lra.
  - rewrite ETp. field. lra.
Qed.

(** thickness: on a symmetric wing the area-weighted mean of the panels' thickness *)
Theorem C30_thickness : forall span RC off l ow old g qs a,
  0 < span -> 0 < RC -> outboard l -> (2 <= length l)%nat ->
  wing_segmented_planform span RC off true l ow old = Some (g, qs, a) ->
  g_tc g * trapezoids (span / 2) RC l
  = neighbours (fun i j => reach (span / 2) i j * (RC * s_chord i + RC * s_chord j) / 2 * s_tc i) l.
Proof.
  intros span RC off l ow old g qs a Hs HR O HL E.
  destruct l as [| x [| y rest]]; cbn in HL; try lia.
  destruct (segmented_whole span RC off true x y rest ow old Hs HR O) as (h & HS & HT & F & W).
  rewrite W in E. apply some3 in E as (-> & -> & ->). clear W.
  pose proof (fact_tc _ _ _ _ _ _ F) as K. unfold sides in K. rewrite <- K. field.
Qed.

(** on a wing with one side only the reported thickness is twice that *)
Theorem C30_thickness_refuted : forall span RC off l ow old g qs a t,
  0 < span -> 0 < RC -> outboard l -> (2 <= length l)%nat ->
  wing_segmented_planform span RC off false l ow old = Some (g, qs, a) ->
  (forall s, In s l -> s_tc s = t) -> g_tc g = 2 * t.
Proof.
  intros span RC off l ow old g qs a t Hs HR O HL E HT0.
  destruct l as [| x [| y rest]]; cbn in HL; try lia.
  destruct (segmented_whole span RC off false x y rest ow old Hs HR O) as (h & HS & HT & F & W).
  rewrite W in E. apply some3 in E as (-> & -> & ->). clear W.
  pose proof (fact_tc _ _ _ _ _ _ F) as K. unfold sides in *.
  assert (EN : forall l, (forall s, In s l -> s_tc s = t) ->
    neighbours (fun i j => reach (span / 1) i j * (RC * s_chord i + RC * s_chord j) / 2 * s_tc i) l
    = t * trapezoids (span / 1) RC l).
  { unfold trapezoids. induction l as [| p [| q l] IH]; intro HA; try (cbn; ring).
    rewrite !neighbours_cons, IH by (intros; apply HA; right; assumption).
    rewrite (HA p) by (left; reflexivity). ring. }
  rewrite (EN _ HT0) in K.
  apply (Rmult_eq_reg_r (trapezoids (span / 1) RC (x :: y :: rest))); [| lra]. lra.
Qed.

(** overwriting the wetted area of a symmetric wing stores that of one side only: half of what
    wing_planform finds for the same wing *)
Theorem C30_wetted_refuted : forall w tip off old g qs a,
  sensible w -> w_symmetric w = true -> 0 <= w_tc w ->
  let p := wing_planform w in
  wing_segmented_planform (p_span p) (p_root p) off true (two_segments w tip) true old = Some (g, qs, a) ->
  0 < a_wetted a /\ p_wetted p = 2 * a_wetted a.
Proof.
  intros w tip off old g qs a H Hsym Htc p E.
  destruct (span_square w H) as (B & Q). destruct (chords_positive w H) as (C & T).
  pose proof (trapezoid_area w H) as A. fold p in B, Q, C, T, A.
  assert (ET : p_tip p = w_taper w * p_root p) by apply out_tip.
  pose proof (two_segments_outboard w tip H) as O. unfold two_segments in *. pose proof H as (Hsr & Har & Htp).
  set (r := Seg 0 1 (w_sweep w) (w_tc w) (w_dihedral w)) in *.
  set (t := Seg 1 (w_taper w) (s_sweep tip) (s_tc tip) (s_dihedral tip)) in *.
  destruct (segmented_whole (p_span p) (p_root p) off true r t [] true old B C O) as (h & HS & HT & F & W).
  rewrite W in E. apply some3 in E as (-> & -> & ->). clear W. cbn [a_wetted].
  assert (V : neighbours (fun a b => 2 * (1 + (2/10) * s_tc a) * (reach (p_span p / sides true) a b * (p_root p * s_chord a + p_root p * s_chord b) / 2)) [r; t]
     = (1 + w_tc w / 5) * w_sref w).
  { rewrite neighbours_cons. unfold reach, sides. cbn [neighbours s_chord s_loc s_tc r t]. rewrite <- A, ET. field. }
  rewrite V. assert (P : 0 < (1 + w_tc w / 5) * w_sref w) by (apply Rmult_lt_0_compat; lra).
  destruct (Req_EM_T _ 0); [lra |]. split; [exact P |]. unfold p. rewrite out_wetted. fold p. rewrite <- A. field.
Qed.

(** a fin's centre is found along the span whatever its orientation: with segments a vertical wing
    reports its height as a sideways offset, where wing_planform reports a height *)
Theorem C30_vertical_refuted : forall w tip off ow old g qs a,
  sensible w -> w_symmetric w = false -> w_vertical w = true -> w_dihedral w = 0 ->
  let p := wing_planform w in
  wing_segmented_planform (p_span p) (p_root p) off false (two_segments w tip) ow old = Some (g, qs, a) ->
  (exists x y, 0 < y /\ g_center g = (x, y, 0)) /\ (exists x z, 0 < z /\ p_center p = (x, 0, z)).
Proof.
  intros w tip off ow old g qs a H Hsym Hver Hdih p E.
  destruct (span_square w H) as (B & Q). destruct (chords_positive w H) as (C & T). fold p in B, Q, C, T.
  pose proof (two_segments_outboard w tip H) as O. unfold two_segments in *. pose proof H as (Hsr & Har & Htp).
  set (r := Seg 0 1 (w_sweep w) (w_tc w) (w_dihedral w)) in *.
  set (t := Seg 1 (w_taper w) (s_sweep tip) (s_tc tip) (s_dihedral tip)) in *.
  destruct (segmented_whole (p_span p) (p_root p) off false r t [] ow old B C O) as (h & HS & HT & F & W).
  rewrite W in E. apply some3 in E as (-> & -> & ->). clear W. rename h into g. split.
  - destruct (fact_center _ _ _ _ _ _ F) as (x & y & z & E1 & E2 & M1 & M2 & M3).
    set (Sp := p_span p / sides false) in *. set (A := trapezoids Sp (p_root p) [r; t]) in *.
    assert (L : 0 < reach Sp r t) by (unfold reach; cbn; lra).
    assert (K : forall slope x0 m, first_moment Sp (p_root p) slope x0 [r; t] m ->
      m = x0 * reach Sp r t * (p_root p * 1 + p_root p * w_taper w) / 2 + slope r * reach Sp r t ^ 2 * (p_root p * 1 + 2 * (p_root p * w_taper w)) / 6).
    { intros slope x0 m M. inversion M as [| | ? ? ? ? v m0 I M0]; subst. inversion M0; subst. rewrite Rplus_0_r.
      apply (integral_unique _ _ _ _ _ I). unfold local_chord. cbn [s_chord r t]. apply straight_moment_integral. lra. }
    apply K in M2. apply K in M3. cbn [s_dihedral r] in M3. rewrite Hdih, tan_0 in M3.
    exists x, y. rewrite E2. split.
    + apply (Rmult_lt_reg_r A); [exact HT |]. rewrite M2, Rmult_0_l.
      assert (0 < p_root p * w_taper w) by (apply Rmult_lt_0_compat; trivial).
      assert (0 < reach Sp r t ^ 2 * (p_root p * 1 + 2 * (p_root p * w_taper w)) / 6); [| lra].
      unfold Rdiv. apply Rmult_lt_0_compat; [apply Rmult_lt_0_compat; [apply pow_lt; exact L |] |]; lra.
    + assert (Z : z = 0); [| rewrite Z; reflexivity].
      apply (Rmult_eq_reg_r A); [| lra]. rewrite M3. field.
  - unfold p. rewrite out_center, Hsym, Hver, Hdih, tan_0. fold p. cbv zeta. rewrite Rmult_0_r. eexists _, _. split; [| reflexivity].
    apply Rmult_lt_0_compat; [lra |]. apply Rdiv_lt_0_compat; lra.
Qed.

(** a wing with a kink and a pointed tip *)
Definition kinked : list seg :=
  [Seg 0 1 (1/2) (1/10) 0; Seg (3/10) (6/10) (1/3) (1/10) (1/10); Seg 1 0 0 (1/10) 0].
Example kinked_ok : outboard kinked /\ covers kinked /\ trapezoids 15 8 kinked = 54 /\
  divided kinked (match kinked with
                  | a :: rest => a :: Seg (15/100) (8/10) (1/2) (1/10) 0 :: rest
                  | [] => [] end).
Proof.
  split; [cbn; lra |]. split; [| split].
  - exists (Seg 0 1 (1/2) (1/10) 0), [Seg (3/10) (6/10) (1/3) (1/10) (1/10)], (Seg 1 0 0 (1/10) 0). repeat split.
  - cbn. unfold reach. cbn. lra.
  - eapply divided_here; [| apply divided_same]. unfold on_line, straight. cbn. repeat split; lra.
Qed.
Example kinked_answer : exists g qs a,
  wing_segmented_planform 30 8 1 true kinked true (Areas 0 0 0) = Some (g, qs, a) /\ a_reference a = 108.
Proof.
  destruct kinked_ok as (O & _ & T & _).
  destruct (wing_segmented_planform 30 8 1 true kinked true (Areas 0 0 0)) as [[[g qs] a] |] eqn:E.
  - exists g, qs, a. split; [reflexivity |].
    destruct (C30_area 30 8 1 true kinked true (Areas 0 0 0) g qs a) as (_ & _ & R & _); try lra; trivial.
    + cbn. lia.
    + rewrite R. replace (30 / 2) with 15 by field. rewrite T. ring.
  - apply C30_defined in E. discriminate.
Qed.

(** ** C31: control surfaces on segments *)

(** the segments keep their order; the root segment holds nothing; every other one holds, surface
    by surface, the part between its predecessor's break and its own -- except surfaces that start
    exactly at the inboard break and go on past the outboard one *)
Theorem C31_parts : forall surfaces locs, ascending locs ->
  (forall cs, In cs surfaces -> k_start cs < k_end cs) ->
  map fst (populate surfaces locs) = locs /\
  (forall r held, nth_error (populate surfaces locs) 0 = Some (r, held) -> held = []) /\
  forall i l r, nth_error locs i = Some l -> nth_error locs (S i) = Some r ->
    exists held, nth_error (populate surfaces locs) (S i) = Some (r, held) /\
      (forall p, In p held <-> exists cs, In cs surfaces /\ ~ forgotten cs l r /\ In p (clip cs l r)) /\
      ((forall cs, In cs surfaces -> ~ forgotten cs l r) ->
       held = concat (map (fun cs => clip cs l r) surfaces)).
Proof.
  intros surfaces locs A HC. rewrite populate_cuts. split; [| split].
  - generalize (@None R). clear A. induction locs as [| r locs IH]; intro p; [reflexivity |]. cbn [cuts map fst]. rewrite IH. reflexivity.
  - intros r held E. destruct locs as [| x locs]; [discriminate |]. cbn in E. inversion E. reflexivity.
  - intros i l r Hl Hr. rewrite cuts_nth, Hl, Hr. eexists. split; [reflexivity |].
    pose proof (ascending_nth locs i l r A Hl Hr) as L. split.
    + intro p. rewrite in_flat_map. split.
      * intros (cs & I & P). exists cs. rewrite cut_clip in P by (try apply HC; assumption).
        destruct (misses cs l r); [contradiction |]. repeat split; assumption.
      * intros (cs & I & N & P). exists cs. split; [exact I |]. rewrite cut_clip by (try apply HC; assumption).
        destruct (misses cs l r); [contradiction | exact P].
    + intro N. rewrite <- flat_map_concat_map. clear A Hl Hr. induction surfaces as [| cs rest IH]; [reflexivity |].
      cbn [flat_map]. rewrite IH by (intros; first [apply HC | apply N]; right; assumption).
      rewrite cut_clip by (try apply HC; try left; trivial).
      destruct (misses cs l r) as [F |]; [| reflexivity]. exfalso. apply (N cs); [left; reflexivity | exact F].
Qed.

(** the parts of a surface together have its span *)
Theorem C31_whole : forall surfaces root locs cs, ascending (root :: locs) -> NoDup (map k_tag surfaces) -> In cs surfaces ->
  k_start cs < k_end cs -> root <= k_start cs -> k_end cs <= last locs root ->
  (forall l r, adjacent (root :: locs) l r -> ~ forgotten cs l r) ->
  span_of (k_tag cs) (populate surfaces (root :: locs)) = k_span cs.
Proof.
  intros surfaces root locs cs A N I H H1 H2 NF.
  assert (H2' : k_end cs <= last (root :: locs) root) by (destruct locs; cbn in *; lra).
  rewrite (span_of_populate cs surfaces locs root N I H A H1 H2'), (loss_zero cs locs root NF). field. lra.
Qed.

(** in the excepted case the part between the two breaks is missing *)
Theorem C31_lost_refuted : forall surfaces root locs cs l r, ascending (root :: locs) -> NoDup (map k_tag surfaces) -> In cs surfaces ->
  k_start cs < k_end cs -> k_end cs <= last locs root ->
  adjacent (root :: locs) l r -> k_start cs = l -> r < k_end cs ->
  span_of (k_tag cs) (populate surfaces (root :: locs)) = k_span cs * (1 - (r - l) / (k_end cs - k_start cs)) /\
  (0 < k_span cs -> span_of (k_tag cs) (populate surfaces (root :: locs)) < k_span cs).
Proof.
  intros surfaces root locs cs l r A N I H H2 (before & after & E) F1 F2.
  assert (H2' : k_end cs <= last (root :: locs) root) by (destruct locs; cbn in *; lra).
  assert (H1 : root <= k_start cs).
  { rewrite F1. destruct before as [| x before].
    - cbn in E. inversion E. lra.
    - cbn in E. inversion E; subst. apply Rlt_le, (ascending_lt _ _ _ A). apply in_or_app. right. left. reflexivity. }
  assert (L : l < r).
  { clear -A E. revert root locs A E. induction before as [| x before IH]; intros root locs A E; cbn in E; inversion E; subst.
    - apply A.
    - destruct (before ++ l :: r :: after) as [| y rest] eqn:E'; [destruct before; discriminate |]. apply (IH y rest); [apply A | reflexivity]. }
  rewrite (span_of_populate cs surfaces locs root N I H A H1 H2').
  rewrite (loss_one cs H before root locs l r after A E (conj F1 F2)). split; [reflexivity |].
  intro P. assert (0 < k_span cs * ((r - l) / (k_end cs - k_start cs))).
  { apply Rmult_lt_0_compat; [exact P |]. apply Rdiv_lt_0_compat; lra. }
  lra.
Qed.

(** a flap and an aileron over three segments; a flap from the first break past the second loses a part *)
Example flap_and_aileron :
  let flap := Control 0 10 (1/10) (6/10) 7 in let aileron := Control 1 5 (7/10) (95/100) 8 in
  let locs := [0; 1/2; 1] in
  span_of 0 (populate [flap; aileron] locs) = 10 /\ span_of 1 (populate [flap; aileron] locs) = 5.
Proof.
  intros flap aileron locs.
  assert (NF : forall cs l r, In cs [flap; aileron] -> adjacent locs l r -> ~ forgotten cs l r).
  { intros cs l r I ([| x [| y [| z bf]]] & af & E) F; cbn in E; inversion E; subst; cbn in I;
      destruct I as [<- | [<- | []]]; destruct F as (F & _); cbn in F; try lra; try (destruct bf; discriminate). }
  assert (ND : NoDup (map k_tag [flap; aileron])).
  { cbn. repeat constructor; cbn; lia. }
  split.
  - apply (C31_whole [flap; aileron] 0 [1/2; 1] flap); cbn; try lra; trivial; try (left; reflexivity).
    intros l r. apply NF. left. reflexivity.
  - apply (C31_whole [flap; aileron] 0 [1/2; 1] aileron); cbn; try lra; trivial; try (right; left; reflexivity).
    intros l r. apply NF. right. left. reflexivity.
Qed.
Example flap_from_break :
  span_of 0 (populate [Control 0 10 (1/2) 1 7] [0; 1/2; 3/4; 1]) = 5.
Proof.
  destruct (C31_lost_refuted [Control 0 10 (1/2) 1 7] 0 [1/2; 3/4; 1] (Control 0 10 (1/2) 1 7) (1/2) (3/4)) as (E & _);
    cbn; try lra; try (left; reflexivity).
  - repeat constructor. intros [].
  - exists [0], [1]. reflexivity.
  - cbn in E. rewrite E. field.
Qed.

(** ** C32: chord and span location *)

(** the chord runs straight from the root at the centre line to the tip at half the span *)
Theorem C32_chord : forall root tip b y, 0 < b ->
  chord_at root tip b y = straight root tip (b / 2) y /\
  chord_at root tip b 0 = root /\ chord_at root tip b (b / 2) = tip /\
  (forall y', root > tip -> y < y' -> chord_at root tip b y' < chord_at root tip b y).
Proof.
  intros root tip b y B. unfold chord_at, straight. repeat split; try (field; lra).
  intros y' T Y. apply Rplus_lt_compat_l. apply Rmult_lt_compat_l; [| lra]. apply Rdiv_lt_0_compat; lra.
Qed.

(** on a tapered wing the two functions invert each other *)
Theorem C32_inverse : forall root tip b, 0 < b -> root <> tip ->
  (forall y, span_at root tip b (chord_at root tip b y) = y) /\
  (forall c, chord_at root tip b (span_at root tip b c) = c).
Proof.
  intros root tip b B N. unfold span_at, chord_at. destruct (Req_EM_T (root - tip) 0); [lra |].
  split; intros; field; split; lra.
Qed.

(** on an untapered wing every chord is said to be at the centre line *)
Theorem C32_untapered : forall c b x y, 0 < b -> span_at c c b x = 0 /\ chord_at c c b y = c.
Proof.
  intros c b x y B. unfold span_at, chord_at. split.
  - destruct (Req_EM_T (c - c) 0); [reflexivity | lra].
  - field. lra.
Qed.

(** the span location of the mean aerodynamic chord is where the half wing's area centres *)
Theorem C32_mean_station : forall w v, sensible w -> w_taper w <> 1 ->
  let p := wing_planform w in
  integral (fun y => y * straight (p_root p) (p_tip p) (p_span p / 2) y) 0 (p_span p / 2) v ->
  span_at (p_root p) (p_tip p) (p_span p) (p_mac p) * w_sref w = 2 * v.
Proof.
  intros w v H NT p I. destruct (span_square w H) as (B & _). destruct (chords_positive w H) as (C & _). fold p in B, C.
  destruct (C29_center w v H I) as (y & E & _ & M & _). fold p in M.
  destruct (C32_chord (p_root p) (p_tip p) (p_span p) y B) as (K & _).
  destruct (C32_inverse (p_root p) (p_tip p) (p_span p) B) as (J & _).
  - assert (ET : p_tip p = w_taper w * p_root p) by apply out_tip. rewrite ET. intro D.
    apply NT. apply (Rmult_eq_reg_r (p_root p)); lra.
  - rewrite <- M, <- K, J. exact E.
Qed.
Example chord_of_big_wing : chord_at 6 2 20 5 = 4 /\ span_at 6 2 20 4 = 5.
Proof.
  destruct (C32_inverse 6 2 20) as (J & _); try lra.
  assert (E : chord_at 6 2 20 5 = 4) by (unfold chord_at; field). split; [exact E |]. rewrite <- E. apply J.
Qed.
Print Assumptions C29_area.
Print Assumptions C29_round_trip.
Print Assumptions C29_mac.
Print Assumptions C29_sweep.
Print Assumptions C29_center.
Print Assumptions C29_extent.
Print Assumptions C29_flap.
Print Assumptions C29_one_sided_refuted.
Print Assumptions C30_defined.
Print Assumptions C30_area.
Print Assumptions C30_mac.
Print Assumptions C30_mac_bounds.
Print Assumptions C30_sweep.
Print Assumptions C30_center.
Print Assumptions C30_moments_exist.
Print Assumptions C30_divided.
Print Assumptions C30_trapezoid.
Print Assumptions C30_segments.
Print Assumptions C30_thickness.
Print Assumptions C30_thickness_refuted.
Print Assumptions C30_wetted_refuted.
Print Assumptions C30_vertical_refuted.
Print Assumptions C31_parts.
Print Assumptions C31_whole.
Print Assumptions C31_lost_refuted.
Print Assumptions C32_chord.
Print Assumptions C32_inverse.
Print Assumptions C32_untapered.
Print Assumptions C32_mean_station.
