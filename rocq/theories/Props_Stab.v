(** * C78-C82: sweep, chords, lift-curve slope, pitching and yawing moment *)
From Coq Require Import Reals List Bool Lra Psatz Permutation.
From Verif Require Import PyBase M_Opt P_Opt S_Wing P_Wing P_Field2 M_Stab S_Stab P_Stab.
Import ListNotations.
Local Open Scope R_scope.
Local Open Scope list_scope.

(** ** C78: sweep of a line at another fraction of the chord *)
(** the new angle is that of the straight line through the points at the new fraction; [h] is the length of the panel on one side *)
Theorem C78_geometry a pa ca pb cb root span symm old new :
  0 < root -> 0 < ca -> 0 <= cb -> pa < pb -> 0 < span ->
  let h := (if symm : bool then span / 2 else span) * (pb - pa) in
  forall le, tan a = line_slope le h (ca * root) (cb * root) old ->
  tan (convert_sweep_segments a pa ca pb cb root span symm old new) = line_slope le h (ca * root) (cb * root) new.
Proof.
  intros R0 A B P S h le H. rewrite segments_tan, H. unfold line_slope. assert (CR : 0 < ca * root) by nra. assert (CT : 0 <= cb * root) by nra.
  set (c0 := ca * root) in *. set (c1 := cb * root) in *. assert (SP : 0 < span * (pb - pa)) by nra.
  unfold h. destruct symm; field; repeat split; lra.
Qed.
(** converting there and back, in two steps, or not at all *)
Theorem C78_round_trip a pa ca pb cb root span symm f g k : steep a ->
  let conv x := convert_sweep_segments x pa ca pb cb root span symm in
  conv (conv a f g) g f = a /\ conv (conv a f g) g k = conv a f k /\ conv a f f = a /\ steep (conv a f g).
Proof.
  intros SA conv.
  assert (ST : forall x f g, steep x -> steep (conv x f g)).
  { intros x u v X. unfold conv, convert_sweep_segments. destruct (Req_EM_T u v); [exact X|]. pose proof (atan_bound (tan (if zero u then x else atan (tan x + 4 * u * (1 - cb * root / (ca * root)) / ((if symm then span else span * 2) * (pb - pa) / (1 / 2 * (ca * root + cb * root)) * (1 + cb * root / (ca * root))))) - 4 * v * (1 - cb * root / (ca * root)) / ((if symm then span else span * 2) * (pb - pa) / (1 / 2 * (ca * root + cb * root)) * (1 + cb * root / (ca * root))))) as Q. unfold steep. cbn zeta. lra. }
  assert (INJ : forall x y, steep x -> steep y -> tan x = tan y -> x = y) by (intros x y X Y E; rewrite <- (atan_of_tan x X), <- (atan_of_tan y Y), E; reflexivity).
  split; [|split; [|split]].
  - apply INJ; [now apply ST, ST | assumption|]. unfold conv. rewrite !segments_tan. unfold Rdiv. ring.
  - apply INJ; [now apply ST, ST | now apply ST|]. unfold conv. rewrite !segments_tan. unfold Rdiv. ring.
  - unfold conv, convert_sweep_segments. destruct (Req_EM_T f f); [reflexivity | congruence].
  - now apply ST.
Qed.
(** a panel of constant chord has the same sweep everywhere; one that narrows has less sweep further back *)
Theorem C78_taper a pa ca pb cb root span symm f g : steep a -> 0 < root -> 0 < ca -> 0 <= cb -> pa < pb -> 0 < span -> f < g ->
  (cb = ca -> convert_sweep_segments a pa ca pb cb root span symm f g = a) /\
  (cb < ca -> convert_sweep_segments a pa ca pb cb root span symm f g < a).
Proof.
  intros SA R0 A B P S FG. pose proof (C78_round_trip a pa ca pb cb root span symm f g f SA) as (_ & _ & _ & ST).
  set (h := (if symm then span / 2 else span) * (pb - pa)). assert (H : 0 < h) by (unfold h; destruct symm; nra).
  pose proof (C78_geometry a pa ca pb cb root span symm f g R0 A B P S) as G. cbn zeta in G. fold h in G.
  specialize (G ((tan a * h + f * (ca * root) - f * (cb * root)) / h)).
  assert (E : tan a = line_slope ((tan a * h + f * (ca * root) - f * (cb * root)) / h) h (ca * root) (cb * root) f) by (unfold line_slope; field; lra).
  specialize (G E). set (c := convert_sweep_segments _ _ _ _ _ _ _ _ _ _) in *.
  assert (D : tan c = tan a - (g - f) * (ca - cb) * root / h) by (rewrite G; unfold line_slope; field; lra).
  split; intro C.
  - rewrite <- (atan_of_tan c ST), <- (atan_of_tan a SA), D, C. f_equal. unfold Rdiv. ring.
  - rewrite <- (atan_of_tan c ST), <- (atan_of_tan a SA). apply atan_increasing. rewrite D.
    assert (0 < (g - f) * (ca - cb) * root / h); [|lra]. apply Rdiv_lt_0_compat; [|exact H]. apply Rmult_lt_0_compat; [nra | exact R0].
Qed.
(** whole wings: from the quarter chord and from the leading edge the same answer, if the two sweeps stored agree *)
Theorem C78_wing w g : sw_taper w <> -1 -> aspect w <> 0 ->
  tan (sw_quarter w) = tan (sw_leading w) - 4 * (1 / 4) * (1 - sw_taper w) / (aspect w * (1 + sw_taper w)) ->
  convert_sweep w (1 / 4) g = convert_sweep w 0 g /\
  tan (convert_sweep w 0 g) = tan (sw_leading w) - 4 * g * (1 - sw_taper w) / (aspect w * (1 + sw_taper w)).
Proof.
  intros T A H. unfold convert_sweep. rewrite (zero_yes 0 eq_refl), (zero_no (1 / 4)) by lra. rewrite !tan_of_atan, H. split; [|reflexivity]. f_equal. unfold Rdiv. ring.
Qed.
(** "the old fraction says which line the known sweep belongs to" is false of whole wings: every non-zero fraction takes the quarter-chord sweep *)
Theorem C78_wing_refuted : exists w, sw_quarter w <> 0 /\ forall f, f <> 0 -> tan (convert_sweep w f f) = tan (sw_quarter w).
Proof.
  exists (SWing (PI / 4) (PI / 4) (1 / 2) 8 None None). cbn [sw_quarter]. split; [pose proof PI_RGT_0; lra|]. intros f F. unfold convert_sweep. rewrite zero_no by assumption.
  rewrite !tan_of_atan. cbn [sw_quarter sw_taper]. unfold Rdiv. ring.
Qed.
Example C78_case : convert_sweep_segments (PI / 6) 0 1 1 (1 / 2) 4 20 true 0 (1 / 4) < PI / 6.
Proof. apply C78_taper; try lra. unfold steep. pose proof PI_RGT_0. lra. Qed.

(** ** C79: mean aerodynamic chord, aerodynamic centre, extension to the centre line *)
(** a chord given is returned; otherwise it is the integral of the squared chord over the area, and lies between tip and root chord *)
Theorem C79_given S b l cr ct mac : mac <> 0 -> trapezoid_mac S b l cr ct mac = mac.
Proof. intro M. unfold trapezoid_mac. rewrite zero_no by assumption. reflexivity. Qed.
Theorem C79_mac S b l cr ct h : 0 < h -> 0 < cr -> 0 <= ct -> (ct = 0 -> l = 0) ->
  (forall area square, integral (straight cr ct h) 0 h area -> integral (fun y => straight cr ct h y ^ 2) 0 h square ->
     trapezoid_mac S b l cr ct 0 * area = square) /\
  Rmin cr ct <= trapezoid_mac S b l cr ct 0 <= Rmax cr ct.
Proof.
  intros H R0 T L. assert (E : trapezoid_mac S b l cr ct 0 = 2 / 3 * (cr + ct - cr * ct / (cr + ct))).
  { unfold trapezoid_mac. rewrite (zero_yes 0 eq_refl). cbn [negb]. destruct (Req_EM_T ct 0) as [->|N].
    - rewrite (zero_yes 0 eq_refl), (zero_no cr) by lra. rewrite (L eq_refl). rewrite !Rmult_0_r. reflexivity.
    - rewrite (zero_no ct) by assumption. reflexivity. }
  rewrite E. split.
  - intros area square IA IS. assert (EA : area = h * (cr + ct) / 2) by (eapply integral_unique; [exact IA | apply straight_integral; lra]).
    assert (ES : square = h * (cr ^ 2 + cr * ct + ct ^ 2) / 3) by (eapply integral_unique; [exact IS | apply straight_square_integral; lra]).
    rewrite EA, ES. field. lra.
  - assert (F : 2 / 3 * (cr + ct - cr * ct / (cr + ct)) * (cr + ct) = 2 / 3 * (cr ^ 2 + cr * ct + ct ^ 2)) by (field; lra).
    set (m := 2 / 3 * (cr + ct - cr * ct / (cr + ct))) in *. unfold Rmin, Rmax. destruct (Rle_dec cr ct); split; apply Rmult_le_reg_r with (cr + ct); try lra; rewrite F; nra.
Qed.
(** without chords they follow from area, span and taper, so that the area comes out right *)
Theorem C79_no_chords S b l : 0 < S -> 0 < b -> 0 <= l ->
  exists cr ct, ct = l * cr /\ b * (cr + ct) / 2 = S /\ trapezoid_mac S b l 0 0 0 = 2 / 3 * (cr + ct - cr * ct / (cr + ct)).
Proof.
  intros S0 B L. exists ((S / b) / (1 - 1 / 2 * (1 - l))), ((S / b) / (1 - 1 / 2 * (1 - l)) * l).
  split; [ring|]. split; [field; lra|]. unfold trapezoid_mac. rewrite (zero_yes 0 eq_refl). reflexivity.
Qed.
(** the centre is a quarter chord behind the leading end of the mean chord, which sits where the local chord equals it *)
Theorem C79_ac S b l sweep symm cr : 0 < b -> 0 < cr -> 0 <= l -> l <> 1 ->
  let ct := l * cr in
  let h := if symm : bool then b / 2 else b in
  exists y, straight cr ct h y = trapezoid_mac S b l cr ct 0 /\ y = h * (1 + 2 * l) / (3 * (1 + l)) /\
  trapezoid_ac_x S b l sweep symm cr ct 0 = y * tan sweep + trapezoid_mac S b l cr ct 0 / 4.
Proof.
  intros B R0 L N ct h. assert (H : 0 < h) by (unfold h; destruct symm; lra).
  assert (E : trapezoid_mac S b l cr ct 0 = 2 / 3 * (cr + ct - cr * ct / (cr + ct))).
  { unfold trapezoid_mac. rewrite (zero_yes 0 eq_refl). cbn [negb]. unfold zero at 1. destruct (Req_EM_T ct 0) as [Z|Z]; [|reflexivity].
    rewrite (zero_no cr) by lra. replace (cr * l) with ct by (unfold ct; ring). reflexivity. }
  exists (h * (1 + 2 * l) / (3 * (1 + l))). rewrite E. split; [|split; [reflexivity|]].
  - unfold straight, ct. field. repeat split; nra.
  - unfold trapezoid_ac_x. rewrite E. destruct (Req_EM_T l 1); [contradiction|]. rewrite (zero_no cr) by lra. unfold h, ct. destruct symm; field; repeat split; nra.
Qed.
(** "so also for a wing of constant chord" is false of a symmetric wing: the mean chord is put at the tip instead of half way *)
Theorem C79_ac_refuted S b sweep cr : 0 < b -> 0 < cr -> sweep = PI / 4 ->
  trapezoid_ac_x S b 1 sweep true cr cr 0 = b / 2 * tan sweep + cr / 4 /\
  trapezoid_ac_x S b 1 sweep true cr cr 0 <> b / 4 * tan sweep + cr / 4.
Proof.
  intros B R0 SW. assert (E : trapezoid_ac_x S b 1 sweep true cr cr 0 = b / 2 * tan sweep + cr / 4).
  { unfold trapezoid_ac_x, trapezoid_mac. rewrite (zero_yes 0 eq_refl), (zero_no cr) by lra. cbn [negb]. destruct (Req_EM_T 1 1); [|congruence]. field. lra. }
  split; [exact E|]. rewrite E, SW, tan_PI4. lra.
Qed.
(** extending a surface by [dh] to the centre line continues its edges: chord, area and aspect ratio are those of the longer panel *)
Theorem C79_extend symm span ct cr1 sweep dh o : 0 < span -> 0 < ct -> ct <= cr1 -> 0 <= dh ->
  let e := extend_to_ref_area symm span ct cr1 sweep dh o in
  let sides := if symm : bool then 2 else 1 in
  let h := span / sides in
  straight (e_root e) ct (h + dh) dh = cr1 /\
  (forall a, integral (straight (e_root e) ct (h + dh)) 0 (h + dh) a -> e_area e = sides * a) /\
  (forall a0 a1, integral (straight (e_root e) ct (h + dh)) 0 dh a0 -> integral (straight cr1 ct h) 0 h a1 -> e_area e = sides * (a0 + a1)) /\
  e_span e = span + sides * dh /\ e_ar e = e_span e ^ 2 / e_area e /\ (dh = 0 -> e_root e = cr1 /\ e_span e = span).
Proof.
  intros SP T RT D e sides h. assert (SD : 0 < sides) by (unfold sides; destruct symm; lra). assert (H : 0 < h) by (unfold h; apply Rdiv_lt_0_compat; lra).
  assert (HB : span * (1 / 2) * (2 - (if symm then 1 else 0)) = h) by (unfold h, sides; destruct symm; lra).
  assert (ER : e_root e = ct + (h + dh) / h * (cr1 - ct)) by (unfold e, extend_to_ref_area; destruct o as [[x y] z]; cbn [e_root]; rewrite HB; reflexivity).
  assert (ES : e_span e = (h + dh) * sides) by (unfold e, extend_to_ref_area, sides; destruct o as [[x y] z]; cbn [e_span]; rewrite HB; destruct symm; ring).
  assert (EA : e_area e = 1 / 2 * (h + dh) * (e_root e + ct) * sides) by (rewrite ER; unfold e, extend_to_ref_area, sides; destruct o as [[x y] z]; cbn [e_area]; rewrite HB; destruct symm; ring).
  assert (EQ : e_ar e = (h + dh) ^ 2 / (1 / 2 * (h + dh) * (e_root e + ct)) * sides) by (rewrite ER; unfold e, extend_to_ref_area, sides; destruct o as [[x y] z]; cbn [e_ar]; rewrite HB; destruct symm; ring).
  assert (RP : ct <= e_root e) by (rewrite ER; assert (0 <= (h + dh) / h * (cr1 - ct)); [apply Rmult_le_pos; [apply Rlt_le, Rdiv_lt_0_compat; lra | lra] | lra]).
  assert (HD : h + dh <> 0) by lra.
  split; [|split; [|split; [|split; [|split]]]].
  - rewrite ER. unfold straight. field. lra.
  - intros a I. rewrite (integral_unique _ _ _ _ _ I (straight_integral (e_root e) ct (h + dh) HD)), EA. field.
  - intros a0 a1 I0 I1. rewrite (integral_unique _ _ _ _ _ I1 (straight_integral cr1 ct h (Rgt_not_eq _ _ H))), EA.
    assert (J0 : integral (straight (e_root e) ct (h + dh)) 0 dh (e_root e * (dh - 0) + (ct - e_root e) / (h + dh) * (dh ^ 2 - 0 ^ 2) / 2 + 0 * (dh ^ 3 - 0 ^ 3) / 3)).
    { apply integral_quadratic. intro t. rewrite straight_affine by lra. ring. }
    rewrite (integral_unique _ _ _ _ _ I0 J0), ER. field. lra.
  - rewrite ES. unfold h. field. lra.
  - rewrite EQ, ES, EA. field. repeat split; lra.
  - intros ->. rewrite ER, ES. split; [|unfold h]; field; lra.
Qed.
(** "extending moves the origin along the axis only" is false: all three coordinates move *)
Theorem C79_extend_refuted symm span ct cr1 dh x y z : 0 < dh ->
  e_origin (extend_to_ref_area symm span ct cr1 (PI / 4) dh (x, y, z)) = (x - dh, y - dh, z - dh).
Proof. intro D. unfold extend_to_ref_area. cbn [e_origin]. rewrite tan_PI4. replace (- dh * 1) with (- dh) by ring. reflexivity. Qed.
Example C79_case : trapezoid_mac 0 0 (1 / 2) 4 2 0 = 28 / 9.
Proof. unfold trapezoid_mac. rewrite (zero_yes 0 eq_refl), (zero_no 2) by lra. cbn [negb]. lra. Qed.

(** ** C80: lift-curve slope *)
(** below Mach 1: positive, at most half pi times the aspect ratio, below the section's slope; more aspect ratio or Mach number, more slope; more sweep, less *)
Theorem C80_subsonic ar half M : 0 < ar -> 0 <= M -> M < 1 ->
  0 < slope ar half M /\ slope ar half M <= PI / 2 * ar /\ slope ar half M < 613 / 100 / sqrt (1 - M ^ 2) /\
  (forall ar', ar < ar' -> slope ar half M < slope ar' half M) /\
  (forall M', M < M' -> M' < 1 -> slope ar half M < slope ar half M') /\
  (forall half', 0 <= half -> half < half' -> half' < PI / 2 -> slope ar half' M < slope ar half M).
Proof.
  intros A M0 M1. pose proof PI_RGT_0 as P. set (k := 613 / 100 / (2 * PI)). assert (K : 0 < k) by (unfold k; apply Rdiv_lt_0_compat; lra).
  assert (E : forall a t m, 0 <= m -> m < 1 -> slope a t m = shape a ((1 - m ^ 2 + tan t ^ 2) / k ^ 2)).
  { intros a t m X Y. rewrite slope_sub by assumption. fold k. unfold shape. f_equal. f_equal. f_equal. unfold Rdiv. ring. }
  assert (K2 : 0 < k ^ 2) by nra.
  assert (C : 0 < (1 - M ^ 2 + tan half ^ 2) / k ^ 2) by (apply Rdiv_lt_0_compat; [pose proof (pow2_ge_0 (tan half)); nra | assumption]).
  refine (conj _ (conj _ (conj _ (conj _ (conj _ _))))).
  - rewrite E by assumption. apply shape_pos; lra.
  - rewrite E by assumption. apply shape_slender; lra.
  - rewrite E by assumption. eapply Rlt_le_trans; [apply shape_plate; assumption|].
    assert (B : 0 < 1 - M ^ 2) by nra. assert (Q : sqrt (1 - M ^ 2) / k <= sqrt ((1 - M ^ 2 + tan half ^ 2) / k ^ 2)).
    { replace (sqrt (1 - M ^ 2) / k) with (sqrt ((1 - M ^ 2) / k ^ 2)).
      - apply sqrt_le_1_alt. unfold Rdiv. apply Rmult_le_compat_r; [apply Rlt_le, Rinv_0_lt_compat; assumption|]. pose proof (pow2_ge_0 (tan half)). lra.
      - rewrite sqrt_div_alt by assumption. replace (k ^ 2) with (k * k) by ring. rewrite sqrt_square by lra. reflexivity. }
    pose proof (sqrt_lt_R0 _ B) as SB. assert (D : 0 < sqrt (1 - M ^ 2) / k) by (apply Rdiv_lt_0_compat; assumption).
    apply Rle_trans with (2 * PI / (sqrt (1 - M ^ 2) / k)).
    + unfold Rdiv at 1 2. apply Rmult_le_compat_l; [lra|]. apply Rinv_le_contravar; assumption.
    + right. unfold k. field. split; lra.
  - intros a' L. rewrite !E by assumption. apply shape_a; lra.
  - intros M' L M1'. rewrite !E by lra. apply shape_c; [assumption | |].
    + apply Rlt_le, Rdiv_lt_0_compat; [pose proof (pow2_ge_0 (tan half)); nra | assumption].
    + unfold Rdiv. apply Rmult_lt_compat_r; [apply Rinv_0_lt_compat; assumption|]. nra.
  - intros h' H0 HL H1. rewrite !E by assumption. apply shape_c; [assumption | lra|]. unfold Rdiv. apply Rmult_lt_compat_r; [apply Rinv_0_lt_compat; assumption|].
    assert (T0 : 0 <= tan half) by (destruct (Rle_lt_or_eq_dec _ _ H0) as [X|<-]; [left; apply tan_gt_0; lra | rewrite tan_0; lra]).
    assert (TL : tan half < tan h') by (apply tan_increasing; lra). nra.
Qed.
(** above Mach 1: positive, falling with Mach number, below four over the Prandtl-Glauert factor *)
Theorem C80_supersonic ar half M : 0 < ar -> 1 < M ->
  0 < slope ar half M /\ slope ar half M < 4 / sqrt (M ^ 2 - 1) /\ (forall M', M < M' -> slope ar half M' < slope ar half M).
Proof.
  intros A M1. pose proof PI_RGT_0 as P. set (k := 2 / PI). assert (K : 0 < k) by (unfold k; apply Rdiv_lt_0_compat; lra). assert (K2 : 0 < k ^ 2) by nra.
  assert (E : forall m, 1 < m -> slope ar half m = shape ar ((m ^ 2 - 1 + tan half ^ 2) / k ^ 2)).
  { intros m X. rewrite slope_sup by assumption. fold k. unfold shape. f_equal. f_equal. f_equal. unfold Rdiv. ring. }
  assert (C : forall m, 1 < m -> 0 < (m ^ 2 - 1 + tan half ^ 2) / k ^ 2) by (intros; apply Rdiv_lt_0_compat; [pose proof (pow2_ge_0 (tan half)); nra | assumption]).
  split; [|split].
  - rewrite E by assumption. apply shape_pos; [assumption | pose proof (C M M1); lra].
  - rewrite E by assumption. eapply Rlt_le_trans; [apply shape_plate; [assumption | now apply C]|].
    assert (B : 0 < M ^ 2 - 1) by nra. assert (Q : sqrt (M ^ 2 - 1) / k <= sqrt ((M ^ 2 - 1 + tan half ^ 2) / k ^ 2)).
    { replace (sqrt (M ^ 2 - 1) / k) with (sqrt ((M ^ 2 - 1) / k ^ 2)).
      - apply sqrt_le_1_alt. unfold Rdiv. apply Rmult_le_compat_r; [apply Rlt_le, Rinv_0_lt_compat; assumption|]. pose proof (pow2_ge_0 (tan half)). lra.
      - rewrite sqrt_div_alt by assumption. replace (k ^ 2) with (k * k) by ring. rewrite sqrt_square by lra. reflexivity. }
    pose proof (sqrt_lt_R0 _ B) as SB. assert (D : 0 < sqrt (M ^ 2 - 1) / k) by (apply Rdiv_lt_0_compat; assumption).
    apply Rle_trans with (2 * PI / (sqrt (M ^ 2 - 1) / k)).
    + unfold Rdiv at 1 2. apply Rmult_le_compat_l; [lra|]. apply Rinv_le_contravar; assumption.
    + right. unfold k. field. split; lra.
  - intros M' L. rewrite !E by lra. apply shape_c; [assumption | pose proof (C M M1); lra|]. unfold Rdiv. apply Rmult_lt_compat_r; [apply Rinv_0_lt_compat; assumption | nra].
Qed.
(** "near Mach 1 the slope changes little" is false: at exactly 1 it drops below every subsonic value, that at Mach 0 included *)
Theorem C80_sonic_refuted ar M : 0 < ar -> 0 <= M -> M < 1 -> slope ar 0 1 < slope ar 0 M.
Proof.
  intros A M0 M1. pose proof PI_RGT_0 as P. pose proof PI_315 as P3. pose proof PI2_1 as P1.
  assert (E1 : slope ar 0 1 = shape ar (4 * PI ^ 2)).
  { unfold slope, section_slope, beta. replace (Rltb 1 1) with false by (symmetry; apply Rltb_false; lra). rewrite tan_0. unfold shape. f_equal. f_equal. f_equal. field. lra. }
  rewrite E1, slope_sub by assumption. rewrite tan_0. set (k := 613 / 100 / (2 * PI)).
  assert (K : 1 / 2 < k). { unfold k. apply Rmult_lt_reg_r with (2 * PI); [lra|]. replace (613 / 100 / (2 * PI) * (2 * PI)) with (613 / 100) by (field; lra). lra. }
  replace (ar ^ 2 * (1 - M ^ 2 + 0 ^ 2) / k ^ 2 + 4) with (ar ^ 2 * ((1 - M ^ 2) / k ^ 2) + 4) by (field; lra).
  change (shape ar (4 * PI ^ 2) < shape ar ((1 - M ^ 2) / k ^ 2)). assert (K2 : 1 / 4 < k ^ 2) by nra.
  assert (Q : (1 - M ^ 2) / k ^ 2 * k ^ 2 = 1 - M ^ 2) by (field; lra). set (c := (1 - M ^ 2) / k ^ 2) in *. assert (C0 : 0 <= c) by nra.
  apply shape_c; [assumption | exact C0|]. assert (P4 : 4 < 4 * PI ^ 2) by nra. nra.
Qed.
(** "the same flight condition gives the same slope" is false of the tail in a sequence of evaluations: the first uses its own aspect
    ratio, all later ones that of the extended surface *)
Theorem C80_history e w M : sw_effective w = None ->
  evaluations e w [M; M; M] =
    let later := slope (e_ar e) (convert_sweep (SWing (sw_quarter w) (sw_leading w) (sw_taper w) (sw_ar w) None (Some (Some (e_ar e)))) (1 / 4) (1 / 2)) M in
    [datcom w M; later; later].
Proof. intro H. cbn [evaluations evaluate_tail]. unfold datcom at 2 3. unfold aspect. cbn [sw_effective sw_extended sw_quarter sw_leading sw_taper sw_ar]. rewrite H. reflexivity. Qed.
Theorem C80_history_refuted : exists e w M a b, evaluations e w [M; M] = [a; b] /\ a < b.
Proof.
  exists (Extended 10 10 4 1 0 (0, 0, 0)), (SWing 0 0 1 2 None None), 0, (slope 2 0 0), (slope 4 0 0). split.
  - cbn [evaluations evaluate_tail]. unfold datcom. unfold aspect. cbn [sw_effective sw_extended sw_ar].
    assert (Z : forall a x, convert_sweep (SWing 0 0 1 a None x) (1 / 4) (1 / 2) = 0).
    { intros a x. unfold convert_sweep. rewrite zero_no by lra. rewrite tan_of_atan. cbn [sw_quarter sw_taper]. rewrite tan_0. unfold Rdiv. replace (1 - 1) with 0 by ring. rewrite !Rmult_0_r, !Rmult_0_l, Rminus_0_r, Rplus_0_r. apply atan_0. }
    rewrite !Z. reflexivity.
  - apply (C80_subsonic 2 0 0); lra.
Qed.
Example C80_case : 0 < slope 8 0 (1 / 2) < slope 8 0 (3 / 4).
Proof. split; apply (C80_subsonic 8 0 (1 / 2)); lra. Qed.

(** ** C81: pitching moment and neutral point *)
(** moving the centre of gravity aft adds the lift slope times the distance over the chord; fuselage and vertical surfaces do not matter for that *)
Theorem C81_shift sref mac x x' body l : mac <> 0 -> sref <> 0 ->
  cm_alpha sref mac x' body l = cm_alpha sref mac x body l + (x' - x) / mac * lift_slope sref l.
Proof. intros M S. pose proof (cm_alpha_moves sref mac x x' body l M S). lra. Qed.
(** there is exactly one neutral position *)
Theorem C81_neutral sref mac x body l : mac <> 0 -> sref <> 0 -> lift_slope sref l <> 0 ->
  forall xn, cm_alpha sref mac xn body l = 0 <-> xn = x - cm_alpha sref mac x body l * mac / lift_slope sref l.
Proof.
  intros M S K xn. rewrite (C81_shift sref mac x xn body l M S). set (c := cm_alpha sref mac x body l). split; intro H.
  - assert (E : (xn - x) * lift_slope sref l = - c * mac) by (apply Rmult_eq_reg_r with (/ mac); [|now apply Rinv_neq_0_compat]; replace (- c * mac * / mac) with (- c) by (field; assumption); unfold Rdiv in H; lra).
    apply Rmult_eq_reg_r with (lift_slope sref l); [|assumption]. replace ((x - c * mac / lift_slope sref l) * lift_slope sref l) with (x * lift_slope sref l - c * mac) by (field; assumption). lra.
  - rewrite H. field. split; assumption.
Qed.
(** the point reported is neutral exactly when the slope it divides by is that of the whole aircraft, or the aircraft is neutral already *)
Theorem C81_reported sref mac x body l cla : mac <> 0 -> sref <> 0 -> cla <> 0 ->
  let cma := cm_alpha sref mac x body l in
  cm_alpha sref mac (neutral_point x mac cma cla) body l = 0 <-> cma = 0 \/ lift_slope sref l = cla.
Proof.
  intros M S C cma. rewrite (C81_shift sref mac x). fold cma. unfold neutral_point, static_margin.
  replace ((x + mac * (- cma / cla) - x) / mac * lift_slope sref l) with (- cma * lift_slope sref l / cla) by (field; split; assumption).
  split; [|intros [->|<-]; field; assumption].
  - intro H. assert (E : cma * (cla - lift_slope sref l) = 0) by (apply Rmult_eq_reg_r with (/ cla); [|now apply Rinv_neq_0_compat]; rewrite Rmult_0_l, <- H; field; assumption).
    apply Rmult_integral in E as [E|E]; [now left | right; lra].
  - assumption.
  - assumption.
Qed.
(** "the neutral point reported is neutral" is false: with a tail, or with downwash on the wing itself, it is not *)
Theorem C81_reported_refuted : exists sref mac x body wing tail, s_ep wing = 0 /\
  cm_alpha sref mac (neutral_point x mac (cm_alpha sref mac x body [wing; tail]) (s_cla wing)) body [wing; tail] <> 0.
Proof.
  exists 100, 1, 0, 0, (Surface 100 0 0 1 0 5 false 0 0 1 0 0), (Surface 20 10 0 1 0 4 false 0 0 1 0 0). split; [reflexivity|]. intro H.
  apply C81_reported in H; try (cbn; lra). unfold cm_alpha, cm_alpha_of, lift_slope, arm, flat in H. cbn in H. lra.
Qed.
(** a surface behind the centre of gravity makes the aircraft more stable, one ahead less; order does not matter; vertical ones change nothing *)
Theorem C81_surfaces sref mac x body l s : 0 < mac -> 0 < sref -> 0 < s_area s -> 0 < s_cla s * s_eta s * (1 - s_ep s) ->
  (s_vertical s = true -> cm_alpha sref mac x body (s :: l) = cm_alpha sref mac x body l) /\
  (s_vertical s = false -> x < s_x s + s_ac s -> cm_alpha sref mac x body (s :: l) < cm_alpha sref mac x body l) /\
  (s_vertical s = false -> s_x s + s_ac s < x -> cm_alpha sref mac x body l < cm_alpha sref mac x body (s :: l)) /\
  (forall l', Permutation l l' -> cm_alpha sref mac x body l' = cm_alpha sref mac x body l).
Proof.
  intros M S A C. assert (E : cm_alpha sref mac x body (s :: l) = cm_alpha sref mac x body l + cm_alpha_of sref mac x s) by (unfold cm_alpha; rewrite !add_up_sum; cbn [sum]; ring).
  assert (Q : 0 < s_area s / (mac * sref) * (s_cla s * s_eta s * (1 - s_ep s))) by (apply Rmult_lt_0_compat; [apply Rdiv_lt_0_compat; nra | assumption]).
  assert (F : cm_alpha_of sref mac x s = - arm x s * (s_area s / (mac * sref) * (s_cla s * s_eta s * (1 - s_ep s))) * flat s) by (unfold cm_alpha_of, Rdiv; ring).
  set (q := s_area s / (mac * sref) * (s_cla s * s_eta s * (1 - s_ep s))) in *. unfold flat, arm in F.
  refine (conj _ (conj _ (conj _ _))).
  - intro V. rewrite E, F, V. ring.
  - intros V B. rewrite E, F, V. nra.
  - intros V B. rewrite E, F, V. nra.
  - intros l' P. unfold cm_alpha. rewrite !add_up_sum. now rewrite (sum_perm _ _ _ P).
Qed.
(** a fuselage is destabilising as long as the wing's root quarter chord is not ahead of the nose *)
Theorem C81_fuselage sref mac wf lf x0 sweep root span taper : 0 < sref -> 0 < mac -> 0 < wf -> 0 < lf ->
  0 <= x0 + 1 / 2 * wf * tan sweep + 1 / 4 * root * (1 - wf / span * (1 - taper)) ->
  cm_body sref mac None x0 sweep root span taper = 0 /\ 0 < cm_body sref mac (Some (wf, lf)) x0 sweep root span taper /\
  (forall x1, x0 < x1 -> cm_body sref mac (Some (wf, lf)) x0 sweep root span taper < cm_body sref mac (Some (wf, lf)) x1 sweep root span taper) /\
  (forall k, 0 < k -> cm_body (k * sref) mac (Some (wf, lf)) x0 sweep root span taper = cm_body sref mac (Some (wf, lf)) x0 sweep root span taper / k /\
     cm_body sref (k * mac) (Some (wf, lf)) x0 sweep root span taper = cm_body sref mac (Some (wf, lf)) x0 sweep root span taper / k).
Proof.
  intros S M W L X. split; [reflexivity|]. split; [|split].
  2:{ intros x1 G. unfold cm_body. set (u := 1 / 2 * wf * tan sweep) in *. set (v := 1 / 4 * root * (1 - wf / span * (1 - taper))) in *.
    assert (P : 0 <= (x0 + u + v) / lf) by (unfold Rdiv; apply Rmult_le_pos; [lra | apply Rlt_le, Rinv_0_lt_compat; lra]).
    assert (Q : (x0 + u + v) / lf < (x1 + u + v) / lf) by (unfold Rdiv; apply Rmult_lt_compat_r; [apply Rinv_0_lt_compat; lra | lra]).
    set (p := (x0 + u + v) / lf) in *. set (q := (x1 + u + v) / lf) in *. unfold Rdiv at 4 5 9 10. do 2 (apply Rmult_lt_compat_r; [apply Rinv_0_lt_compat; lra|]).
    do 3 (apply Rmult_lt_compat_r; [lra|]). nra. }
  2:{ intros k K. unfold cm_body. set (p := (x0 + _ + _) / lf). split; field; repeat split; lra. }
   unfold cm_body. set (y := x0 + _ + _) in *. assert (P : 0 <= y / lf) by (unfold Rdiv; apply Rmult_le_pos; [lra | apply Rlt_le, Rinv_0_lt_compat; lra]).
  set (p := y / lf) in *. apply Rdiv_lt_0_compat; [|lra]. apply Rdiv_lt_0_compat; [|lra]. repeat apply Rmult_lt_0_compat; try lra. nra.
Qed.
(** at zero lift on untwisted surfaces the moment is the sum of the sections' own, whatever the centre of gravity *)
Theorem C81_zero sref mac x body l : (forall s, In s l -> s_twist_root s = 0 /\ s_twist_tip s = 0 /\ s_al0 s = 0) ->
  cm_zero sref mac x l = sum s_cmac l /\ forall alpha, cm_total sref mac x body alpha l = sum s_cmac l + alpha * cm_alpha sref mac x body l.
Proof.
  intro H. assert (E : cm_zero sref mac x l = sum s_cmac l).
  { unfold cm_zero. rewrite add_up_sum, Rplus_0_l. apply sum_ext. intros s I. destruct (H s I) as (A & B & C). unfold cm0_of. rewrite A, B, C. unfold Rdiv. ring. }
  split; [exact E|]. intro alpha. unfold cm_total. rewrite E. ring.
Qed.
(** "turning a surface up by an angle is like flying it at that angle more" is false: the moment at zero incidence has the opposite sign *)
Theorem C81_twist_refuted sref mac x s t : s_taper s = 1 -> s_twist_root s = t -> s_twist_tip s = t -> s_al0 s = 0 -> s_cmac s = 0 ->
  cm_total sref mac x 0 0 [s] = - (cm_alpha sref mac x 0 [s] * t).
Proof.
  intros E1 E2 E3 E4 E5. unfold cm_total, cm_zero, cm_alpha. cbn [add_up]. unfold cm0_of, cm_alpha_of. rewrite E1, E2, E3, E4, E5. replace ((t + 1 * t) / 2) with t by field. unfold Rdiv. ring.
Qed.
Example C81_case : cm_alpha 100 1 0 0 [Surface 100 0 0 1 0 5 false 0 0 1 0 0; Surface 20 10 0 1 0 4 false 0 0 1 0 0] = -8.
Proof. unfold cm_alpha, cm_alpha_of, arm, flat. cbn. lra. Qed.

(** ** C82: yawing moment *)
(** refused exactly without a fuselage *)
Theorem C82_refused sref span ar zw sweep xcg re v ac cla l :
  cn_beta sref span ar zw sweep xcg re v ac cla l = Err UnboundLocalError <-> l = [].
Proof.
  unfold cn_beta. rewrite bodies_is. destruct l as [|f l]; [split; reflexivity|]. split; [|discriminate].
  cbn [rev]. destruct (rev l) eqn:E; cbn; discriminate.
Qed.
(** the tail factor is between 0.76 and 1, never falls with the ratio, and has no jump *)
Theorem C82_tail_factor : (forall x, 76 / 100 <= tail_factor x <= 1) /\ (forall x y, x <= y -> tail_factor x <= tail_factor y) /\ (forall x y, Rabs (tail_factor x - tail_factor y) <= 16 / 100 * Rabs (x - y)).
Proof.
  assert (C : forall x, (x < 2 /\ tail_factor x = 76 / 100) \/ (2 <= x < 35 / 10 /\ tail_factor x = 76 / 100 + 16 / 100 * (x - 2)) \/ (35 / 10 <= x /\ tail_factor x = 1)).
  { intro x. unfold tail_factor. destruct (Rltb x 2) eqn:E; [apply Rltb_true in E; left; split; [assumption | reflexivity]|]. apply Rltb_false in E.
    destruct (Rltb x (35 / 10)) eqn:F; [apply Rltb_true in F | apply Rltb_false in F]; right; [left; split; [lra | field] | right; split; [lra | reflexivity]]. }
  split; [|split].
  - intro x. destruct (C x) as [[H ->]|[[H ->]|[H ->]]]; lra.
  - intros x y L. destruct (C x) as [[H ->]|[[H ->]|[H ->]]], (C y) as [[G ->]|[[G ->]|[G ->]]]; lra.
  - intros x y. assert (W : forall x y, x <= y -> Rabs (tail_factor x - tail_factor y) <= 16 / 100 * Rabs (x - y)).
    { clear x y. intros x y L. rewrite (Rabs_left1 (x - y)) by lra. destruct (C x) as [[H ->]|[[H ->]|[H ->]]], (C y) as [[G ->]|[[G ->]|[G ->]]]; unfold Rabs; destruct Rcase_abs; lra. }
    destruct (Rle_lt_dec x y) as [L|L]; [now apply W|]. rewrite (Rabs_minus_sym (tail_factor x)), (Rabs_minus_sym x). apply W. lra.
Qed.
(** the tail's share is Datcom's, judged by the last fuselage, and positive behind the centre of gravity; the fuselages' shares are subtracted one by one *)
Theorem C82_shares sref span ar zw sweep xcg re v ac cla l f : 0 < sref -> 0 < span -> 0 < cla -> 0 < e_area v -> steep sweep -> 0 <= zw -> 0 <= ar ->
  0 < b_height f -> 
  let x := fst (fst (e_origin v)) + ac in
  exists tail, cn_beta sref span ar zw sweep xcg re v ac cla (l ++ [f]) = Ok (tail - fold_right (fun b s => body_share xcg re sref span b + s) 0 (l ++ [f])) /\
    tail = tail_factor (e_span v / b_wing_height f) * sidewash (e_area v) sref sweep zw (b_height f) ar * cla * (e_area v / sref) * ((x - xcg) / span) /\
    (xcg < x -> 0 < tail) /\ (x < xcg -> tail < 0).
Proof.
  intros S B C A SW Z AR H x. unfold cn_beta. rewrite bodies_is, rev_unit. exists (tail_factor (e_span v / b_wing_height f) * sidewash (e_area v) sref sweep zw (b_height f) ar * cla * (e_area v / sref) * ((x - xcg) / span)).
  assert (CS : 0 < cos sweep) by (apply cos_gt_0; unfold steep in SW; lra). destruct C82_tail_factor as [TF _]. specialize (TF (e_span v / b_wing_height f)).
  set (kv := tail_factor _) in *. assert (SV : 0 < e_area v / sref) by (apply Rdiv_lt_0_compat; assumption). assert (SD : 0 < sidewash (e_area v) sref sweep zw (b_height f) ar).
  { unfold sidewash. assert (0 < 306 / 100 * (e_area v / sref) / (1 + cos sweep)) by (apply Rdiv_lt_0_compat; lra).
    assert (0 <= 4 / 10 * (zw / b_height f)) by (apply Rmult_le_pos; [lra|]; unfold Rdiv; apply Rmult_le_pos; [lra | apply Rlt_le, Rinv_0_lt_compat; lra]). nra. }
  split; [f_equal; unfold sidewash, x; field; repeat split; lra|]. split; [reflexivity|].
  set (sw := sidewash _ _ _ _ _ _) in *. set (sv := e_area v / sref) in *.
  assert (Q : 0 < kv * sw * cla * sv) by (apply Rmult_lt_0_compat; [|exact SV]; apply Rmult_lt_0_compat; [|exact C]; apply Rmult_lt_0_compat; lra).
  split; intro X.
  - apply Rmult_lt_0_compat; [exact Q | apply Rdiv_lt_0_compat; lra].
  - assert (0 < (xcg - x) / span) by (apply Rdiv_lt_0_compat; lra). replace ((x - xcg) / span) with (- ((xcg - x) / span)) by (field; lra). nra.
Qed.
(** a fuselage's share: inversely proportional to wing area and span; grows with the logarithm of the Reynolds number by four fifths
    from one to fifty million; linear in the position of the centre of gravity *)
Theorem C82_fuselage xcg re sref span f : 0 < sref -> 0 < span -> 0 < b_length f -> 0 < re ->
  (forall k, 0 < k -> body_share xcg re (k * sref) span f = body_share xcg re sref span f / k /\ body_share xcg re sref (k * span) f = body_share xcg re sref span f / k) /\
  body_share xcg re sref span f = body_share xcg (1000000 / b_length f) sref span f * (1 + 8 / 10 * (ln (re * b_length f / 1000000) / ln 50)) /\
  body_share xcg (50000000 / b_length f) sref span f = 18 / 10 * body_share xcg (1000000 / b_length f) sref span f /\
  (forall x, body_share ((xcg + x) / 2) re sref span f = (body_share xcg re sref span f + body_share x re sref span f) / 2).
Proof.
  intros S B L RE. assert (LN : 0 < ln 50) by (rewrite <- ln_1; apply ln_increasing; lra).
  split; [|split; [|split]].
  - intros k K. unfold body_share. set (kn := (- (47899 / 100000) + _) * (1 / 1000)). set (kr := 1 + _). split; field; repeat split; lra.
  - unfold body_share. replace (1000000 / b_length f * b_length f / 1000000) with 1 by (field; lra). rewrite ln_1. set (kn := (- (47899 / 100000) + _) * (1 / 1000)). field. lra.
  - unfold body_share. replace (1000000 / b_length f * b_length f / 1000000) with 1 by (field; lra). replace (50000000 / b_length f * b_length f / 1000000) with 50 by (field; lra). rewrite ln_1. set (kn := (- (47899 / 100000) + _) * (1 / 1000)). field. lra.
  - intro x. unfold body_share. set (kr := 1 + _). set (e := exp (- (22 / 100) * _)). set (s := sqrt _). set (k3 := 7870 / 10000 + _ + _ - _). set (p := - (2023 / 10000) + _ - _). field. repeat split; lra.
Qed.
(** "the order of the fuselages does not matter" is false: the tail is judged by the height of the last one *)
Theorem C82_order_refuted : exists f g v r1 r2, let cn := cn_beta 100 10 8 0 0 0 1 v 10 5 in
  cn [f; g] = Ok r1 /\ cn [g; f] = Ok r2 /\ r1 < r2.
Proof.
  exists (Body 10 10 1 1 1 1 1), (Body 10 10 1 1 1 1 10), (Extended 10 10 1 1 0 (0, 0, 0)). do 2 eexists. cbn zeta.
  unfold cn_beta. rewrite !bodies_is. cbn [rev app fold_right]. split; [reflexivity|]. split; [reflexivity|]. cbn [b_wing_height b_height e_span e_area e_origin fst snd].
  assert (T1 : tail_factor (10 / 10) = 76 / 100) by (unfold tail_factor; replace (Rltb (10 / 10) 2) with true by (symmetry; apply Rltb_true; lra); reflexivity).
  assert (T2 : tail_factor (10 / 1) = 1) by (unfold tail_factor; replace (Rltb (10 / 1) 2) with false by (symmetry; apply Rltb_false; lra); replace (Rltb (10 / 1) (35 / 10)) with false by (symmetry; apply Rltb_false; lra); reflexivity).
  rewrite T1, T2, cos_0.
  assert (SH : body_share 0 1 100 10 (Body 10 10 1 1 1 1 1) = body_share 0 1 100 10 (Body 10 10 1 1 1 1 10)) by reflexivity. rewrite SH. set (z := body_share _ _ _ _ _). lra.
Qed.
Example C82_case : tail_factor 2 = 76 / 100 /\ tail_factor (275 / 100) = 88 / 100.
Proof. unfold tail_factor. split; repeat (match goal with |- context [Rltb ?a ?b] => first [replace (Rltb a b) with true by (symmetry; apply Rltb_true; lra) | replace (Rltb a b) with false by (symmetry; apply Rltb_false; lra)] end); lra. Qed.

Print Assumptions C78_geometry.
Print Assumptions C78_round_trip.
Print Assumptions C78_taper.
Print Assumptions C78_wing.
Print Assumptions C78_wing_refuted.
Print Assumptions C79_given.
Print Assumptions C79_mac.
Print Assumptions C79_no_chords.
Print Assumptions C79_ac.
Print Assumptions C79_ac_refuted.
Print Assumptions C79_extend.
Print Assumptions C79_extend_refuted.
Print Assumptions C80_subsonic.
Print Assumptions C80_supersonic.
Print Assumptions C80_sonic_refuted.
Print Assumptions C80_history.
Print Assumptions C80_history_refuted.
Print Assumptions C81_shift.
Print Assumptions C81_neutral.
Print Assumptions C81_reported.
Print Assumptions C81_reported_refuted.
Print Assumptions C81_surfaces.
Print Assumptions C81_fuselage.
Print Assumptions C81_zero.
Print Assumptions C81_twist_refuted.
Print Assumptions C82_refused.
Print Assumptions C82_tail_factor.
Print Assumptions C82_shares.
Print Assumptions C82_fuselage.
Print Assumptions C82_order_refuted.
