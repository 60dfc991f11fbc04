(** * C72, C73: limit loads, design speeds and the flight envelope *)
From Coq Require Import Reals List Bool Arith String Lia Lra Psatz.
From Verif Require Import PyBase M_Opt P_Opt M_Vn S_Vn P_Vn P_Vn2 P_Vn3.
Import ListNotations.
Local Open Scope R_scope.
Local Open Scope list_scope.

(** ** C72 *)
(** whatever the user asks for, the limits are at least what the category demands *)
Theorem C72_limits : forall part cat w pos neg np nn,
  limit_load_factors part cat w pos neg = Ok (np, nn) -> 0 < w -> neg <= 0 ->
  least_limit part cat <= np <= Rmax (Rmax (38 / 10) (least_limit part cat)) pos /\ nn <= -1 /\ nn <= neg /\
  (part = 23%nat -> nn <= - (4 / 10) * np).
Proof.
  intros part cat w pos neg np nn H W N. destruct (limits_ok _ _ _ _ _ _ _ H W N) as (A & B & C). repeat split; try tauto; try lra.
  intros ->. unfold limit_load_factors in H. cbn [Nat.eqb] in H. pose proof (positive_limit_range w pos W).
  assert (X : forall n, n <= 0 -> negative_check neg n <= n) by (intros n Hn; unfold negative_check; rewrite (Rabs_left1 n), (Rabs_left1 neg) by lra; ltb; lra).
  destruct (String.eqb cat "normal" || String.eqb cat "commuter")%bool; [injection H as <- <-; apply X; lra|].
  destruct (String.eqb cat "utility").
  - injection H as <- <-. apply X. ltb; lra.
  - destruct (String.eqb cat "acrobatic"); [|discriminate]. injection H as <- <-.
    refine (Rle_trans _ _ _ (X _ _) _); ltb; lra.
Qed.

(** the weight formula is used exactly between the two bounds *)
Theorem C72_formula : forall cat w pos neg np nn part, part = 25%nat \/ part = 23%nat /\ (cat = "normal" \/ cat = "commuter")%string ->
  limit_load_factors part cat w pos neg = Ok (np, nn) -> 0 < w ->
  let n := 21 / 10 + 24000 / (w + 10000) in
  (50000 < w -> np = 25 / 10) /\
  (w <= 50000 -> n < pos -> np = pos) /\
  (w <= 50000 -> pos <= n -> n <= 38 / 10 -> np = n) /\ (pos <= n -> 38 / 10 < n -> np = 38 / 10).
Proof.
  intros cat w pos neg np nn part HC H W n.
  assert (E : np = positive_limit w pos).
  { unfold limit_load_factors in H. destruct HC as [->|[-> [->| ->]]]; cbn in H; injection H as <- _; reflexivity. }
  rewrite E. unfold positive_limit. fold n.
  assert (D : n * (w + 10000) = 21 / 10 * (w + 10000) + 24000) by (unfold n; field; lra).
  assert (L1 : 50000 < w -> n < 25 / 10) by (intro; nra). assert (L2 : w <= 50000 -> 25 / 10 <= n) by (intro; nra).
  repeat split; intros.
  - specialize (L1 H0). ltb; lra.
  - specialize (L2 H0). ltb; lra.
  - specialize (L2 H0). ltb; lra.
  - ltb; lra.
Qed.

(** unknown rules and categories are refused, and nothing else is *)
Theorem C72_refused : forall part cat w pos neg,
  (exists np nn, limit_load_factors part cat w pos neg = Ok (np, nn)) <->
  part = 25%nat \/ part = 23%nat /\ In cat ["normal"; "commuter"; "utility"; "acrobatic"]%string.
Proof.
  intros. unfold limit_load_factors. split.
  - intros (np & nn & H). destruct (Nat.eqb part 25) eqn:E; [left; now apply Nat.eqb_eq|].
    destruct (Nat.eqb part 23) eqn:E3; [|discriminate]. right. split; [now apply Nat.eqb_eq|].
    destruct (String.eqb cat "normal" || String.eqb cat "commuter")%bool eqn:EN.
    + apply orb_true_iff in EN. destruct EN as [EN|EN]; apply String.eqb_eq in EN; subst; cbn; tauto.
    + destruct (String.eqb cat "utility") eqn:EU; [apply String.eqb_eq in EU; subst; cbn; tauto|].
      destruct (String.eqb cat "acrobatic") eqn:EA; [apply String.eqb_eq in EA; subst; cbn; tauto | discriminate].
  - intros [->|[-> H]]; cbn [Nat.eqb]; [eauto|]. cbn in H. destruct H as [<-|[<-|[<-|[<-|[]]]]]; cbn; eauto.
Qed.
Theorem C72_refused_error : forall part cat w pos neg e, limit_load_factors part cat w pos neg = Err e -> e = ValueError.
Proof.
  intros part cat w pos neg e H. unfold limit_load_factors in H. destruct (Nat.eqb part 25); [discriminate|]. destruct (Nat.eqb part 23); [|congruence].
  destruct (_ || _)%bool; [discriminate|]. destruct (String.eqb cat "utility"); [discriminate|]. destruct (String.eqb cat "acrobatic"); congruence.
Qed.

(** a limit asked for above 2.5 is dropped for every aircraft heavier than 50000 lb *)
Theorem C72_user_refuted : exists w pos, 0 < w /\ 25 / 10 < pos /\
  forall neg np nn, limit_load_factors 25 "" w pos neg = Ok (np, nn) -> np < pos.
Proof.
  exists 60000, 3. repeat split; try lra. intros neg np nn H. cbn in H. injection H as <- _. unfold positive_limit. ltb; lra.
Qed.
(** a negative limit given without its sign becomes a positive lower limit *)
Theorem C72_sign_refuted : exists w pos neg np nn, limit_load_factors 23 "normal" w pos neg = Ok (np, nn) /\ 0 < w /\ 0 < nn.
Proof.
  exists 60000, 3, 2, (25 / 10), 2. split; [|lra]. unfold limit_load_factors, positive_limit, negative_check. cbn [Nat.eqb String.eqb Ascii.eqb Bool.eqb orb].
  replace (Rltb (21 / 10 + 24000 / (60000 + 10000)) (25 / 10)) with true by (symmetry; apply Rltb_true; lra).
  rewrite (Rabs_left (- (4 / 10) * (25 / 10))), (Rabs_right 2) by lra. replace (Rltb _ 2) with true by (symmetry; apply Rltb_true; lra). reflexivity.
Qed.

Section d.
Variables (part : nat) (cat : string) (pos neg : R) (c : craft) (d : diagram).
Hypothesis F : flyable c.
Hypothesis HV : 0 < c_vc c.
Hypothesis HN : neg <= 0.
Hypothesis OK : V_n_diagram part cat pos neg c = Ok d.
Lemma shape : exists np nn, limit_load_factors part cat (c_weight c) pos neg = Ok (np, nn) /\ 25 / 10 <= np /\ nn <= -1 /\
  let r := design part cat c np nn in
  let g2p := gust_load c (r_uc r) (r_vc r) in let g2n := gust_load c (- r_uc r) (r_vc r) in
  let tp := tail_pos c np (r_ur r) (r_uc r) (r_vc r) in let tn := tail_neg c nn (- r_ur r) (- r_uc r) (r_vc r) in
  let e := if two_sided cat then -1 else 0 in
  let ep := end_pos np g2p (gust_load c (r_ud r) (r_vd r)) (r_vc r) (r_vd r) in
  let en := end_neg cat nn g2n (gust_load c (- r_ud r) (r_vd r)) (r_vc r) (r_vd r) e (nn_ c nn ++ snd tn) in
  let last := if two_sided cat then ([r_vd r], [0]) else ([], []) in
  g_pos d = Half (pv c np ++ fst tp ++ fst ep) (pn c np ++ snd tp ++ snd ep) /\
  g_neg d = Half (nv c nn ++ fst tn ++ fst en ++ fst last) (nn_ c nn ++ snd tn ++ snd en ++ snd last) /\
  g_vc d = r_vc r /\ g_vd d = r_vd r /\ g_gust_pos d = g2p /\ g_gust_neg d = g2n /\
  g_n_pos d = maximum (h_n (g_pos d)) /\ g_n_neg d = minimum (h_n (g_neg d)).
Proof.
  destruct (diagram_is part cat pos neg c d F OK) as (np & nn & L & H). exists np, nn. split; [exact L|].
  destruct (limits_ok _ _ _ _ _ _ _ L (proj1 F) HN) as ((A & _) & B & _). pose proof (least_ge part cat). split; [lra|]. split; [exact B | exact H].
Qed.
Lemma pv_is np : pv c np = vs_pos c :: map (fun k => vs_pos c + INR k / 21 * (va_pos c np - vs_pos c)) (seq 0 22).
Proof. apply head_v_eq. Qed.
Lemma nv_is nn : nv c nn = vs_neg c :: map (fun k => vs_neg c + INR k / 21 * (va_neg c nn - vs_neg c)) (seq 0 22).
Proof. apply head_v_eq. Qed.
Lemma pn_is np : 0 <= np -> pn c np = 0 :: map (fun k => ((vs_pos c + INR k / 21 * (va_pos c np - vs_pos c)) / vs_pos c) ^ 2) (seq 0 22).
Proof.
  intro N. pose proof (vs_pos_pos c F). apply (head_n_eq 1 np (vs_pos c) (va_pos c np) (fun v => (v / vs_pos c) ^ 2)); [field; lra|].
  replace ((va_pos c np / vs_pos c) ^ 2) with (va_pos c np ^ 2 / vs_pos c ^ 2) by (field; lra). rewrite va_pos_sq by assumption. field. lra.
Qed.
Lemma nn_is nn : nn <= 0 -> nn_ c nn = 0 :: map (fun k => - ((vs_neg c + INR k / 21 * (va_neg c nn - vs_neg c)) / vs_neg c) ^ 2) (seq 0 22).
Proof.
  intro N. pose proof (vs_neg_pos c F). apply (head_n_eq (-1) nn (vs_neg c) (va_neg c nn) (fun v => - (v / vs_neg c) ^ 2)); [field; lra|].
  replace ((va_neg c nn / vs_neg c) ^ 2) with (va_neg c nn ^ 2 / vs_neg c ^ 2) by (field; lra). rewrite va_neg_sq by assumption. rewrite Rabs_left1 by assumption. field. lra.
Qed.
Lemma first_pos k np q s : (k <= 21)%nat -> 0 <= np -> point (Half (pv c np ++ q) (pn c np ++ s)) (1 + k) =
  (vs_pos c + INR k / 21 * (va_pos c np - vs_pos c), ((vs_pos c + INR k / 21 * (va_pos c np - vs_pos c)) / vs_pos c) ^ 2).
Proof. intros K N. unfold point. cbn [h_v h_n]. rewrite pv_is, (pn_is np N). rewrite !nth_seq by assumption. reflexivity. Qed.
Lemma first_neg k nn q s : (k <= 21)%nat -> nn <= 0 -> point (Half (nv c nn ++ q) (nn_ c nn ++ s)) (1 + k) =
  (vs_neg c + INR k / 21 * (va_neg c nn - vs_neg c), - ((vs_neg c + INR k / 21 * (va_neg c nn - vs_neg c)) / vs_neg c) ^ 2).
Proof. intros K N. unfold point. cbn [h_v h_n]. rewrite nv_is, (nn_is nn N). rewrite !nth_seq by assumption. reflexivity. Qed.
Lemma at_1 np q s : 0 <= np -> point (Half (pv c np ++ q) (pn c np ++ s)) 1 = (vs_pos c, 1).
Proof. intros N. pose proof (vs_pos_pos c F). pose proof (first_pos 0 np q s ltac:(lia) N) as E. cbn [Nat.add INR] in E. rewrite E. f_equal; field; lra. Qed.
Lemma at_22 np q s : 0 <= np -> point (Half (pv c np ++ q) (pn c np ++ s)) 22 = (va_pos c np, np).
Proof.
  intros N. pose proof (vs_pos_pos c F). pose proof (first_pos 21 np q s ltac:(lia) N) as E. change (1 + 21)%nat with 22%nat in E. rewrite E.
  replace (INR 21) with 21 by (simpl; lra). replace (vs_pos c + 21 / 21 * (va_pos c np - vs_pos c)) with (va_pos c np) by field. f_equal.
  replace ((va_pos c np / vs_pos c) ^ 2) with (va_pos c np ^ 2 / vs_pos c ^ 2) by (field; lra). rewrite va_pos_sq by assumption. field. lra.
Qed.
Lemma at_1n nn q s : nn <= 0 -> point (Half (nv c nn ++ q) (nn_ c nn ++ s)) 1 = (vs_neg c, -1).
Proof. intros N. pose proof (vs_neg_pos c F). pose proof (first_neg 0 nn q s ltac:(lia) N) as E. cbn [Nat.add INR] in E. rewrite E. f_equal; field; lra. Qed.
Lemma at_22n nn q s : nn <= 0 -> point (Half (nv c nn ++ q) (nn_ c nn ++ s)) 22 = (va_neg c nn, nn).
Proof.
  intros N. pose proof (vs_neg_pos c F). pose proof (first_neg 21 nn q s ltac:(lia) N) as E. change (1 + 21)%nat with 22%nat in E. rewrite E.
  replace (INR 21) with 21 by (simpl; lra). replace (vs_neg c + 21 / 21 * (va_neg c nn - vs_neg c)) with (va_neg c nn) by field. f_equal.
  replace ((va_neg c nn / vs_neg c) ^ 2) with (va_neg c nn ^ 2 / vs_neg c ^ 2) by (field; lra). rewrite va_neg_sq by assumption. rewrite Rabs_left1 by assumption. field. lra.
Qed.
End d.

(** stall speeds lift the weight, manoeuvre speeds the limit load, and they come in this order *)
Theorem C72_speeds : forall part cat pos neg c d, flyable c -> neg <= 0 -> V_n_diagram part cat pos neg c = Ok d ->
  let (vs, n1) := point (g_pos d) 1 in let (va, np) := point (g_pos d) 22 in
  let (ws, m1) := point (g_neg d) 1 in let (wa, nn) := point (g_neg d) 22 in
  limit_load_factors part cat (c_weight c) pos neg = Ok (np, nn) /\
  0 < vs < va /\ n1 = 1 /\ lift c (c_clmax c) vs = c_weight c /\ lift c (c_clmax c) va = np * c_weight c /\
  0 < ws <= wa /\ m1 = -1 /\ lift c (c_clmin c) ws = - c_weight c /\ lift c (c_clmin c) wa = nn * c_weight c.
Proof.
  intros part cat pos neg c d F HN OK. destruct (shape part cat pos neg c d F HN OK) as (np & nn & L & P & N & E1 & E2 & _).
  rewrite E1, E2.
  rewrite !(at_1 c F), !(at_22 c F), !(at_1n c F), !(at_22n c F) by lra. cbv beta iota.
  pose proof (vs_pos_pos c F) as V1. pose proof (vs_neg_pos c F) as V2.
  pose proof (va_gt c np F ltac:(lra)). pose proof (va_neg_ge c nn F N). pose proof kts_pos.
  pose proof F as (W & Rh & Sg & Ar & Cx & Cn & M & Sl & G).
  assert (LS : forall cl v k, lift c cl (k * v) = k ^ 2 * lift c cl v) by (intros; unfold lift; field; lra).
  refine (conj L (conj (conj V1 H) (conj _ (conj (lift_vs c F) (conj _ (conj (conj V2 H0) (conj _ (conj (lift_vs_neg c F) _)))))))).
  - reflexivity.
  - rewrite va_pos_eq by lra. rewrite Rmult_comm, LS, sqrt_pow2 by lra. rewrite lift_vs by assumption. ring.
  - reflexivity.
  - rewrite va_neg_eq by assumption. rewrite Rmult_comm, LS, sqrt_pow2 by apply Rabs_pos. rewrite lift_vs_neg by assumption. rewrite Rabs_left1 by lra. ring.
Qed.

(** cruise is at least the speed asked for and, unless the two manoeuvre speeds coincide, above both; dive is above cruise *)
Theorem C72_order : forall part cat pos neg c d, flyable c -> 0 < c_vc c -> neg <= 0 -> V_n_diagram part cat pos neg c = Ok d ->
  let va := fst (point (g_pos d) 22) in let wa := fst (point (g_neg d) 22) in
  c_vc c * kts * c_sigma c <= g_vc d /\ 115 / 100 * g_vc d <= g_vd d /\ (va <> wa -> va <= g_vc d /\ wa <= g_vc d).
Proof.
  intros part cat pos neg c d F HV HN OK. destruct (shape part cat pos neg c d F HN OK) as (np & nn & L & P & N & E1 & E2 & E3 & E4 & _).
  rewrite E1, E2, E3, E4. rewrite (at_22 c F), (at_22n c F) by lra. cbn [fst].
  destruct (r_vc_ge part cat c np nn F P N) as (A & B & C). cbv zeta. split; [exact A|]. split; [now apply r_vd_ge|]. intro D. apply C. now left.
Qed.

(** when the two manoeuvre speeds coincide the check is skipped and cruise can stay below them *)
Definition same_va : craft := Craft 60000 (1 / 400) 1 3000 (16 * kts ^ 2 / 9) (- (4 / 10) * (16 * kts ^ 2 / 9)) (100 / kts) 5 6 32 0.
Lemma same_va_flyable : flyable same_va.
Proof. pose proof kts_pos. unfold flyable, same_va. cbn [c_weight c_rho c_sigma c_area c_clmax c_clmin c_mac c_cla c_g]. assert (0 < kts ^ 2) by nra. repeat split; lra. Qed.
Lemma same_va_limits : limit_load_factors 23 "normal" 60000 0 0 = Ok (25 / 10, - (4 / 10) * (25 / 10)).
Proof.
  unfold limit_load_factors, positive_limit, negative_check. cbn [Nat.eqb String.eqb Ascii.eqb Bool.eqb orb].
  replace (Rltb (21 / 10 + 24000 / (60000 + 10000)) (25 / 10)) with true by (symmetry; apply Rltb_true; lra).
  rewrite Rabs_R0. replace (Rltb _ 0) with false; [reflexivity|]. symmetry. apply Rltb_false. apply Rabs_pos.
Qed.
Theorem C72_order_refuted : exists c d, flyable c /\ 0 < c_vc c /\ V_n_diagram 23 "normal" 0 0 c = Ok d /\ g_vc d < fst (point (g_pos d) 22).
Proof.
  exists same_va. pose proof same_va_flyable as F. pose proof kts_pos as K.
  destruct (V_n_diagram 23 "normal" 0 0 same_va) as [d|e] eqn:E.
  2:{ exfalso. unfold V_n_diagram in E. change (c_weight same_va) with 60000 in E. rewrite same_va_limits in E. cbn [bind] in E.
      destruct (gust_speeds 23 "normal" (c_alt same_va)) as [[? ?] ?]. discriminate. }
  exists d. split; [exact F|]. split; [unfold same_va; cbn [c_vc]; apply Rdiv_lt_0_compat; lra|]. split; [reflexivity|].
  destruct (shape 23 "normal" 0 0 same_va d F ltac:(lra) E) as (np & nn & L & P & N & E1 & E2 & E3 & E4 & _).
  change (c_weight same_va) with 60000 in L. rewrite same_va_limits in L. injection L as <- <-.
  rewrite E1, E3. rewrite (at_22 _ F) by lra. cbn [fst].
  set (nn := - (4 / 10) * (25 / 10)) in *.
  assert (KK : 0 < kts ^ 2) by nra.
  assert (S1 : vs_pos same_va ^ 2 = 9000).
  { unfold vs_pos, keas. cbn [same_va c_weight c_rho c_area c_clmax c_sigma].
    assert (Q : 0 < 2 * 60000 / (1 / 400 * 3000 * (16 * kts ^ 2 / 9))) by (apply Rdiv_lt_0_compat; nra).
    set (x := 2 * 60000 / (1 / 400 * 3000 * (16 * kts ^ 2 / 9))) in *.
    replace ((sqrt x * kts * 1) ^ 2) with (sqrt x ^ 2 * kts ^ 2) by ring. rewrite sqrt_pow2 by lra. unfold x. field. lra. }
  assert (S2 : vs_neg same_va ^ 2 = 22500).
  { unfold vs_neg, keas. cbn [same_va c_weight c_rho c_area c_clmin c_sigma]. rewrite Rabs_left by nra.
    assert (Q : 0 < 2 * 60000 / (1 / 400 * 3000 * - (- (4 / 10) * (16 * kts ^ 2 / 9)))) by (apply Rdiv_lt_0_compat; nra).
    set (x := 2 * 60000 / (1 / 400 * 3000 * - (- (4 / 10) * (16 * kts ^ 2 / 9)))) in *.
    replace ((sqrt x * kts * 1) ^ 2) with (sqrt x ^ 2 * kts ^ 2) by ring. rewrite sqrt_pow2 by lra. unfold x. field. lra. }
  pose proof (vs_pos_pos _ F) as V1. pose proof (vs_neg_pos _ F) as V2. pose proof (va_gt same_va (25 / 10) F ltac:(lra)) as G1.
  pose proof (va_neg_ge same_va nn F N) as G2.
  assert (A1 : va_pos same_va (25 / 10) = 150).
  { pose proof (va_pos_sq same_va (25 / 10) F ltac:(lra)) as Q. rewrite S1 in Q. nra. }
  assert (A2 : va_neg same_va nn = 150).
  { pose proof (va_neg_sq same_va nn F) as Q. rewrite S2 in Q. rewrite Rabs_left in Q by (unfold nn; lra). unfold nn in Q at 2. nra. }
  unfold design. destruct (gust_speeds 23 "normal" (c_alt same_va)) as [[ur uc] ud]. cbn [r_vc].
  unfold minimum_cruise. cbn [Nat.eqb String.eqb Ascii.eqb Bool.eqb].
  replace (wing_loading same_va) with 20 by (unfold wing_loading, same_va; cbn [c_weight c_area]; field).
  replace (keas same_va (c_vc same_va)) with 100 by (unfold keas, same_va; cbn [c_vc c_sigma]; field; lra).
  rewrite A1, A2. unfold cruise_above_manoeuvre. replace (Rltb 150 150) with false by (symmetry; apply Rltb_false; lra).
  rewrite !andb_false_r. unfold at_least.
  assert (SQ : sqrt 20 < 45 / 10). { rewrite <- (sqrt_square (45 / 10)) by lra. apply sqrt_lt_1_alt. lra. }
  ltb; lra.
Qed.

(** part 25: the least cruise speed leaves the required margin above the stall speed raised by the gust at that speed *)
Theorem C72_required : forall c cat u, flyable c -> 0 < u ->
  let v := minimum_cruise 25 cat c (gust_alleviation c) u in
  132 / 100 * u < v /\ (v - 132 / 100 * u) ^ 2 = vs_pos c ^ 2 * gust_load c u v + (17424 - 172424 / 10) / 10000 * u ^ 2 /\
  vs_pos c ^ 2 * gust_load c u v < (v - 132 / 100 * u) ^ 2.
Proof.
  intros c cat u F U v. pose proof (slope_pos c F) as SL. pose proof (vs_pos_pos c F) as VS. pose proof (wl_pos c F) as WL.
  assert (V : v = larger_root 1 (- u * (264 / 100 + slope c * vs_pos c ^ 2)) (172424 / 100000 * u ^ 2 - vs_pos c ^ 2)).
  { unfold v, minimum_cruise. cbn [Nat.eqb]. f_equal. unfold slope. field. lra. }
  set (x := slope c * vs_pos c ^ 2) in *. assert (X : 0 < x) by (unfold x; apply Rmult_lt_0_compat; [lra | nra]).
  set (s := vs_pos c ^ 2) in *. assert (Sp : 0 < s) by (unfold s; nra).
  assert (D : 0 <= (- u * (264 / 100 + x)) ^ 2 - 4 * 1 * (172424 / 100000 * u ^ 2 - s)).
  { replace ((- u * (264 / 100 + x)) ^ 2) with (u ^ 2 * (264 / 100 + x) ^ 2) by ring. assert (0 < u ^ 2) by nra. assert (69696 / 10000 <= (264 / 100 + x) ^ 2) by nra. nra. }
  destruct (larger_root_zero 1 _ _ ltac:(lra) D) as [R1 R2]. rewrite <- V in R1, R2.
  assert (B : 132 / 100 * u < v) by nra.
  assert (E : (v - 132 / 100 * u) ^ 2 = s * gust_load c u v + (17424 - 172424 / 10) / 10000 * u ^ 2).
  { rewrite gust_slope by assumption. replace (s * (1 + slope c * v * u)) with (s + x * v * u) by (unfold x, s; ring). nra. }
  split; [exact B|]. split; [exact E|]. rewrite E. nra.
Qed.

(** ** C73 *)
(** both halves leave the stall speed along the curve on which lift is the largest, in 21 equal steps *)
Theorem C73_stall : forall part cat pos neg c d, flyable c -> neg <= 0 -> V_n_diagram part cat pos neg c = Ok d ->
  forall k, (k <= 21)%nat ->
  let (vs, _) := point (g_pos d) 1 in let (va, _) := point (g_pos d) 22 in let (v, n) := point (g_pos d) (1 + k) in
  let (ws, _) := point (g_neg d) 1 in let (wa, _) := point (g_neg d) 22 in let (w, m) := point (g_neg d) (1 + k) in
  v = vs + INR k / 21 * (va - vs) /\ n * c_weight c = lift c (c_clmax c) v /\
  w = ws + INR k / 21 * (wa - ws) /\ m * c_weight c = lift c (c_clmin c) w.
Proof.
  intros part cat pos neg c d F HN OK k K. destruct (shape part cat pos neg c d F HN OK) as (np & nn & L & P & N & E1 & E2 & _).
  rewrite E1, E2. rewrite !(first_pos c F k), !(first_neg c F k) by (try lia; lra).
  rewrite !(at_1 c F), !(at_22 c F), !(at_1n c F), !(at_22n c F) by lra. cbv beta iota.
  pose proof (vs_pos_pos c F) as V1. pose proof (vs_neg_pos c F) as V2. pose proof kts_pos. pose proof F as (W & Rh & Sg & Ar & Cx & Cn & M & Sl & G).
  assert (LS : forall cl v k, lift c cl (k * v) = k ^ 2 * lift c cl v) by (intros; unfold lift; field; lra).
  split; [reflexivity|]. split; [|split; [reflexivity|]].
  - set (v := vs_pos c + _). replace v with (v / vs_pos c * vs_pos c) at 2 by (field; lra). rewrite LS, (lift_vs c F). reflexivity.
  - set (v := vs_neg c + _). replace v with (v / vs_neg c * vs_neg c) at 2 by (field; lra). rewrite LS, (lift_vs_neg c F). ring.
Qed.

(** each half starts at the stall speed and ends at the dive speed, with no load *)
Theorem C73_closed : forall part cat pos neg c d, flyable c -> neg <= 0 -> V_n_diagram part cat pos neg c = Ok d ->
  forall h, h = g_pos d \/ h = g_neg d ->
  List.length (h_v h) = List.length (h_n h) /\ snd (point h 0) = 0 /\ fst (point h 0) = fst (point h 1) /\
  point h (List.length (h_v h) - 1) = (g_vd d, 0).
Proof.
  intros part cat pos neg c d F HN OK. destruct (shape part cat pos neg c d F HN OK) as (np & nn & L & P & N & E1 & E2 & E3 & E4 & _).
  assert (LA : forall (a b : list R) va na x y, List.length a = List.length b -> va = a ++ [x] -> na = b ++ [y] ->
    List.length va = List.length na /\ point (Half va na) (List.length va - 1) = (x, y)).
  { intros a b va na x y La -> ->. rewrite !app_length. cbn [List.length]. split; [lia|]. unfold point. cbn [h_v h_n].
    replace (List.length a + 1 - 1)%nat with (List.length a) by lia. rewrite app_nth2, Nat.sub_diag by lia. rewrite La, app_nth2, Nat.sub_diag by lia. reflexivity. }
  intros h [->| ->].
  - rewrite E1, E4. set (r := design part cat c np nn) in *. cbn [h_v h_n].
    assert (Q : exists a b, List.length a = List.length b /\
       pv c np ++ fst (tail_pos c np (r_ur r) (r_uc r) (r_vc r)) ++ fst (end_pos np (gust_load c (r_uc r) (r_vc r)) (gust_load c (r_ud r) (r_vd r)) (r_vc r) (r_vd r)) = a ++ [r_vd r] /\
       pn c np ++ snd (tail_pos c np (r_ur r) (r_uc r) (r_vc r)) ++ snd (end_pos np (gust_load c (r_uc r) (r_vc r)) (gust_load c (r_ud r) (r_vd r)) (r_vc r) (r_vd r)) = b ++ [0]).
    { set (t := tail_pos _ _ _ _ _). assert (LT : List.length (fst t) = List.length (snd t)).
      { unfold t, tail_pos. destruct (Rltb _ _); [|destruct (Rltb _ _)]; cbn [fst snd]; rewrite ?app_length, ?map_length; reflexivity. }
      unfold end_pos. destruct (Rltb _ _); [destruct (Rltb _ _)|]; cbn [fst snd].
      - exists (pv c np ++ fst t ++ [r_vd r]), (pn c np ++ snd t ++ [gust_load c (r_ud r) (r_vd r)]). split; [rewrite !app_length, LT; reflexivity|]. now rewrite <- !app_assoc.
      - eexists (pv c np ++ fst t ++ [_; r_vd r]), (pn c np ++ snd t ++ [np; np]). split; [rewrite !app_length, LT; reflexivity|]. now rewrite <- !app_assoc.
      - exists (pv c np ++ fst t ++ [r_vd r]), (pn c np ++ snd t ++ [np]). split; [rewrite !app_length, LT; reflexivity|]. now rewrite <- !app_assoc. }
    destruct Q as (a & b & La & Ea & Eb). destruct (LA a b _ _ _ _ La Ea Eb) as [Q1 Q2].
    split; [exact Q1|]. split; [reflexivity|]. split; [|exact Q2]. reflexivity.
  - rewrite E2, E4. set (r := design part cat c np nn) in *. cbn [h_v h_n].
    set (t := tail_neg c nn (- r_ur r) (- r_uc r) (r_vc r)) in *. set (en := end_neg _ _ _ _ _ _ _ _) in *.
    assert (Q : exists a b, List.length a = List.length b /\
       nv c nn ++ fst t ++ fst en ++ fst (if two_sided cat then ([r_vd r], [0]) else ([], [])) = a ++ [r_vd r] /\
       nn_ c nn ++ snd t ++ snd en ++ snd (if two_sided cat then ([r_vd r], [0]) else ([], [])) = b ++ [0]).
    { assert (LT : List.length (fst t) = List.length (snd t)).
      { unfold t, tail_neg. destruct (Rltb _ _); [|destruct (Rltb _ _)]; cbn [fst snd]; rewrite ?app_length, ?map_length; reflexivity. }
      assert (EN : exists x y, List.length x = List.length y /\ fst en = x ++ [r_vd r] /\ snd en = y ++ [if two_sided cat then -1 else 0]).
      { unfold en, end_neg. destruct (Rltb _ _); [destruct (Rltb _ _); [|destruct (dive_cross _ _ _ _ _ _) as [v n]]|]; cbn [fst snd].
        - now exists [r_vd r], [gust_load c (- r_ud r) (r_vd r)].
        - now exists [v; r_vd r], [n; gust_load c (- r_ud r) (r_vd r)].
        - now exists [], []. }
      destruct EN as (x & y & Lx & Ex & Ey). rewrite Ex, Ey. destruct (two_sided cat); cbn [fst snd].
      - exists (nv c nn ++ fst t ++ x ++ [r_vd r]), (nn_ c nn ++ snd t ++ y ++ [-1]). split; [rewrite !app_length, LT, Lx; reflexivity|]. now rewrite <- !app_assoc.
      - exists (nv c nn ++ fst t ++ x), (nn_ c nn ++ snd t ++ y). split; [rewrite !app_length, LT, Lx; reflexivity|]. rewrite !app_nil_r. now rewrite <- !app_assoc. }
    destruct Q as (a & b & La & Ea & Eb). destruct (LA a b _ _ _ _ La Ea Eb) as [Q1 Q2].
    split; [exact Q1|]. split; [reflexivity|]. split; [|exact Q2]. reflexivity.
Qed.

(** the positive limit reported covers the manoeuvre limit and the gusts at cruise and dive speed *)
Theorem C73_positive : forall part cat pos neg c d ur uc ud np nn, flyable c -> 0 < c_vc c -> neg <= 0 ->
  c_weight c / c_area c <= 400 -> c_alt c <= 50000 ->
  V_n_diagram part cat pos neg c = Ok d -> limit_load_factors part cat (c_weight c) pos neg = Ok (np, nn) -> gust_speeds part cat (c_alt c) = (ur, uc, ud) ->
  np <= g_n_pos d /\ gust_load c uc (g_vc d) <= g_n_pos d /\ gust_load c ud (g_vd d) <= g_n_pos d.
Proof.
  intros part cat pos neg c d ur uc ud np nn F HV HN W A OK HL HG.
  destruct (shape part cat pos neg c d F HN OK) as (np' & nn' & L & P & N & E1 & E2 & E3 & E4 & E5 & E6 & E7 & E8).
  rewrite L in HL. injection HL as -> ->. pose proof (r_gusts part cat c np nn) as RG. rewrite HG in RG. injection RG as -> -> ->.
  rewrite E7, E1, E3, E4. cbn [h_n]. exact (pos_covered part cat c np nn F P N HV W A).
Qed.

(** the negative limit covers the manoeuvre limit and the dive gust; the cruise gust only when the gust at the manoeuvre speed is within the limit *)
Theorem C73_negative : forall part cat pos neg c d ur uc ud np nn, flyable c -> neg <= 0 ->
  V_n_diagram part cat pos neg c = Ok d -> limit_load_factors part cat (c_weight c) pos neg = Ok (np, nn) -> gust_speeds part cat (c_alt c) = (ur, uc, ud) ->
  g_n_neg d <= nn /\ g_n_neg d <= gust_load c (- ud) (g_vd d) /\
  (Rabs (gust_load c (- ur) (fst (point (g_neg d) 22))) <= Rabs nn -> g_n_neg d <= gust_load c (- uc) (g_vc d)).
Proof.
  intros part cat pos neg c d ur uc ud np nn F HN OK HL HG.
  destruct (shape part cat pos neg c d F HN OK) as (np' & nn' & L & P & N & E1 & E2 & E3 & E4 & E5 & E6 & E7 & E8).
  rewrite L in HL. injection HL as -> ->. pose proof (r_gusts part cat c np nn) as RG. rewrite HG in RG. injection RG as -> -> ->.
  rewrite E8, E2, E3, E4. rewrite (at_22n c F) by lra. cbn [h_n fst].
  apply neg_covered; assumption.
Qed.

(** the positive half never goes back, when no gust reaches the stall line at the manoeuvre speed *)
Theorem C73_ascending : forall part cat pos neg c d ur uc ud np nn, flyable c -> 0 < c_vc c -> neg <= 0 ->
  c_weight c / c_area c <= 400 -> c_alt c <= 50000 ->
  V_n_diagram part cat pos neg c = Ok d -> limit_load_factors part cat (c_weight c) pos neg = Ok (np, nn) -> gust_speeds part cat (c_alt c) = (ur, uc, ud) ->
  let va := fst (point (g_pos d) 22) in
  va <= g_vc d -> gust_load c ur va <= np -> ascending (h_v (g_pos d)).
Proof.
  intros part cat pos neg c d ur uc ud np nn F HV HN W A OK HL HG.
  destruct (shape part cat pos neg c d F HN OK) as (np' & nn' & L & P & N & E1 & E2 & E3 & E4 & E5 & E6 & E7 & E8).
  rewrite L in HL. injection HL as -> ->. pose proof (r_gusts part cat c np nn) as RG. rewrite HG in RG. injection RG as -> -> ->.
  rewrite E1, E3. rewrite (at_22 c F) by lra. cbn [fst h_v].
  intros G1 G2. apply pos_ascends; assumption.
Qed.

(** otherwise the negative limit reported can be far short of the gust at the cruise speed *)
Definition gusty : craft := Craft 60000 (1 / 400) 1 3000 (16 / 10 * kts ^ 2) (- (16 / 10 * kts ^ 2)) (600 / kts) (5000 / 2862) 6 32 0.
Lemma gusty_flyable : flyable gusty.
Proof. pose proof kts_pos. unfold flyable, gusty. cbn [c_weight c_rho c_sigma c_area c_clmax c_clmin c_mac c_cla c_g]. assert (0 < kts ^ 2) by nra. repeat split; lra. Qed.
Lemma gusty_limits : limit_load_factors 25 "" 60000 0 0 = Ok (25 / 10, -1).
Proof.
  unfold limit_load_factors, positive_limit, negative_check. cbn [Nat.eqb].
  replace (Rltb (21 / 10 + 24000 / (60000 + 10000)) (25 / 10)) with true by (symmetry; apply Rltb_true; lra).
  replace (Rltb (-1) 0) with true by (symmetry; apply Rltb_true; lra).
  rewrite Rabs_R0. replace (Rltb _ 0) with false; [reflexivity|]. symmetry. apply Rltb_false. apply Rabs_pos.
Qed.
Lemma gusty_run : exists d, V_n_diagram 25 "" 0 0 gusty = Ok d.
Proof.
  unfold V_n_diagram. change (c_weight gusty) with 60000. rewrite gusty_limits. cbn [bind].
  destruct (gust_speeds 25 "" (c_alt gusty)) as [[? ?] ?]. eauto.
Qed.
Lemma gusty_slope : slope gusty = 4752 / 9960000.
Proof.
  unfold slope, gust_alleviation, wing_loading. cbn [gusty c_weight c_rho c_area c_mac c_cla c_g].
  replace (2 * (60000 / 3000) / (1 / 400 * (5000 / 2862) * 6 * 32)) with (477 / 10) by field. field.
Qed.
Lemma gusty_vs : vs_neg gusty = 100 /\ vs_pos gusty = 100.
Proof.
  pose proof kts_pos as K. assert (KK : 0 < kts ^ 2) by nra. pose proof (vs_neg_pos _ gusty_flyable). pose proof (vs_pos_pos _ gusty_flyable).
  assert (Q : 0 < 2 * 60000 / (1 / 400 * 3000 * (16 / 10 * kts ^ 2))) by (apply Rdiv_lt_0_compat; nra).
  split.
  - assert (vs_neg gusty ^ 2 = 10000); [|nra]. unfold vs_neg, keas. cbn [gusty c_weight c_rho c_area c_clmin c_sigma]. rewrite Rabs_left by lra. rewrite Ropp_involutive.
    set (x := 2 * 60000 / (1 / 400 * 3000 * (16 / 10 * kts ^ 2))) in *.
    replace ((sqrt x * kts * 1) ^ 2) with (sqrt x ^ 2 * kts ^ 2) by ring. rewrite sqrt_pow2 by lra. unfold x. field. lra.
  - assert (vs_pos gusty ^ 2 = 10000); [|nra]. unfold vs_pos, keas. cbn [gusty c_weight c_rho c_area c_clmax c_sigma].
    set (x := 2 * 60000 / (1 / 400 * 3000 * (16 / 10 * kts ^ 2))) in *.
    replace ((sqrt x * kts * 1) ^ 2) with (sqrt x ^ 2 * kts ^ 2) by ring. rewrite sqrt_pow2 by lra. unfold x. field. lra.
Qed.
Theorem C73_negative_refuted : exists c d, flyable c /\ 0 < c_vc c /\ V_n_diagram 25 "" 0 0 c = Ok d /\
  gust_load c (- 56) (g_vc d) < -15 /\ -10 < g_n_neg d.
Proof.
  exists gusty. destruct gusty_run as [d E]. exists d. pose proof gusty_flyable as F. pose proof kts_pos as K. pose proof gusty_vs as [S1 S2].
  split; [exact F|]. split; [unfold gusty; cbn [c_vc]; apply Rdiv_lt_0_compat; lra|]. split; [exact E|].
  destruct (shape 25 "" 0 0 gusty d F ltac:(lra) E) as (np & nn & L & P & N & E1 & E2 & E3 & E4 & E5 & E6 & E7 & E8).
  change (c_weight gusty) with 60000 in L. rewrite gusty_limits in L. injection L as <- <-.
  set (r := design 25 "" gusty (25 / 10) (-1)) in *.
  assert (U : r_ur r = 56 /\ r_uc r = 56 /\ r_ud r = 28).
  { pose proof (r_gusts 25 "" gusty (25 / 10) (-1)) as G. fold r in G. unfold gust_speeds in G. cbn [Nat.eqb] in G. change (c_alt gusty) with 0 in G.
    replace (Rltb 0 15000) with true in G by (symmetry; apply Rltb_true; lra). 
    pose proof (f_equal (fun t => fst (fst t)) G) as G1. pose proof (f_equal (fun t => snd (fst t)) G) as G2. pose proof (f_equal snd G) as G3.
    cbn [fst snd] in G1, G2, G3. repeat split; lra. }
  destruct U as (U1 & U2 & U3).
  assert (VA : va_neg gusty (-1) = 100). { rewrite va_neg_eq by assumption. rewrite S1, Rabs_left by lra. replace (- -1) with 1 by lra. rewrite sqrt_1. lra. }
  assert (VP : va_pos gusty (25 / 10) < 160).
  { rewrite va_pos_eq by lra. rewrite S2. assert (sqrt (25 / 10) < 16 / 10); [|lra]. rewrite <- (sqrt_square (16 / 10)) by lra. apply sqrt_lt_1_alt. lra. }
  assert (VP0 : 100 < va_pos gusty (25 / 10)) by (rewrite <- S2; apply va_gt; [assumption | lra]).
  assert (VC : r_vc r = 600).
  { unfold r, design. cbn [gust_speeds Nat.eqb]. cbn [r_vc]. change (c_alt gusty) with 0. replace (Rltb 0 15000) with true by (symmetry; apply Rltb_true; lra).
    replace (- (8 / 10000) * 0 + 56) with 56 by lra.
    replace (keas gusty (c_vc gusty)) with 600 by (unfold keas, gusty; cbn [c_vc c_sigma]; field; lra).
    unfold cruise_above_manoeuvre. rewrite VA. replace (Rltb 600 100) with false by (symmetry; apply Rltb_false; lra).
    replace (Rltb 600 (va_pos gusty (25 / 10))) with false by (symmetry; apply Rltb_false; lra). cbn [andb].
    unfold at_least. replace (Rltb 600 _) with false; [reflexivity|]. symmetry. apply Rltb_false.
    unfold minimum_cruise. cbn [Nat.eqb]. replace (gust_alleviation gusty * c_cla gusty * vs_pos gusty ^ 2 / (498 * wing_loading gusty)) with (slope gusty * vs_pos gusty ^ 2).
    2:{ unfold slope. field. pose proof (wl_pos _ F). lra. }
    rewrite gusty_slope, S2. unfold larger_root.
    match goal with |- context [sqrt ?x] => assert (Q : sqrt x < 500) by (rewrite <- (sqrt_square 500) by lra; apply sqrt_lt_1_alt; lra); pose proof (sqrt_pos x); set (s := sqrt x) in * end.
    apply Rmax_lub; lra. }
  assert (VD : r_vd r = 750). { unfold r at 1. rewrite r_vd_eq. fold r. rewrite VC. unfold dive_speed. cbn [Nat.eqb]. lra. }
  assert (G : forall u v, gust_load gusty u v = 1 + 4752 / 9960000 * v * u) by (intros; rewrite gust_slope by assumption; now rewrite gusty_slope).
  rewrite E3, VC. split; [rewrite G; lra|].
  rewrite E8, E2. cbn [h_n]. rewrite U1, U2, U3, VC, VD. cbn [two_sided String.eqb orb].
  unfold tail_neg. rewrite VA. rewrite (G (- (56)) 100). rewrite (Rabs_left (1 + 4752 / 9960000 * 100 * - (56))) by lra.
  replace (Rltb (Rabs (-1)) (- (1 + 4752 / 9960000 * 100 * - (56)))) with true by (symmetry; apply Rltb_true; rewrite Rabs_left; lra).
  unfold end_neg. rewrite !(G _ 600), !(G _ 750). replace (Rltb (1 + 4752 / 9960000 * 750 * - (28)) 0) with true by (symmetry; apply Rltb_true; lra).
  rewrite (Rabs_left (1 + 4752 / 9960000 * 600 * - (56))) by lra.
  replace (Rltb (Rabs (-1)) (- (1 + 4752 / 9960000 * 600 * - (56)))) with true by (symmetry; apply Rltb_true; rewrite Rabs_left; lra).
  cbv zeta. cbn [fst snd]. 
  assert (VI : 100 < crossing gusty (c_clmin gusty) (- (56)) < 300).
  { unfold crossing. assert (KV : kts ^ 2 <> 0) by nra.
    replace (709486 / 1000 * (c_rho gusty / c_sigma gusty ^ 2) * c_clmin gusty) with (- (709486 / 1000 * (1 / 400) * (16 / 10 * kts ^ 2))) by (cbn [gusty c_rho c_sigma c_clmin]; field).
    replace (- gust_alleviation gusty * - (56) * c_cla gusty) with (56 * 4752 / 1000).
    2:{ pose proof gusty_slope as GS. unfold slope in GS. assert (WL : wing_loading gusty = 20) by (unfold wing_loading, gusty; cbn [c_weight c_area]; field). rewrite WL in GS. lra. }
    replace (wing_loading gusty) with 20 by (unfold wing_loading, gusty; cbn [c_weight c_area]; field).
    assert (KT : 351 / 1000 < kts ^ 2 < 35105 / 100000) by (unfold kts; lra). 
    set (q := kts ^ 2) in *. unfold larger_root. set (a := - (709486 / 1000 * (1 / 400) * (16 / 10 * q))).
    assert (A : -0.9963 < a < -0.996) by (unfold a; lra).
    set (b := 56 * 4752 / 1000). set (e := - 498 * 20). assert (Bv : 2661 / 10 < b < 2662 / 10) by (unfold b; lra).
    assert (DD : 30000 < b ^ 2 - 4 * a * e < 32400) by (unfold e; nra).
    set (s := sqrt (b ^ 2 - 4 * a * e)).
    assert (Sb : 173 < s < 180).
    { unfold s. split; [rewrite <- (sqrt_square 173) by lra; apply sqrt_lt_1_alt; lra | rewrite <- (sqrt_square 180) by lra; apply sqrt_lt_1_alt; lra]. }
    assert (I1 : (- b + s) / (2 * a) <= (- b - s) / (2 * a)).
    { replace ((- b + s) / (2 * a)) with ((b - s) / (2 * - a)) by (field; lra). replace ((- b - s) / (2 * a)) with ((b + s) / (2 * - a)) by (field; lra).
      unfold Rdiv. apply Rmult_le_compat_r; [apply Rlt_le, Rinv_0_lt_compat|]; lra. }
    rewrite Rmax_right by exact I1. replace ((- b - s) / (2 * a)) with ((b + s) / (2 * - a)) by (field; lra).
    assert (D2 : (b + s) / (2 * - a) * (2 * - a) = b + s) by (field; lra). set (x := (b + s) / (2 * - a)) in *. split; nra. }
  change (c_clmin gusty) with (- (16 / 10 * kts ^ 2)) in *.
  set (vi := crossing gusty _ (- (56))) in *.
  apply minimum_gt; [discriminate|]. rewrite (nn_is gusty F) by lra. rewrite VA, S1.
  repeat rewrite Forall_app. split; [|split; [split|split]].
  - constructor; [lra|]. apply Forall_forall. intros x Hx. apply in_map_iff in Hx. destruct Hx as (k & <- & _).
    replace ((100 + INR k / 21 * (100 - 100)) / 100) with 1 by field. lra.
  - apply Forall_forall. intros x Hx. apply in_map_iff in Hx. destruct Hx as (v & <- & Hv). unfold more_v in Hv. apply in_map_iff in Hv.
    destruct Hv as (j & <- & Hj). apply in_seq in Hj.
    assert (J : 0 <= INR (j + 1) <= 6). { split; [apply pos_INR|]. replace 6 with (INR 6) by (simpl; lra). apply le_INR. lia. }
    set (t := INR (j + 1)) in *. assert (T : 0 < (100 + t * ((vi - 100) / 6)) / 100 <= 3) by (split; nra). nra.
  - rewrite G. repeat constructor; lra.
  - repeat constructor; lra.
  - constructor.
Qed.

(** ** a concrete aircraft *)
Example C72_case : limit_load_factors 25 "" 60000 0 0 = Ok (25 / 10, -1) /\ flyable gusty /\ 0 < c_vc gusty /\ exists d, V_n_diagram 25 "" 0 0 gusty = Ok d.
Proof. split; [exact gusty_limits|]. split; [exact gusty_flyable|]. split; [|exact gusty_run]. cbn [gusty c_vc]. apply Rdiv_lt_0_compat; [lra | apply kts_pos]. Qed.
Example C73_case : exists d, V_n_diagram 25 "" 0 0 gusty = Ok d /\ point (g_neg d) 1 = (100, -1) /\ 250 / 100 <= g_n_pos d.
Proof.
  destruct gusty_run as [d E]. exists d. split; [exact E|].
  destruct (shape 25 "" 0 0 gusty d gusty_flyable ltac:(lra) E) as (np & nn & L & P & N & E1 & E2 & E3 & E4 & E5 & E6 & E7 & E8).
  split.
  - rewrite E2. rewrite (at_1n gusty gusty_flyable) by lra. now rewrite (proj1 gusty_vs).
  - pose proof gusty_limits as GL. change 60000 with (c_weight gusty) in GL.
    destruct (gust_speeds 25 "" (c_alt gusty)) as [[ur uc] ud] eqn:EG.
    assert (V : 0 < c_vc gusty) by (cbn [gusty c_vc]; apply Rdiv_lt_0_compat; [lra | apply kts_pos]).
    assert (W : c_weight gusty / c_area gusty <= 400) by (cbn [gusty c_weight c_area]; lra).
    assert (A : c_alt gusty <= 50000) by (cbn [gusty c_alt]; lra).
    pose proof (C73_positive 25 "" 0 0 gusty d ur uc ud _ _ gusty_flyable V ltac:(lra) W A E GL EG). lra.
Qed.
Print Assumptions C72_limits.
Print Assumptions C72_formula.
Print Assumptions C72_refused.
Print Assumptions C72_refused_error.
Print Assumptions C72_user_refuted.
Print Assumptions C72_sign_refuted.
Print Assumptions C72_speeds.
Print Assumptions C72_order.
Print Assumptions C72_order_refuted.
Print Assumptions C72_required.
Print Assumptions C73_stall.
Print Assumptions C73_closed.
Print Assumptions C73_positive.
Print Assumptions C73_negative.
Print Assumptions C73_ascending.
Print Assumptions C73_negative_refuted.
