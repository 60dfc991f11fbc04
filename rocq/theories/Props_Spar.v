(** * Weight estimation: properties C97 to C99 *)
From Coq Require Import Reals List Bool Arith Lra Lia Psatz.
From Verif Require Import PyBase M_Opt P_Opt P_Deriv M_Drag P_Friction M_Stab P_Stab M_Elec S_Elec P_Elec M_Weight S_Weight P_Weight P_Spar.
Import ListNotations.
Local Open Scope R_scope.

(** ** C97: structural and propulsion correlations *)
(** the fuselage index lies between the pressure index, half the bending index and the larger of the two, and follows both *)
Theorem C97_fuse_index p b : 0 <= p -> 0 < b ->
  Rmax p (b / 2) <= fuse_index p b <= Rmax p b /\ fuse_index b b = b.
Proof.
  intros P B.
  assert (F : fuse_index b b = b) by (unfold fuse_index; destruct (Rltb b b) eqn:E; [reflexivity|field; lra]).
  split; [|exact F]. unfold fuse_index. destruct (Rltb b p) eqn:E; rewrite ?Rltb_true, ?Rltb_false in E.
  - unfold Rmax. repeat destruct (Rle_dec _ _); lra.
  - assert (Q : (p * p + b * b) / (2 * b) = b / 2 + p * p / (2 * b)) by (field; lra). rewrite Q.
    assert (0 <= p * p / (2 * b)) by (apply Rmult_le_pos; [nra|left; apply Rinv_0_lt_compat; lra]).
    assert (p * p / (2 * b) <= b / 2).
    { apply Rmult_le_reg_r with (2 * b); [lra|]. unfold Rdiv at 1. rewrite Rmult_assoc, Rinv_l by lra. nra. }
    assert (p <= b / 2 + p * p / (2 * b)).
    { rewrite <- Q. apply Rmult_le_reg_r with (2 * b); [lra|]. unfold Rdiv. rewrite Rmult_assoc, Rinv_l by lra. pose proof (Rle_0_sqr (p - b)). unfold Rsqr in *. nra. }
    unfold Rmax. repeat destruct (Rle_dec _ _); lra.
Qed.
Theorem C97_fuse_monotone p p' b b' : 0 <= p <= p' -> 0 < b <= b' -> fuse_index p b <= fuse_index p' b'.
Proof.
  intros P B.
  assert (M1 : fuse_index p b <= fuse_index p' b).
  { unfold fuse_index. destruct (Rltb b p) eqn:E; destruct (Rltb b p') eqn:E'; rewrite ?Rltb_true, ?Rltb_false in *; try lra.
    - apply Rmult_le_reg_r with (2 * b); [lra|]. unfold Rdiv. rewrite Rmult_assoc, Rinv_l by lra. nra.
    - apply div_leq; [lra|nra]. }
  assert (M2 : fuse_index p' b <= fuse_index p' b').
  { unfold fuse_index. destruct (Rltb b p') eqn:E; destruct (Rltb b' p') eqn:E'; rewrite ?Rltb_true, ?Rltb_false in *; try lra.
    - apply Rmult_le_reg_r with (2 * b'); [lra|]. unfold Rdiv. rewrite (Rmult_assoc _ (/ (2 * b'))), Rinv_l by lra. pose proof (Rle_0_sqr (p' - b')). unfold Rsqr in *. nra.
    - apply Rmult_le_reg_r with (2 * b); [lra|]. unfold Rdiv at 1. rewrite Rmult_assoc, Rinv_l by lra.
      apply Rmult_le_reg_r with (2 * b'); [lra|]. replace ((p' * p' + b' * b') / (2 * b') * (2 * b) * (2 * b')) with ((p' * p' + b' * b') * (2 * b)) by (field; lra).
      assert (p' * p' <= b * b') by nra. assert (0 <= (b' - b) * (b * b' - p' * p')) by (apply Rmult_le_pos; lra). lra. }
  lra.
Qed.
(** the shape shared by the bending terms: [k] times a power of the span over the thickness *)
Lemma bend_pos n s l t c : 0 < n -> 0 < s -> 0 < l -> 0 < t -> 0 < c -> 0 < n * (s * s * s) * l / (t * c).
Proof.
  intros. assert (0 < s * s) by (apply Rmult_lt_0_compat; lra). apply Rdiv_lt_0_compat; repeat apply Rmult_lt_0_compat; assumption.
Qed.
Lemma cube_less a b : 0 < a < b -> a * a * a < b * b * b.
Proof. intro H. assert (0 < a * a) by nra. assert (a * a < b * b) by nra. nra. Qed.
Lemma cos_sq w : plausible w -> 0 < cos (w_sweep w) * cos (w_sweep w).
Proof. intros [_ [_ [_ [_ S]]]]. pose proof (cos_gt_0 (w_sweep w) (proj1 S) (proj2 S)). nra. Qed.
(** the wing: bending term apart *)
Lemma wing_form v w : plausible w -> wing_simple v w =
  dec 422 2 * (w_area w / (ft * ft)) * lb
  + (dec 1642 9 * v_nult v) * (w_span w / ft * (w_span w / ft) * (w_span w / ft)) * (sqrt (v_mtow v / lb * (v_mzf v / lb)))
    / (w_tc w * (cos (w_sweep w) * cos (w_sweep w) * (w_area w / (ft * ft)))) * ((1 + 2 * w_taper w) / (1 + w_taper w)) * lb.
Proof.
  intro P. pose proof (cos_sq w P) as C. destruct P as [A [B [T [L S]]]]. pose proof ft_pos. pose proof lb_pos. unfold wing_simple.
  assert (0 < cos (w_sweep w)) by (apply cos_gt_0; lra). field. repeat split; lra.
Qed.
Lemma taper_ratio t t' : 0 <= t < t' -> 1 <= (1 + 2 * t) / (1 + t) < (1 + 2 * t') / (1 + t').
Proof.
  intro H. replace ((1 + 2 * t) / (1 + t)) with (2 - / (1 + t)) by (field; lra). replace ((1 + 2 * t') / (1 + t')) with (2 - / (1 + t')) by (field; lra).
  assert (/ (1 + t') < / (1 + t)) by (apply Rinv_lt_contravar; nra). assert (/ (1 + t) <= / 1) by (apply Rinv_le_contravar; lra). rewrite Rinv_1 in *. lra.
Qed.
Theorem C97_wing v w : plausible w -> 0 < v_nult v -> 0 < v_mtow v -> 0 < v_mzf v ->
  422 / 100 * (w_area w / (ft * ft)) * lb < wing_simple v w /\
  (forall m, v_mtow v < m -> wing_simple v w < wing_simple (with_mtow m v) w) /\
  (forall b, w_span w < b -> wing_simple v w < wing_simple v (with_span b w)) /\
  (forall t, w_tc w < t -> wing_simple v (with_tc t w) < wing_simple v w) /\
  (forall l, w_taper w < l -> wing_simple v w < wing_simple v (with_taper l w)).
Proof.
  intros P N M Z. pose proof (cos_sq w P) as C. pose proof ft_pos as Hf. pose proof lb_pos as Hl. pose proof ft2_pos as Hf2. pose proof (taper_ratio (w_taper w) (w_taper w + 1)) as TR.
  assert (K : 0 < dec 1642 9) by (apply dec_pos; lia).
  pose proof P as [A [B [T [L S]]]].
  assert (A' : 0 < w_area w / (ft * ft)) by (apply Rdiv_lt_0_compat; lra). assert (B' : 0 < w_span w / ft) by (apply Rdiv_lt_0_compat; lra).
  assert (M' : 0 < v_mtow v / lb) by (apply Rdiv_lt_0_compat; lra). assert (Z' : 0 < v_mzf v / lb) by (apply Rdiv_lt_0_compat; lra).
  assert (SQ : 0 < sqrt (v_mtow v / lb * (v_mzf v / lb))) by (apply sqrt_lt_R0, Rmult_lt_0_compat; lra).
  assert (R : 0 < (1 + 2 * w_taper w) / (1 + w_taper w)) by lra.
  assert (N' : 0 < dec 1642 9 * v_nult v) by (apply Rmult_lt_0_compat; lra).
  assert (CA : 0 < cos (w_sweep w) * cos (w_sweep w) * (w_area w / (ft * ft))) by (apply Rmult_lt_0_compat; lra).
  split; [|split; [|split; [|split]]].
  - rewrite wing_form by exact P. pose proof (bend_pos _ _ _ _ _ N' B' SQ T CA) as BP.
    assert (E : dec 422 2 = 422 / 100) by (unfold dec; simpl; lra). rewrite E.
    match goal with |- _ < _ + ?x * _ * _ => assert (0 < x * ((1 + 2 * w_taper w) / (1 + w_taper w)) * lb) by (apply Rmult_lt_0_compat; [apply Rmult_lt_0_compat; [exact BP|exact R]|lra]) end. lra.
  - intros m Hm. rewrite !wing_form by exact P. apply Rplus_lt_compat_l. apply Rmult_lt_compat_r; [lra|]. apply Rmult_lt_compat_r; [exact R|].
    apply div_less; [apply Rmult_lt_0_compat; lra|]. apply Rmult_lt_compat_l; [apply Rmult_lt_0_compat; [exact N'|apply Rmult_lt_0_compat; [apply Rmult_lt_0_compat|]; lra]|].
    simpl. apply sqrt_lt_1; [left; apply Rmult_lt_0_compat; lra| |].
    + left. apply Rmult_lt_0_compat; [apply Rdiv_lt_0_compat; lra|lra].
    + apply Rmult_lt_compat_r; [lra|]. apply div_less; lra.
  - intros b Hb. assert (P' : plausible (with_span b w)) by (unfold plausible, with_span; simpl; repeat split; lra). rewrite !wing_form by assumption. simpl.
    apply Rplus_lt_compat_l. apply Rmult_lt_compat_r; [lra|]. apply Rmult_lt_compat_r; [exact R|].
    apply div_less; [apply Rmult_lt_0_compat; lra|]. apply Rmult_lt_compat_r; [exact SQ|]. apply Rmult_lt_compat_l; [exact N'|]. apply cube_less. split; [lra|]. apply div_less; lra.
  - intros t Ht. assert (P' : plausible (with_tc t w)) by (unfold plausible, with_tc; simpl; repeat split; lra). rewrite !wing_form by assumption. simpl.
    apply Rplus_lt_compat_l. apply Rmult_lt_compat_r; [lra|]. apply Rmult_lt_compat_r; [exact R|]. unfold Rdiv at 1 4. apply Rmult_lt_compat_l.
    + apply Rmult_lt_0_compat; [|exact SQ]. apply Rmult_lt_0_compat; [exact N'|]. apply Rmult_lt_0_compat; [apply Rmult_lt_0_compat|]; lra.
    + apply Rinv_lt_contravar; [apply Rmult_lt_0_compat; apply Rmult_lt_0_compat; lra|]. apply Rmult_lt_compat_r; [exact CA|lra].
  - intros l Hl'. assert (P' : plausible (with_taper l w)) by (unfold plausible, with_taper; simpl; repeat split; lra). rewrite !wing_form by assumption. simpl.
    apply Rplus_lt_compat_l. apply Rmult_lt_compat_r; [lra|]. apply Rmult_lt_compat_l; [exact (bend_pos _ _ _ _ _ N' B' SQ T CA)|]. apply taper_ratio. lra.
Qed.
(** fins: the same, and what 't_tail' has to be to count *)
Theorem C97_fin v w : plausible w -> 0 < v_nult v -> 0 < v_mtow v -> 0 < v_sref v -> w_ttail w = TFalse ->
  14 / 10 * (262 / 100) * (w_area w / (ft * ft)) * lb < tail_vertical v w /\
  (forall m, v_mtow v < m -> tail_vertical v w < tail_vertical (with_mtow m v) w) /\
  (forall b, w_span w < b -> tail_vertical v w < tail_vertical v (with_span b w)) /\
  (forall t, w_tc w < t -> tail_vertical v (with_tc t w) < tail_vertical v w).
Proof.
  intros P N M Z TT. pose proof (cos_sq w P) as C. pose proof ft_pos as Hf. pose proof lb_pos as Hl. pose proof ft2_pos as Hf2.
  assert (K : 0 < dec 15 6) by (apply dec_pos; lia).
  pose proof P as [A [B [T [L S]]]].
  assert (A' : 0 < w_area w / (ft * ft)) by (apply Rdiv_lt_0_compat; lra). assert (B' : 0 < w_span w / ft) by (apply Rdiv_lt_0_compat; lra).
  assert (M' : 0 < v_mtow v / lb) by (apply Rdiv_lt_0_compat; lra). assert (Z' : 0 < v_sref v / (ft * ft)) by (apply Rdiv_lt_0_compat; lra).
  assert (N' : 0 < dec 15 6 * v_nult v) by (apply Rmult_lt_0_compat; lra).
  assert (SQ : 0 < 8 + dec 44 2 * (v_mtow v / lb) / (v_sref v / (ft * ft))).
  { assert (0 < dec 44 2 * (v_mtow v / lb) / (v_sref v / (ft * ft))); [|lra]. apply Rdiv_lt_0_compat; [apply Rmult_lt_0_compat; [apply dec_pos; lia|lra]|lra]. }
  assert (FF : forall v w, w_ttail w = TFalse -> tail_vertical v w =
     14 / 10 * (262 / 100 * (w_area w / (ft * ft)) + dec 15 6 * v_nult v * (w_span w / ft * (w_span w / ft) * (w_span w / ft)) * (8 + dec 44 2 * (v_mtow v / lb) / (v_sref v / (ft * ft)))
        / (w_tc w * (cos (w_sweep w) * cos (w_sweep w)))) * lb).
  { intros v0 w0 E. unfold tail_vertical. rewrite E. assert (E1 : dec 262 2 = 262 / 100) by (unfold dec; simpl; lra). rewrite E1.
    match goal with |- context [?x / (w_tc w0 * _)] => generalize (x / (w_tc w0 * (cos (w_sweep w0) * cos (w_sweep w0)))) end. intro x. unfold dec. simpl. field. lra. }
  rewrite (FF v w TT). split; [|split; [|split]].
  - pose proof (bend_pos _ _ _ _ _ N' B' SQ T C) as BP. match goal with |- _ < _ * (_ + ?x) * _ => assert (0 < x * lb) by (apply Rmult_lt_0_compat; [exact BP|lra]) end. lra.
  - intros m Hm. rewrite (FF (with_mtow m v) w TT). apply Rmult_lt_compat_r; [lra|]. apply Rmult_lt_compat_l; [lra|]. apply Rplus_lt_compat_l.
    apply div_less; [apply Rmult_lt_0_compat; lra|]. apply Rmult_lt_compat_l; [apply Rmult_lt_0_compat; [exact N'|apply Rmult_lt_0_compat; [apply Rmult_lt_0_compat|]; lra]|].
    simpl. apply Rplus_lt_compat_l. apply div_less; [lra|]. apply Rmult_lt_compat_l; [apply dec_pos; lia|]. apply div_less; lra.
  - intros b Hb. rewrite (FF v (with_span b w) TT). simpl. apply Rmult_lt_compat_r; [lra|]. apply Rmult_lt_compat_l; [lra|]. apply Rplus_lt_compat_l.
    apply div_less; [apply Rmult_lt_0_compat; lra|]. apply Rmult_lt_compat_r; [exact SQ|]. apply Rmult_lt_compat_l; [exact N'|]. apply cube_less. split; [lra|]. apply div_less; lra.
  - intros t Ht. rewrite (FF v (with_tc t w) TT). simpl. apply Rmult_lt_compat_r; [lra|]. apply Rmult_lt_compat_l; [lra|]. apply Rplus_lt_compat_l.
    unfold Rdiv at 1 5. apply Rmult_lt_compat_l.
    + apply Rmult_lt_0_compat; [|exact SQ]. apply Rmult_lt_0_compat; [exact N'|]. apply Rmult_lt_0_compat; [apply Rmult_lt_0_compat|]; lra.
    + apply Rinv_lt_contravar; [apply Rmult_lt_0_compat; apply Rmult_lt_0_compat; lra|]. apply Rmult_lt_compat_r; [exact C|lra].
Qed.
(** a T tail weighs a quarter more if it is marked with the word "yes"; marked with the value True it weighs nothing more *)
Theorem C97_ttail v w :
  tail_vertical v (with_t TYes w) = 125 / 100 * tail_vertical v (with_t TFalse w) /\ tail_vertical v (with_t TTrue w) = tail_vertical v (with_t TFalse w).
Proof.
  unfold tail_vertical, with_t. simpl. split; [|reflexivity].
  match goal with |- context [dec 125 2 * ?x] => generalize x end. intro x. unfold dec. simpl. field.
Qed.
(** engines and motors: heavier with thrust or power, and one big one lighter than several small ones *)
Definition economic (f : R -> R) : Prop :=
  (forall t t', 0 < t < t' -> 0 < f t < f t') /\ (forall n t, (2 <= n)%nat -> 0 < t -> f (INR n * t) < INR n * f t).
Lemma economic_power c u y b : 0 < c -> 0 < u -> 0 < y < 1 -> 0 < b -> economic (fun t => c * pw (t / u) y * b).
Proof.
  intros C U Y B. split.
  - intros t t' H. assert (0 < t / u) by (apply Rdiv_lt_0_compat; lra). assert (t / u < t' / u) by (apply div_less; lra).
    pose proof (pw_pos (t / u) y ltac:(lra)). split; [apply Rmult_lt_0_compat; [apply Rmult_lt_0_compat|]; lra|].
    apply Rmult_lt_compat_r; [exact B|]. apply Rmult_lt_compat_l; [exact C|]. apply pw_less; lra.
  - intros n t N T. replace (INR n * t / u) with (INR n * (t / u)) by (unfold Rdiv; ring). pose proof (pw_economy n (t / u) y N ltac:(apply Rdiv_lt_0_compat; lra) Y) as E.
    replace (INR n * (c * pw (t / u) y * b)) with (c * (INR n * pw (t / u) y) * b) by ring. apply Rmult_lt_compat_r; [exact B|]. apply Rmult_lt_compat_l; [exact C|exact E].
Qed.
Theorem C97_engines : economic engine_jet /\ economic air_cooled_motor /\ economic hts_motor /\ economic nasa_motor /\ economic engine_piston.
Proof.
  pose proof lb_pos. pose proof lbf_pos. pose proof ft_pos. assert (0 < ft * lbf) by (apply Rmult_lt_0_compat; lra).
  assert (0 < hp) by (unfold hp; nra).
  split; [|split; [|split; [|split]]]; apply economic_power; try lra; try (apply dec_pos; lia); unfold dec; simpl; lra.
Qed.
Theorem C97_installed t n : integrated_propulsion (engine_jet t) n = 16 / 10 * INR n * engine_jet t.
Proof. unfold integrated_propulsion, dec. simpl. field. Qed.
Definition ex_w : wing := Wing MainWing 34 (2 / 10) (4 / 10) 125 (1 / 10) 8 (Some 4) (Some 17) 100 250 9 TFalse (3 / 10) [] 2.
Example C97_ex : plausible ex_w /\ fuse_index 1 2 = 5 / 4 /\ fuse_index 3 2 = 3.
Proof.
  split; [|split].
  - unfold plausible. simpl. pose proof PI2_3_2. unfold PI2 in *. repeat split; lra.
  - unfold fuse_index. rewrite (proj2 (Rltb_false 2 1)) by lra. lra.
  - unfold fuse_index. rewrite (proj2 (Rltb_true 2 3)) by lra. reflexivity.
Qed.
(** tails on a positive arm: heavier than the area term, heavier with take-off weight, lighter the longer the arm *)
Theorem C97_tail v m w a b c : plausible w -> 0 < v_nult v -> 0 < v_mtow v -> w_ac w = Some a -> w_ac m = Some b -> b < a -> w_mac m = Some c -> 0 < c ->
  0 < w_exposed w -> 0 < w_wetted w ->
  525 / 100 * (w_area w / (ft * ft)) * lb < tail_horizontal v m w /\
  (forall x, v_mtow v < x -> tail_horizontal v m w < tail_horizontal (with_mtow x v) m w) /\
  (forall m' b', w_ac m' = Some b' -> w_mac m' = Some c -> b' < b -> tail_horizontal v m' w < tail_horizontal v m w).
Proof.
  intros P N M Ea Eb AB Ec Cc EX WE. pose proof (cos_sq w P) as C. pose proof ft_pos as Hf. pose proof lb_pos as Hl. pose proof ft2_pos as Hf2.
  pose proof P as [A [B [T [L S]]]].
  set (k0 := dec 8 7 * v_nult v * (w_span w / ft * (w_span w / ft) * (w_span w / ft))).
  set (r := sqrt (w_exposed w / w_wetted w * (w_area w / (ft * ft)))). set (d := w_tc w * (cos (w_sweep w) * cos (w_sweep w))). set (p := pw (w_area w / (ft * ft)) (dec 15 1)).
  assert (A' : 0 < w_area w / (ft * ft)) by (apply Rdiv_lt_0_compat; lra). assert (B' : 0 < w_span w / ft) by (apply Rdiv_lt_0_compat; lra).
  assert (K0 : 0 < k0) by (unfold k0; apply Rmult_lt_0_compat; [apply Rmult_lt_0_compat; [apply dec_pos; lia|lra]|apply Rmult_lt_0_compat; [apply Rmult_lt_0_compat|]; lra]).
  assert (R0 : 0 < r) by (apply sqrt_lt_R0, Rmult_lt_0_compat; [apply Rdiv_lt_0_compat; lra|lra]).
  assert (D0 : 0 < d) by (apply Rmult_lt_0_compat; lra). assert (P0 : 0 < p) by (apply pw_pos; exact A').
  assert (FF : forall v' m' b', v_nult v' = v_nult v -> w_ac m' = Some b' -> w_mac m' = Some c -> tail_horizontal v' m' w =
     (525 / 100 * (w_area w / (ft * ft)) + k0 * (v_mtow v' / lb) * (c / ft) * r / (d * ((a - b') / ft) * p)) * lb).
  { intros v' m' b' Ev E1 E2. unfold tail_horizontal. rewrite Ea, E1, E2, Ev. simpl. fold k0 r d p. unfold dec at 1. simpl. reflexivity. }
  assert (G : forall x y, 0 < x -> 0 < y -> 0 < k0 * (x / lb) * (c / ft) * r / (d * (y / ft) * p)).
  { intros x y X Y. assert (0 < x / lb) by (apply Rdiv_lt_0_compat; lra). assert (0 < c / ft) by (apply Rdiv_lt_0_compat; lra).
    assert (0 < y / ft) by (apply Rdiv_lt_0_compat; lra).
    apply Rdiv_lt_0_compat; [apply Rmult_lt_0_compat; [apply Rmult_lt_0_compat; [apply Rmult_lt_0_compat|]|]|apply Rmult_lt_0_compat; [apply Rmult_lt_0_compat|]]; assumption. }
  rewrite (FF v m b eq_refl Eb Ec). split; [|split].
  - pose proof (G (v_mtow v) (a - b) M ltac:(lra)) as G0. match goal with |- _ < (_ + ?x) * _ => assert (0 < x * lb) by (apply Rmult_lt_0_compat; lra) end. lra.
  - intros x Hx. rewrite (FF (with_mtow x v) m b eq_refl Eb Ec). simpl. apply Rmult_lt_compat_r; [lra|]. apply Rplus_lt_compat_l.
    assert (AB' : 0 < (a - b) / ft) by (apply Rdiv_lt_0_compat; lra). assert (CF : 0 < c / ft) by (apply Rdiv_lt_0_compat; lra).
    apply div_less; [apply Rmult_lt_0_compat; [apply Rmult_lt_0_compat|]; assumption|]. apply Rmult_lt_compat_r; [exact R0|]. apply Rmult_lt_compat_r; [exact CF|].
    apply Rmult_lt_compat_l; [exact K0|]. apply div_less; lra.
  - intros m' b' E1 E2 Hb. rewrite (FF v m' b' eq_refl E1 E2). apply Rmult_lt_compat_r; [lra|]. apply Rplus_lt_compat_l.
    assert (AB' : 0 < (a - b) / ft) by (apply Rdiv_lt_0_compat; lra). assert (AB2 : (a - b) / ft < (a - b') / ft) by (apply div_less; lra).
    assert (CF : 0 < c / ft) by (apply Rdiv_lt_0_compat; lra). assert (MF : 0 < v_mtow v / lb) by (apply Rdiv_lt_0_compat; lra).
    unfold Rdiv at 1 4. apply Rmult_lt_compat_l.
    + apply Rmult_lt_0_compat; [apply Rmult_lt_0_compat; [apply Rmult_lt_0_compat|]|]; assumption.
    + apply Rinv_lt_contravar; [apply Rmult_lt_0_compat; (apply Rmult_lt_0_compat; [apply Rmult_lt_0_compat; [exact D0|lra]|exact P0])|]. apply Rmult_lt_compat_r; [exact P0|]. apply Rmult_lt_compat_l; [exact D0|exact AB2].
Qed.

(** ** C98: bending weight of a segment of constant chord *)
(** what is integrated over the segment is, at each station, the moment ABOUT THE ROOT of the elliptic lift outboard of it, over the depth *)
Theorem C98_integral g c sweep y1 y2 : 0 <= y1 <= y2 -> y2 <= 1 ->
  exists M, (forall x, 0 <= x <= 1 -> outboard_moment 0 x (M x)) /\
    integral_on (fun x => M x / (g * c * (cos sweep * cos sweep))) y1 y2 (straight_segment g c sweep y1 y2).
Proof.
  intros H1 H2. exists (fun x => 1 / 3 * ((1 - x * x) * sqrt (1 - x * x))). split.
  - intros x Hx. pose proof (moment_general 0 x ltac:(lra)) as G. rewrite Rmult_0_l, Rminus_0_r in G. exact G.
  - set (k := g * c * (cos sweep * cos sweep)). exists (fun x => 1 / k * (1 / 3) * prim x). repeat split.
    + intros t Ht. apply (continuity_pt_mult (fun _ => 1 / k * (1 / 3)) prim); [apply const_cont|apply prim_cont; lra].
    + intros t Ht. eapply D_val; [apply (derivable_pt_lim_scal prim); apply prim_derivative; lra|]. unfold Rdiv. ring.
    + unfold straight_segment. fold k. ring.
Qed.
(** cutting a segment in two changes nothing *)
Theorem C98_cut g c sweep y1 y2 y3 : straight_segment g c sweep y1 y2 + straight_segment g c sweep y2 y3 = straight_segment g c sweep y1 y3.
Proof. unfold straight_segment. ring. Qed.
(** the bending moment at a station is the moment about that station; with it the integral is smaller ... *)
Theorem C98_bending_refuted g c sweep y1 y2 : 0 <= y1 < y2 -> y2 <= 1 -> 0 < g -> 0 < c -> 0 < cos sweep ->
  exists B v, (forall x, 0 <= x <= 1 -> outboard_moment x x (B x)) /\
    integral_on (fun x => B x / (g * c * (cos sweep * cos sweep))) y1 y2 v /\ v < straight_segment g c sweep y1 y2.
Proof.
  intros H1 H2 G C S. set (k := g * c * (cos sweep * cos sweep)). assert (K : 0 < k) by (unfold k; repeat apply Rmult_lt_0_compat; assumption).
  exists (fun x => 1 / 3 * ((1 - x * x) * sqrt (1 - x * x)) - x * (half 1 - half x)), (1 / k * (1 / 3 * (prim y2 - prim y1) - (relief y2 - relief y1))).
  assert (I : integral_on (fun x => (1 / 3 * ((1 - x * x) * sqrt (1 - x * x)) - x * (half 1 - half x)) / k) y1 y2 (1 / k * (1 / 3 * (prim y2 - prim y1) - (relief y2 - relief y1)))).
  { exists (fun x => 1 / k * (1 / 3 * prim x - relief x)). repeat split.
    - intros t Ht. apply (continuity_pt_mult (fun _ => 1 / k) (fun x => 1 / 3 * prim x - relief x)); [apply const_cont|].
      apply (continuity_pt_minus (fun x => 1 / 3 * prim x) relief); [|apply relief_cont; lra].
      apply (continuity_pt_mult (fun _ => 1 / 3) prim); [apply const_cont|apply prim_cont; lra].
    - intros t Ht. eapply D_val.
      + apply (derivable_pt_lim_scal (fun x => 1 / 3 * prim x - relief x)). apply (derivable_pt_lim_minus (fun x => 1 / 3 * prim x) relief);
          [apply (derivable_pt_lim_scal prim); apply prim_derivative; lra|apply relief_derivative; lra].
      + unfold Rdiv. ring.
    - ring. }
  split; [|split].
  - intros x Hx. apply moment_general. lra.
  - exact I.
  - destruct (C98_integral g c sweep y1 y2 ltac:(lra) H2) as [M [M1 M2]].
    apply (integral_on_less _ _ y1 y2 _ _ ltac:(lra) I M2). intros t Ht. cbv beta.
    assert (E : M t = 1 / 3 * ((1 - t * t) * sqrt (1 - t * t))).
    { pose proof (moment_general 0 t ltac:(lra)) as Q. rewrite Rmult_0_l, Rminus_0_r in Q. apply (integral_on_unique _ t 1 _ _ ltac:(lra) (M1 t ltac:(lra)) Q). }
    rewrite E. fold k. apply div_less; [exact K|]. pose proof (half_grows t ltac:(lra)). nra.
Qed.
(** ... and over a whole rectangular wing exactly half *)
Theorem C98_twice g c sweep : 0 < g * c * (cos sweep * cos sweep) ->
  exists B, (forall x, 0 <= x <= 1 -> outboard_moment x x (B x)) /\
    integral_on (fun x => B x / (g * c * (cos sweep * cos sweep))) 0 1 (straight_segment g c sweep 0 1 / 2).
Proof.
  intro K. set (k := g * c * (cos sweep * cos sweep)) in *.
  exists (fun x => 1 / 3 * ((1 - x * x) * sqrt (1 - x * x)) - x * (half 1 - half x)). split; [intros x Hx; apply moment_general; lra|].
  exists (fun x => 1 / k * (1 / 3 * prim x - relief x)). repeat split.
  - intros t Ht. apply (continuity_pt_mult (fun _ => 1 / k) (fun x => 1 / 3 * prim x - relief x)); [apply const_cont|].
    apply (continuity_pt_minus (fun x => 1 / 3 * prim x) relief); [|apply relief_cont; lra].
    apply (continuity_pt_mult (fun _ => 1 / 3) prim); [apply const_cont|apply prim_cont; lra].
  - intros t Ht. eapply D_val.
    + apply (derivable_pt_lim_scal (fun x => 1 / 3 * prim x - relief x)). apply (derivable_pt_lim_minus (fun x => 1 / 3 * prim x) relief);
        [apply (derivable_pt_lim_scal prim); apply prim_derivative; lra|apply relief_derivative; lra].
    + unfold Rdiv. ring.
  - unfold straight_segment. fold k. assert (A1 : asin 1 = PI / 2) by (apply asin_big; lra). assert (A0 : asin 0 = 0) by apply asin_0.
    assert (P1 : prim 1 = 3 * PI / 16) by (unfold prim; rewrite one_one, A1; field). assert (P0 : prim 0 = 0) by (unfold prim; rewrite A0; ring).
    assert (R1 : relief 1 = PI / 32) by (unfold relief; rewrite one_one, A1; field). assert (R0 : relief 0 = 0) by (unfold relief; rewrite A0; ring).
    rewrite P1, P0, R1, R0. field. lra.
Qed.
Example C98_ex : straight_segment (1 / 10) 5 0 0 1 = PI / 8.
Proof.
  unfold straight_segment. rewrite cos_0. assert (A1 : asin 1 = PI / 2) by (apply asin_big; lra).
  assert (P1 : prim 1 = 3 * PI / 16) by (unfold prim; rewrite one_one, A1; field). assert (P0 : prim 0 = 0) by (unfold prim; rewrite asin_0; ring). rewrite P1, P0. field.
Qed.

(** ** C99: the FLOPS wing *)
(** the bending weight carries the load left after the wing's own weight is relieved; the wing weight is the only solution *)
Theorem C99_relief fa fc ulf cayf pctl bt caye v w :
  let n := flops_w1nir fa fc ulf cayf pctl bt v w in let load := v_mtow v / lb * caye in
  1 + n <> 0 ->
  (forall W, W = n * (load - W) + flops_w2 fc v w + flops_w3 fc v w <-> W = flops_wing_lb fa fc ulf cayf pctl bt caye v w).
Proof.
  intros n load N W. unfold flops_wing_lb. fold n. fold load. set (w2 := flops_w2 fc v w). set (w3 := flops_w3 fc v w).
  assert (E : (load * n + w2 + w3) / (1 + n) - w2 - w3 + w2 + w3 = (load * n + w2 + w3) / (1 + n)) by ring.
  rewrite E. split; intro H.
  - apply Rmult_eq_reg_r with (1 + n); [|exact N]. unfold Rdiv. rewrite Rmult_assoc, Rinv_l by exact N. lra.
  - rewrite H. field. exact N.
Qed.
(** the wing weighs less than with the full load, and more with more take-off weight in the bending term *)
Theorem C99_bounds fa fc ulf cayf pctl bt caye v w :
  let n := flops_w1nir fa fc ulf cayf pctl bt v w in let load := v_mtow v / lb * caye in let W := flops_wing_lb fa fc ulf cayf pctl bt caye v w in
  0 < n -> flops_w2 fc v w + flops_w3 fc v w < load ->
  flops_w2 fc v w + flops_w3 fc v w < W < load.
Proof.
  intros n load W N H. destruct (C99_relief fa fc ulf cayf pctl bt caye v w) with (W := W) as [_ E]; [fold n; lra|]. specialize (E eq_refl). fold n load in E. nra.
Qed.
(** the sweep angle in the bending factor is that of the three-quarter chord line of the trapezoid *)
Theorem C99_sweep x : 0 < cos x -> flops_sin34 (tan x) = sin x.
Proof.
  intro C. unfold flops_sin34, tan. assert (E : sqrt (1 + sin x / cos x * (sin x / cos x)) = / cos x).
  { replace (1 + sin x / cos x * (sin x / cos x)) with (/ cos x * / cos x).
    - apply sqrt_square. left. apply Rinv_0_lt_compat. exact C.
    - pose proof (sin2_cos2 x) as Q. unfold Rsqr in Q. apply Rmult_eq_reg_r with (cos x * cos x); [|nra]. field_simplify; [|lra|lra]. nra. }
  rewrite E. field. lra.
Qed.
(** leading edge, root and tip chord: [le y] is the leading edge at the station y, the chord goes linearly from [cr] to [cr * tr] at [b / 2] *)
Theorem C99_three_quarter sweep cr tr b : 0 < cr -> 0 <= tr -> 0 < b ->
  let chord y := cr - (cr - cr * tr) * (y / (b / 2)) in let area := (cr + cr * tr) / 2 * b in
  let quarter y := tan sweep * y + cr / 4 in
  let leading y := quarter y - chord y / 4 in
  forall y, 0 < y -> ((leading y + 3 / 4 * chord y) - (leading 0 + 3 / 4 * chord 0)) / y = flops_tan34 sweep (b * b / area) tr.
Proof. intros C T B chord area quarter leading y Y. unfold leading, quarter, chord, area, flops_tan34. field. repeat split; try lra; nra. Qed.
(** short-range aircraft get the constants of transports in general; only business and commuter aircraft have their own *)
Theorem C99_short_range_refuted : flops_constants ShortRange = flops_constants LongRange /\ flops_constants Business <> flops_constants LongRange.
Proof. split; [reflexivity|]. unfold flops_constants. intro H. injection H as H. unfold dec in H. simpl in H. lra. Qed.
(** the detailed method: the denominator as printed in the FLOPS manual, and what the extra stroke makes of it *)
Definition manual_den (fa fs ar sa : R) : R :=
  let caya := Rmax 0 (ar - 5) in
  Rpower ar (25 / 100 * fs) * (1 + (50 / 100 * fa - 16 / 100 * fs) * (sa * sa) + 3 / 100 * caya * (1 - 50 / 100 * fa) * sa).
Theorem C99_den_refuted ar sa : 5 < ar -> sa <> 0 -> flops_den 0 0 ar sa = 1 /\ manual_den 0 0 ar sa = 1 + 3 / 100 * (ar - 5) * sa /\ flops_den 0 0 ar sa <> manual_den 0 0 ar sa.
Proof.
  intros A S.
  assert (E1 : flops_den 0 0 ar sa = 1).
  { unfold flops_den. rewrite pw_eq by lra. replace (dec 25 2 * 0) with 0 by ring. rewrite Rpower_O by lra. unfold Rdiv. ring. }
  assert (E2 : manual_den 0 0 ar sa = 1 + 3 / 100 * (ar - 5) * sa).
  { unfold manual_den. replace (25 / 100 * 0) with 0 by ring. rewrite Rpower_O, Rmax_right by lra. ring. }
  split; [exact E1|]. split; [exact E2|]. rewrite E1, E2. intro H. assert (Z : (ar - 5) * sa = 0) by lra. apply Rmult_integral in Z. lra.
Qed.
(** below an aspect ratio of 5 the tailoring has no effect at all *)
Theorem C99_den_low fa fs ar sa : 0 < ar <= 5 -> flops_den fa fs ar sa = Rpower ar (25 / 100 * fs).
Proof.
  intro A. unfold flops_den. rewrite pw_eq by lra. rewrite (proj2 (Rltb_false 5 ar)) by lra. unfold dec at 1. simpl. unfold Rdiv. ring_simplify. reflexivity.
Qed.
Definition ex_v : vehicle :=
  Vehicle 79000 62000 1000 170 125 (375 / 100) (25 / 10) MediumRange FullyPowered (Some (78 / 100)) (Some 5000000) (Some 10000) [ex_w] [] [] [].
Example C99_ex : 0 < flops_w1nir 0 0 (375 / 100) 1 1 2 ex_v ex_w /\ 0 < cos (4 / 10).
Proof.
  pose proof ft_pos. split.
  - unfold flops_w1nir, ex_v, ex_w. simpl. assert (0 < 34 / ft) by (apply Rdiv_lt_0_compat; lra). pose proof (sqrt_pos (dec 625 2 / (34 / ft))) as S.
    revert H0 S. generalize (sqrt (dec 625 2 / (34 / ft))). generalize (34 / ft). intros b s H0 S. unfold dec. simpl.
    assert (0 < (1 + s) * b) by (apply Rmult_lt_0_compat; lra).
    match goal with |- 0 < ?x => replace x with (66 / 1000000 * ((1 + s) * b)) by field end. lra.
  - apply cos_gt_0; pose proof PI2_3_2; unfold PI2 in *; lra.
Qed.
Print Assumptions C97_fuse_index.
Print Assumptions C97_fuse_monotone.
Print Assumptions C97_wing.
Print Assumptions C97_fin.
Print Assumptions C97_ttail.
Print Assumptions C97_engines.
Print Assumptions C97_installed.
Print Assumptions C97_tail.
Print Assumptions C98_integral.
Print Assumptions C98_cut.
Print Assumptions C98_bending_refuted.
Print Assumptions C98_twice.
Print Assumptions C99_relief.
Print Assumptions C99_bounds.
Print Assumptions C99_sweep.
Print Assumptions C99_three_quarter.
Print Assumptions C99_short_range_refuted.
Print Assumptions C99_den_refuted.
Print Assumptions C99_den_low.
