(** * Proofs: supersonic drag *)
From Coq Require Import Reals List Bool Arith String Lra Lia Psatz.
From Verif Require Import PyBase M_Opt M_Util M_Drag M_Super P_Opt P_Util P_Deriv P_Form Props_Util.
From Verif Require P_Field2.
Import ListNotations.
Local Open Scope R_scope.
Local Open Scope list_scope.

(** ** continuity *)
Lemma cont_const c x : continuity_pt (fun _ => c) x.
Proof. apply continuity_pt_const. intros a b. reflexivity. Qed.
Lemma cont_id x : continuity_pt (fun y => y) x.
Proof. apply derivable_continuous_pt, derivable_pt_id. Qed.
Lemma cont_pow f n x : continuity_pt f x -> continuity_pt (fun y => f y ^ n) x.
Proof. intro C. induction n as [|n IH]; cbn [pow]; [apply cont_const|]. apply (continuity_pt_mult f); assumption. Qed.
Lemma cont_blend s e x : s < e -> continuity_pt (blend s e) x.
Proof. intro H. destruct (C39_smooth s e H) as (d & D & _). apply derivable_continuous_pt. exists (d x). apply D. Qed.
Lemma pw_pos x y : 0 < x -> pw x y = Rpower x y.
Proof. intro H. unfold pw. rewrite (proj2 (Rltb_true 0 x) H). reflexivity. Qed.
Lemma pw_0 x y : x <= 0 -> pw x y = 0.
Proof. intro H. unfold pw. rewrite (proj2 (Rltb_false 0 x) H). reflexivity. Qed.
Lemma pw_nonneg x y : 0 <= pw x y.
Proof. unfold pw. destruct (Rltb 0 x); [left; apply exp_pos|lra]. Qed.
Lemma cont_pw y x : 0 < y -> continuity_pt (fun z => pw z y) x.
Proof.
  intro Y. destruct (Rtotal_order x 0) as [N|[->|P]].
  - intros eps E. exists (- x). split; [lra|]. intros z [_ D]. cbn in *. unfold R_dist in *. rewrite !pw_0; [rewrite Rminus_0_r, Rabs_R0; exact E|lra|]. pose proof (Rle_abs (z - x)). lra.
  - intros eps E. exists (Rpower eps (/ y)). split; [apply exp_pos|]. intros z [_ D]. cbn in *. unfold R_dist in *. rewrite (pw_0 0), Rminus_0_r by lra. rewrite Rminus_0_r in D. rewrite Rabs_right by (apply Rle_ge, pw_nonneg).
    unfold pw. destruct (Rltb 0 z) eqn:Z; [|exact E]. apply Rltb_true in Z. rewrite Rabs_right in D by lra. replace eps with (Rpower (Rpower eps (/ y)) y); [apply Rlt_Rpower_l; lra|]. rewrite Rpower_mult, Rinv_l by lra. apply Rpower_1, E.
  - apply (continuity_pt_locally_ext (fun z => exp (y * ln z)) (fun z => pw z y) x x P).
    + intros z D. rewrite pw_pos; [reflexivity|]. unfold R_dist in D. rewrite Rabs_minus_sym in D. pose proof (Rle_abs (x - z)). lra.
    + apply (continuity_pt_comp (fun z => y * ln z) exp); [|apply derivable_continuous_pt, derivable_pt_exp]. apply (continuity_pt_mult (fun _ => y) ln); [apply cont_const|]. apply derivable_continuous_pt. exists (/ x). apply derivable_pt_lim_ln, P.
Qed.
Lemma cont_piece f g c x : (x <= c -> continuity_pt f x) -> (c <= x -> continuity_pt g x) -> f c = g c -> continuity_pt (fun y => if Rltb y c then f y else g y) x.
Proof.
  intros F G E. intros eps P. destruct (Rtotal_order x c) as [L|[->|L]].
  - destruct (F ltac:(lra) eps P) as (d1 & D1 & H1). cbn in *. unfold R_dist in *. exists (Rmin d1 (c - x)). split; [apply Rmin_glb_lt; lra|]. intros y [N D]. cbn in *. pose proof (Rmin_l d1 (c - x)). pose proof (Rmin_r d1 (c - x)). pose proof (Rle_abs (y - x)).
    rewrite (proj2 (Rltb_true y c)), (proj2 (Rltb_true x c)) by lra. apply H1. split; [exact N|lra].
  - destruct (F ltac:(lra) eps P) as (d1 & D1 & H1). destruct (G ltac:(lra) eps P) as (d2 & D2 & H2). cbn in *. unfold R_dist in *. exists (Rmin d1 d2). split; [apply Rmin_glb_lt; lra|]. intros y [N D]. cbn in *. pose proof (Rmin_l d1 d2). pose proof (Rmin_r d1 d2). rewrite (proj2 (Rltb_false c c)) by lra.
    destruct (Rltb y c); [rewrite <- E; apply H1|apply H2]; (split; [exact N|lra]).
  - destruct (G ltac:(lra) eps P) as (d2 & D2 & H2). cbn in *. unfold R_dist in *. exists (Rmin d2 (x - c)). split; [apply Rmin_glb_lt; lra|]. intros y [N D]. cbn in *. pose proof (Rmin_l d2 (x - c)). pose proof (Rmin_r d2 (x - c)). rewrite Rabs_minus_sym in D. pose proof (Rle_abs (x - y)).
    rewrite (proj2 (Rltb_false y c)), (proj2 (Rltb_false x c)) by lra. apply H2. split; [exact N|]. rewrite Rabs_minus_sym. lra.
Qed.
Ltac cnt := match goal with
  | |- continuity_pt (fun _ => ?c) _ => apply cont_const
  | |- continuity_pt (fun x => x) _ => apply cont_id
  | |- continuity_pt (fun x => @?f x + @?g x) _ => apply (continuity_pt_plus f g); [cnt|cnt]
  | |- continuity_pt (fun x => @?f x - @?g x) _ => apply (continuity_pt_minus f g); [cnt|cnt]
  | |- continuity_pt (fun x => - @?f x) _ => apply (continuity_pt_opp f); cnt
  | |- continuity_pt (fun x => @?f x * @?g x) _ => apply (continuity_pt_mult f g); [cnt|cnt]
  | |- continuity_pt (fun x => @?f x / @?g x) _ => apply (continuity_pt_div f g); [cnt|cnt|]
  | |- continuity_pt (fun x => @?f x ^ ?n) _ => apply (cont_pow f n); cnt
  | |- continuity_pt (fun x => pw (@?f x) ?y) _ => apply (continuity_pt_comp f (fun z => pw z y)); [cnt|apply cont_pw]
  | |- continuity_pt (fun x => blend ?s ?e (@?f x)) _ => apply (continuity_pt_comp f (blend s e)); [cnt|apply cont_blend]
  | _ => idtac
  end.
(** ** volume drag *)
Lemma div_const a : forall x : R, x / a = x * / a.
Proof. reflexivity. Qed.
Lemma cont_drag_div S w cl x : continuity_pt (fun M => drag_div S M w cl) x.
Proof.
  unfold drag_div. set (mcc := if z_high w then _ else _). clearbody mcc. destruct (z_high w); unfold Rdiv; cnt; lra.
Qed.
Lemma fold_plus l : forall a b, fold_left Rplus l (a + b) = a + fold_left Rplus l b.
Proof. induction l as [|x l IH]; intros a b; cbn [fold_left]; [reflexivity|]. rewrite <- IH. f_equal. ring. Qed.
Lemma divergence_cons v w ws c cs M : fold_left Rplus (map2 (drag_div (v_area v) M) (w :: ws) (c :: cs)) 0 = drag_div (v_area v) M w c + fold_left Rplus (map2 (drag_div (v_area v) M) ws cs) 0.
Proof. cbn [map2 fold_left]. rewrite <- fold_plus. f_equal. ring. Qed.
Lemma cont_divergence v cls x : continuity_pt (divergence_total v cls) x.
Proof.
  unfold divergence_total. revert cls. generalize (v_all v). induction l as [|w ws IH]; intros [|c cs]; try (cbn [map2 fold_left]; apply cont_const).
  apply (continuity_pt_ext (fun M => drag_div (v_area v) M w c + fold_left Rplus (map2 (drag_div (v_area v) M) ws cs) 0)); [intro; symmetry; apply divergence_cons|].
  apply (continuity_pt_plus (fun M => drag_div (v_area v) M w c)); [apply cont_drag_div|apply IH].
Qed.
Definition raymer_factor (v : body) (M : R) : R := 1 - 2 / 10 * pw (M - 12 / 10) (57 / 100) * (1 - PI * pw (v_le v) (77 / 100) / 100).
Definition area_rule (v : body) : R := 9 * PI / 2 * (v_section v / v_length v) * (v_section v / v_length v).
Lemma raymer_eq v k M : raymer v k M = (k * area_rule v * blend (12 / 10) (13 / 10) M + k * raymer_factor v M * area_rule v * (1 - blend (12 / 10) (13 / 10) M)) / v_area v.
Proof.
  unfold raymer, raymer_factor, area_rule. destruct (Rltb M (12 / 10)) eqn:E; [|reflexivity]. apply Rltb_true in E. rewrite (proj1 (C39_ends (12 / 10) (13 / 10) M ltac:(lra))) by lra. unfold Rdiv. ring.
Qed.
Lemma cont_raymer v k x : continuity_pt (raymer v k) x.
Proof.
  apply (continuity_pt_ext (fun M => (k * area_rule v * blend (12 / 10) (13 / 10) M + k * raymer_factor v M * area_rule v * (1 - blend (12 / 10) (13 / 10) M)) / v_area v)); [intro; symmetry; apply raymer_eq|].
  unfold raymer_factor, Rdiv. cnt; lra.
Qed.
Lemma cont_volume s v wave cls x : r_low s < r_peak s -> r_peak s < r_high s -> continuity_pt wave x -> continuity_pt (volume_drag s v wave cls) x.
Proof.
  intros L H W. unfold volume_drag. apply cont_piece; [intros _|intros _|].
  - assert (r_low s < r_peak s - (r_peak s - r_low s) * 3 / 4) by lra. unfold parabola. cnt; try assumption. apply (cont_divergence v cls).
  - unfold parabola. cnt; try assumption.
  - unfold parabola. rewrite (proj2 (C39_ends (r_low s) (r_peak s - (r_peak s - r_low s) * 3 / 4) (r_peak s) ltac:(lra))) by lra. rewrite (proj1 (C39_ends (r_peak s) (r_high s) (r_peak s) H)) by lra. ring.
Qed.
Section Volume.
Context (s : rules) (v : body) (wave : R -> R) (cls : list R) (L : r_low s < r_peak s) (H : r_peak s < r_high s).
Let low := divergence_total v cls (r_low s).
Let top := wave (r_low s) * r_factor s.
Let e := r_peak s - (r_peak s - r_low s) * 3 / 4.
Lemma volume_low M : M <= r_low s -> volume_drag s v wave cls M = divergence_total v cls M.
Proof.
  intro B. unfold volume_drag. rewrite (proj2 (Rltb_true M (r_peak s))) by lra. rewrite (proj1 (C39_ends (r_low s) (r_peak s - (r_peak s - r_low s) * 3 / 4) M ltac:(lra))) by lra. ring.
Qed.
Lemma volume_high M : r_high s <= M -> volume_drag s v wave cls M = wave M.
Proof.
  intro B. unfold volume_drag. rewrite (proj2 (Rltb_false M (r_peak s))) by lra. rewrite (proj2 (C39_ends (r_peak s) (r_high s) M ltac:(lra))) by lra. ring.
Qed.
Lemma volume_peak : volume_drag s v wave cls (r_peak s) = top.
Proof.
  unfold volume_drag. rewrite (proj2 (Rltb_false (r_peak s) (r_peak s))) by lra. rewrite (proj1 (C39_ends (r_peak s) (r_high s) (r_peak s) ltac:(lra))) by lra. unfold parabola, top. ring.
Qed.
Lemma parabola_mix q x M : q <> r_peak s -> parabola (r_peak s) top ((x - top) / (q - r_peak s) / (q - r_peak s)) M
  = ((M - r_peak s) / (q - r_peak s)) ^ 2 * x + (1 - ((M - r_peak s) / (q - r_peak s)) ^ 2) * top.
Proof. intro N. unfold parabola. field. lra. Qed.
Lemma part_range q M : q <> r_peak s -> (q <= M <= r_peak s \/ r_peak s <= M <= q) -> 0 <= ((M - r_peak s) / (q - r_peak s)) ^ 2 <= 1.
Proof.
  intros N B. assert (R : 0 <= (M - r_peak s) / (q - r_peak s) <= 1).
  { destruct B as [B|B].
    - replace ((M - r_peak s) / (q - r_peak s)) with ((r_peak s - M) / (r_peak s - q)) by (field; lra). assert (P : 0 < / (r_peak s - q)) by (apply Rinv_0_lt_compat; lra). unfold Rdiv. split; [apply Rmult_le_pos; lra|]. apply (Rmult_le_reg_r (r_peak s - q)); [lra|]. rewrite Rmult_assoc, Rinv_l by lra. lra.
    - assert (P : 0 < / (q - r_peak s)) by (apply Rinv_0_lt_compat; lra). unfold Rdiv. split; [apply Rmult_le_pos; lra|]. apply (Rmult_le_reg_r (q - r_peak s)); [lra|]. rewrite Rmult_assoc, Rinv_l by lra. lra. }
  set (t := (M - r_peak s) / (q - r_peak s)) in *. nra.
Qed.
(** between the values it blends *)
Lemma volume_mixed M : exists x y z, 0 <= x /\ 0 <= y /\ 0 <= z /\ x + y + z = 1 /\
  volume_drag s v wave cls M = x * (if Rltb M (r_peak s) then divergence_total v cls M else wave M) + y * top + z * (if Rltb M (r_peak s) then low else wave (r_low s)).
Proof.
  unfold volume_drag. destruct (Rltb M (r_peak s)) eqn:E.
  - apply Rltb_true in E. set (h := blend (r_low s) (r_peak s - (r_peak s - r_low s) * 3 / 4) M). assert (HR : 0 <= h <= 1) by apply C39_range. fold low. fold top. rewrite parabola_mix by lra.
    destruct (Rle_dec (r_low s) M) as [B|B].
    + pose proof (part_range (r_low s) M ltac:(lra) ltac:(lra)) as Q. set (t := ((M - r_peak s) / (r_low s - r_peak s)) ^ 2) in *. exists h, ((1 - t) * (1 - h)), (t * (1 - h)). repeat split; [lra|apply Rmult_le_pos; lra|apply Rmult_le_pos; lra|ring|ring].
    + assert (h = 1) by (apply C39_ends; lra). exists 1, 0, 0. rewrite H0. repeat split; try lra. 
  - apply Rltb_false in E. set (h := blend (r_peak s) (r_high s) M). assert (HR : 0 <= h <= 1) by apply C39_range. fold top. rewrite parabola_mix by lra.
    destruct (Rle_dec M (r_high s)) as [B|B].
    + pose proof (part_range (r_high s) M ltac:(lra) ltac:(lra)) as Q. set (t := ((M - r_peak s) / (r_high s - r_peak s)) ^ 2) in *. exists (1 - h), ((1 - t) * h), (t * h). repeat split; [lra|apply Rmult_le_pos; lra|apply Rmult_le_pos; lra|ring|ring].
    + assert (h = 0) by (apply C39_ends; lra). exists 1, 0, 0. rewrite H0. repeat split; try lra.
Qed.
End Volume.
Lemma drag_div_nonneg S M w cl : 0 < S -> 0 <= z_area w -> (z_high w = false -> 0 <= cos (z_sweep w)) -> 0 <= drag_div S M w cl.
Proof.
  intros P A C. unfold drag_div. set (mcc := if z_high w then 95 / 100 else _). pose proof (pw_nonneg (M / mcc) (14641 / 1000)) as Q. assert (0 <= 19 / 10000 * pw (M / mcc) (14641 / 1000)) by lra.
  unfold Rdiv at 1. apply Rmult_le_pos; [|left; apply Rinv_0_lt_compat; exact P]. apply Rmult_le_pos; [|exact A]. destruct (z_high w); [assumption|]. apply Rmult_le_pos; [assumption|apply pow_le; apply C; reflexivity].
Qed.
Lemma divergence_nonneg v cls M : 0 < v_area v -> Forall (fun w => 0 <= z_area w /\ (z_high w = false -> 0 <= cos (z_sweep w))) (v_all v) -> 0 <= divergence_total v cls M.
Proof.
  intros P F. unfold divergence_total. revert cls. induction F as [|w ws [A C] _ IH]; intros [|c cs]; cbn [map2 fold_left]; try lra.
  pose proof (divergence_cons v w ws c cs M) as D. cbn [map2 fold_left] in D. rewrite D. pose proof (drag_div_nonneg (v_area v) M w c P A C). specialize (IH cs). lra.
Qed.
(** ** Raymer *)
Lemma third_root : Rpower 3 (8 / 100) <= 11 / 10.
Proof.
  replace (11 / 10) with (Rpower (Rpower (11 / 10) (25 / 2)) (8 / 100)) by (rewrite Rpower_mult; replace (25 / 2 * (8 / 100)) with 1 by field; apply Rpower_1; lra).
  apply Rle_Rpower_l; [lra|]. split; [lra|].
  assert (S9 : sqrt 9 = 3) by (replace 9 with (3 * 3) by ring; apply sqrt_square; lra).
  rewrite <- S9. replace (25 / 2) with (25 * / 2) by field. rewrite <- Rpower_mult, Rpower_sqrt by apply exp_pos. apply sqrt_le_1_alt.
  replace 25 with (INR 25) by (cbn; lra). rewrite Rpower_pow by lra. cbn. lra.
Qed.
Lemma sweep_factor x : 0 <= x <= 81 -> 0 <= 1 - PI * pw x (77 / 100) / 100 <= 1.
Proof.
  intro X. pose proof (pw_nonneg x (77 / 100)) as Q. pose proof PI_RGT_0. pose proof PI_4. split; [|assert (0 <= PI * pw x (77 / 100)) by (apply Rmult_le_pos; lra); lra].
  assert (PB : PI <= 32 / 10) by (pose proof P_Field2.PI_315; lra).
  assert (U : pw x (77 / 100) <= 297 / 10).
  { destruct (Rle_lt_dec x 0) as [L|L]; [rewrite pw_0 by exact L; lra|]. rewrite pw_pos by exact L. apply Rle_trans with (Rpower 81 (77 / 100)); [apply Rle_Rpower_l; lra|].
    replace 81 with (Rpower 3 4) by (replace 4 with (INR 4) by (cbn; lra); rewrite Rpower_pow by lra; cbn; lra). rewrite Rpower_mult. replace (4 * (77 / 100)) with (3 + 8 / 100) by field. rewrite Rpower_plus.
    replace (Rpower 3 3) with 27 by (replace 3 with (INR 3) at 2 by (cbn; lra); rewrite Rpower_pow by lra; cbn; lra). pose proof third_root. lra. }
  assert (PI * pw x (77 / 100) <= 32 / 10 * (297 / 10)) by (apply Rmult_le_compat; lra). lra.
Qed.
Lemma pw_mono x y c : 0 < c -> x <= y -> pw x c <= pw y c.
Proof.
  intros C L. destruct (Rle_lt_dec x 0) as [N|N]; [rewrite (pw_0 x) by exact N; apply pw_nonneg|]. rewrite !pw_pos by lra. apply Rle_Rpower_l; lra.
Qed.
Lemma pw_small x c : 0 <= c <= 1 -> x <= 5 -> pw x c <= 5.
Proof.
  intros C L. destruct (Rle_lt_dec x 0) as [N|N]; [rewrite (pw_0 x) by exact N; lra|]. rewrite pw_pos by exact N. apply Rle_trans with (Rpower 5 c); [apply Rle_Rpower_l; lra|]. rewrite <- (Rpower_1 5) at 2 by lra. apply Rle_Rpower; lra.
Qed.
(** ** lift *)
Lemma spread_pointwise f : forall a b, Forall (fun i => supersonic i = true) a -> Forall (fun i => supersonic i = false) b -> (forall i, supersonic i = false -> f i = 0) ->
  forall more, spread (a ++ b) (map f a ++ more) = map f (a ++ b).
Proof.
  induction a as [|i a IH]; intros b A B Z more.
  - cbn [app map]. revert more. induction B as [|j b J _ IH]; intro more; [reflexivity|]. cbn [spread map]. rewrite J. rewrite (Z j J). f_equal. apply IH.
  - inversion A as [|? ? I A']; subst. cbn [app map spread]. rewrite I. cbn [hd tl]. f_equal. apply IH; assumption.
Qed.
Lemma slow_none v i : supersonic i = false -> wave_drag_lift v i = 0.
Proof. intro E. unfold wave_drag_lift. rewrite E. reflexivity. Qed.
Lemma spread_nth : forall l from j i, nth_error l j = Some i -> nth_error (spread l from) j = Some (if supersonic i then nth (List.length (filter supersonic (firstn j l))) from 0 else 0).
Proof.
  induction l as [|k l IH]; intros from j i E; [destruct j; discriminate|]. destruct j as [|j].
  - injection E as ->. cbn [spread firstn filter List.length]. destruct (supersonic i); [destruct from; reflexivity|reflexivity].
  - cbn [nth_error] in E. cbn [spread firstn filter]. destruct (supersonic k) eqn:K; cbn [nth_error].
    + rewrite (IH _ _ _ E). f_equal. destruct (supersonic i); [|reflexivity]. cbn [List.length]. destruct from; cbn [tl nth]; [destruct (List.length _); reflexivity|reflexivity].
    + apply IH, E.
Qed.
Lemma lift_formula v i : supersonic i = true -> 0 < v_span v -> 0 < v_chordwise v -> 0 < v_ar v -> z_main (v_wing v) = true ->
  let x := v_span v / 2 / v_chordwise v in let p := 2 * x / v_ar v in
  wave_drag_lift v i = i_CL i ^ 2 * ((1 + p) * fw (sqrt (i_M i ^ 2 - 1) * x) / (2 * PI * x)).
Proof.
  intros E S C A Z x p. unfold wave_drag_lift. rewrite E, Z. unfold supersonic in E. apply negb_true_iff, Rltb_false in E. assert (B : 0 < sqrt (i_M i ^ 2 - 1)) by (apply sqrt_lt_R0; nra). pose proof PI_RGT_0.
  replace (sqrt (i_M i ^ 2 - 1) * (v_span v / 2) / v_chordwise v) with (sqrt (i_M i ^ 2 - 1) * x) by (unfold x; field; lra). unfold p, x. field. repeat split; try lra.
Qed.
Definition fw_poly (x : R) : R := 4935 / 10000 - 2382 / 10000 * x + 16306 / 10000 * x ^ 2 - 86 / 100 * x ^ 3 + 2232 / 10000 * x ^ 4 - 365 / 10000 * x ^ 5 - 5 / 10.
Lemma fw_pos_0 x : (19 / 100) <= x <= (1 / 1) -> 0 <= fw_poly x.
Proof.
  intro X. replace (fw_poly x) with ((29795174213 / 6973568802000) * (x - (19 / 100)) ^ 0 * ((1 / 1) - x) ^ 5 + (245731255847 / 348678440100) * (x - (19 / 100)) ^ 1 * ((1 / 1) - x) ^ 4 + (17463205402 / 3486784401) * (x - (19 / 100)) ^ 2 * ((1 / 1) - x) ^ 3 + (34055792800 / 3486784401) * (x - (19 / 100)) ^ 3 * ((1 / 1) - x) ^ 2 + (26288270000 / 3486784401) * (x - (19 / 100)) ^ 4 * ((1 / 1) - x) ^ 1 + (7126000000 / 3486784401) * (x - (19 / 100)) ^ 5 * ((1 / 1) - x) ^ 0) by (unfold fw_poly; field).
  assert (P : forall i j, 0 <= (x - (19 / 100)) ^ i * ((1 / 1) - x) ^ j) by (intros; apply Rmult_le_pos; apply pow_le; lra).
  pose proof (P 0%nat 5%nat). pose proof (P 1%nat 4%nat). pose proof (P 2%nat 3%nat). pose proof (P 3%nat 2%nat). pose proof (P 4%nat 1%nat). pose proof (P 5%nat 0%nat). lra.
Qed.
Lemma fw_pos_1 x : (1 / 1) <= x <= (2 / 1) -> 0 <= fw_poly x.
Proof.
  intro X. replace (fw_poly x) with ((3563 / 5000) * (x - (1 / 1)) ^ 0 * ((2 / 1) - x) ^ 5 + (47163 / 10000) * (x - (1 / 1)) ^ 1 * ((2 / 1) - x) ^ 4 + (2941 / 250) * (x - (1 / 1)) ^ 2 * ((2 / 1) - x) ^ 3 + (3447 / 250) * (x - (1 / 1)) ^ 3 * ((2 / 1) - x) ^ 2 + (76269 / 10000) * (x - (1 / 1)) ^ 4 * ((2 / 1) - x) ^ 1 + (15627 / 10000) * (x - (1 / 1)) ^ 5 * ((2 / 1) - x) ^ 0) by (unfold fw_poly; field).
  assert (P : forall i j, 0 <= (x - (1 / 1)) ^ i * ((2 / 1) - x) ^ j) by (intros; apply Rmult_le_pos; apply pow_le; lra).
  pose proof (P 0%nat 5%nat). pose proof (P 1%nat 4%nat). pose proof (P 2%nat 3%nat). pose proof (P 3%nat 2%nat). pose proof (P 4%nat 1%nat). pose proof (P 5%nat 0%nat). lra.
Qed.
Lemma fw_pos_2 x : (2 / 1) <= x <= (29 / 10) -> 0 <= fw_poly x.
Proof.
  intro X. replace (fw_poly x) with ((52090 / 19683) * (x - (2 / 1)) ^ 0 * ((29 / 10) - x) ^ 5 + (266048 / 19683) * (x - (2 / 1)) ^ 1 * ((29 / 10) - x) ^ 4 + (2568959 / 98415) * (x - (2 / 1)) ^ 2 * ((29 / 10) - x) ^ 3 + (11325037 / 492075) * (x - (2 / 1)) ^ 3 * ((29 / 10) - x) ^ 2 + (82634197 / 9841500) * (x - (2 / 1)) ^ 4 * ((29 / 10) - x) ^ 1 + (22764569 / 39366000) * (x - (2 / 1)) ^ 5 * ((29 / 10) - x) ^ 0) by (unfold fw_poly; field).
  assert (P : forall i j, 0 <= (x - (2 / 1)) ^ i * ((29 / 10) - x) ^ j) by (intros; apply Rmult_le_pos; apply pow_le; lra).
  pose proof (P 0%nat 5%nat). pose proof (P 1%nat 4%nat). pose proof (P 2%nat 3%nat). pose proof (P 3%nat 2%nat). pose proof (P 4%nat 1%nat). pose proof (P 5%nat 0%nat). lra.
Qed.
Lemma fw_nonneg x : x <= 178 / 1000 \/ 19 / 100 <= x <= 29 / 10 -> 0 <= fw x.
Proof.
  intro X. unfold fw. destruct (Rltb (178 / 1000) x) eqn:E; [|lra]. apply Rltb_true in E. change (0 <= fw_poly x). destruct (Rle_lt_dec x 1); [apply fw_pos_0; lra|]. destruct (Rle_lt_dec x 2); [apply fw_pos_1; lra|apply fw_pos_2; lra].
Qed.
(** ** fuselage *)
Lemma inside M : -1 < M < 1 -> 0 < 1 - M ^ 2 <= 1.
Proof. intro H. nra. Qed.
Lemma slow_eq d M : 0 < d < 1 -> -1 < M < 1 -> slow_speed_up d M = gain ((1 - M ^ 2) * d ^ 2) / sqrt (1 - M ^ 2).
Proof.
  intros HD HM. pose proof (inside M HM). assert (E : 0 < (1 - M ^ 2) * d ^ 2 < 1) by (assert (0 < d ^ 2 < 1) by nra; split; [apply Rmult_lt_0_compat; lra|nra]).
  unfold slow_speed_up, gain, along. pose proof (root_range _ E) as RR. rewrite pow2_sqrt by lra. rewrite at_eq by lra. fold (gap (sqrt (1 - (1 - M ^ 2) * d ^ 2))).
  set (D := sqrt (1 - (1 - M ^ 2) * d ^ 2)) in *. replace (2 * (1 - (1 - (1 - M ^ 2) * d ^ 2)) * gap D / D ^ 3) with (2 * (1 - M ^ 2) * d ^ 2 * gap D / D ^ 3) by (unfold Rdiv; ring).
  set (a := 2 * (1 - M ^ 2) * d ^ 2 * gap D / D ^ 3). unfold Rdiv. rewrite Rinv_mult. ring.
Qed.
Lemma fast_eq d : 0 < d < 1 -> fast_speed_up d = gain (d ^ 2).
Proof.
  intros HD. assert (E : 0 < d ^ 2 < 1) by nra. unfold fast_speed_up, gain, along. pose proof (root_range _ E) as RR. rewrite pow2_sqrt by lra. rewrite at_eq by lra. fold (gap (sqrt (1 - d ^ 2))). replace (1 - (1 - d ^ 2)) with (d ^ 2) by ring. reflexivity.
Qed.
Lemma gain_cont e : 0 < e < 1 -> continuity_pt gain e.
Proof.
  intro E. pose proof (root_range e E) as RR. pose proof (along_range _ RR) as AR. unfold gain.
  assert (C : continuity_pt (fun e => along (sqrt (1 - e))) e).
  { apply (continuity_pt_comp (fun e => sqrt (1 - e)) along).
    - apply (continuity_pt_comp (fun e => 1 - e) sqrt); [cnt|]. apply continuity_pt_sqrt. lra.
    - unfold along. set (D := sqrt (1 - e)) in *. assert (0 < D ^ 3) by (apply pow_lt; lra). cnt; [|lra]. change (continuity_pt gap D). apply derivable_continuous_pt. eexists. apply gap_der. lra. }
  apply (continuity_pt_div (fun e => along (sqrt (1 - e))) (fun e => 2 - along (sqrt (1 - e)))); [exact C| |lra]. apply (continuity_pt_minus (fun _ => 2)); [apply cont_const|exact C].
Qed.
Lemma slow_cont d M : 0 < d < 1 -> -1 < M < 1 -> continuity_pt (slow_speed_up d) M.
Proof.
  intros HD HM. pose proof (inside M HM) as I. set (r := Rmin (1 - M) (1 + M)). assert (0 < r) by (apply Rmin_glb_lt; lra).
  apply (continuity_pt_locally_ext (fun M => gain ((1 - M ^ 2) * d ^ 2) / sqrt (1 - M ^ 2)) _ r M H).
  - intros y Y. symmetry. apply slow_eq; [exact HD|]. unfold R_dist in Y. pose proof (Rmin_l (1 - M) (1 + M)). pose proof (Rmin_r (1 - M) (1 + M)). fold r in H0, H1. apply Rabs_def2 in Y. lra.
  - assert (E : 0 < (1 - M ^ 2) * d ^ 2 < 1) by (assert (0 < d ^ 2 < 1) by nra; split; [apply Rmult_lt_0_compat; lra|nra]).
    apply (continuity_pt_div (fun M => gain ((1 - M ^ 2) * d ^ 2)) (fun M => sqrt (1 - M ^ 2))).
    + apply (continuity_pt_comp (fun M => (1 - M ^ 2) * d ^ 2) gain); [cnt|apply gain_cont, E].
    + apply (continuity_pt_comp (fun M => 1 - M ^ 2) sqrt); [cnt|apply continuity_pt_sqrt; lra].
    + assert (0 < sqrt (1 - M ^ 2)) by (apply sqrt_lt_R0; lra). lra.
Qed.
Lemma slow_pos d M : 0 < d < 1 -> -1 < M < 1 -> 0 < slow_speed_up d M.
Proof.
  intros HD HM. pose proof (inside M HM). rewrite slow_eq by assumption. apply Rdiv_lt_0_compat; [|apply sqrt_lt_R0; lra]. apply gain_pos. assert (0 < d ^ 2 < 1) by nra; split; [apply Rmult_lt_0_compat; lra|nra].
Qed.
Lemma fast_pos d : 0 < d < 1 -> 0 < fast_speed_up d.
Proof. intro HD. rewrite fast_eq by exact HD. apply gain_pos. nra. Qed.
Lemma slow_grows d d' M : 0 < d -> d < d' -> d' < 1 -> -1 < M < 1 -> slow_speed_up d M < slow_speed_up d' M.
Proof.
  intros A B C HM. pose proof (inside M HM). rewrite !slow_eq by lra. apply Rmult_lt_compat_r; [apply Rinv_0_lt_compat, sqrt_lt_R0; lra|]. assert (0 < d ^ 2) by nra. assert (d ^ 2 < d' ^ 2) by nra. assert (d' ^ 2 < 1) by nra.
  apply gain_grows; [apply Rmult_lt_0_compat; lra|apply Rmult_lt_compat_l; lra|nra].
Qed.
Lemma blended_eq low high d M : low < high -> blended_speed_up low high d M = if Rltb M high then slow_speed_up d M * blend low high M + fast_speed_up d * (1 - blend low high M) else fast_speed_up d.
Proof.
  intro L. unfold blended_speed_up. destruct (Rltb M high) eqn:E.
  - destruct (Rltb low M) eqn:F; [reflexivity|]. apply Rltb_false in F. rewrite (proj1 (C39_ends low high M L)) by lra. ring.
  - apply Rltb_false in E. rewrite (proj2 (Rltb_true low M)) by lra. rewrite (proj2 (C39_ends low high M L)) by lra. ring.
Qed.
Lemma blended_cont low high d M : low < high -> high < 1 -> 0 < d < 1 -> 0 <= M -> continuity_pt (blended_speed_up low high d) M.
Proof.
  intros L H HD HM. apply (continuity_pt_ext (fun M => if Rltb M high then slow_speed_up d M * blend low high M + fast_speed_up d * (1 - blend low high M) else fast_speed_up d)); [intro; symmetry; apply blended_eq, L|].
  apply cont_piece; [intro B|intros _; apply cont_const|rewrite (proj2 (C39_ends low high high L)) by lra; ring].
  apply (continuity_pt_plus (fun M => slow_speed_up d M * blend low high M)); [apply (continuity_pt_mult (slow_speed_up d) (blend low high)); [apply slow_cont; lra|apply cont_blend, L]|cnt; exact L].
Qed.
