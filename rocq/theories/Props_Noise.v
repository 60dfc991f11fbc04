(** * Noise: the properties C44, C45, C53 - C56 *)
From Coq Require Import Reals List Bool Arith ZArith Lia Lra Permutation.
From Verif Require Import M_Opt P_Opt M_Rot M_Noise S_Noise P_Noise.
Import ListNotations.
Local Open Scope R_scope.
Local Open Scope list_scope.

(** ** C44: combining levels is adding sound powers *)
Theorem C44_energy : forall l, l <> [] -> together l (spl_sum l).
Proof. exact spl_together. Qed.
Theorem C44_unique : forall l t, l <> [] -> together l t -> t = spl_sum l.
Proof. intros l t N T. rewrite spl_is, <- T. symmetry. apply level_power. Qed.
(** never below the loudest source, and above it as soon as there are two *)
Theorem C44_loudest : forall l s, In s l -> s <= spl_sum l /\ ((2 <= length l)%nat -> s < spl_sum l).
Proof.
  intros l s I. rewrite spl_is. split.
  - rewrite <- (level_power s) at 1. apply level_le; [apply power_pos | now apply powers_ge].
  - intro L. rewrite <- (level_power s) at 1. apply level_lt; [apply power_pos|].
    destruct (in_split _ _ I) as (a & b & ->). rewrite powers_app. simpl.
    assert (P : forall l, 0 <= powers l) by (intros [|x l]; [simpl; lra | left; now apply powers_pos]).
    rewrite app_length in L. simpl in L. destruct a as [|x a].
    + destruct b as [|y b]; [simpl in L; lia|]. generalize (powers_pos (y :: b) ltac:(discriminate)). simpl powers at 2. lra.
    + generalize (powers_pos (x :: a) ltac:(discriminate)), (P b). simpl powers. lra.
Qed.
(** and at most 10 log10 n above it *)
Theorem C44_most : forall l m, l <> [] -> (forall s, In s l -> s <= m) -> spl_sum l <= m + 10 * log10 (INR (length l)).
Proof.
  intros l m N B. assert (P : 0 < INR (length l)) by (apply lt_0_INR; destruct l; [easy | simpl; lia]).
  rewrite spl_is, <- (level_power m), <- Rmult_plus_distr_l. rewrite <- log10_mult by (auto using power_pos).
  rewrite Rmult_comm with (r1 := power m). apply level_le; [now apply powers_pos|].
  rewrite powers_sum. rewrite <- (map_length (fun s => p10 (s / 10)) l). apply sum_le.
  intros x I. apply in_map_iff in I. destruct I as (s & <- & I). apply power_le. now apply B.
Qed.
Theorem C44_order : forall l l', Permutation l l' -> spl_sum l = spl_sum l'.
Proof. intros l l' P. unfold spl_sum. do 2 f_equal. apply sum_perm. now apply Permutation_map. Qed.
(** grouping the sources and combining the groups changes nothing *)
Theorem C44_groups : forall gs, (forall g, In g gs -> g <> []) -> spl_sum (map spl_sum gs) = spl_sum (concat gs).
Proof. intros gs N. rewrite !spl_is. now rewrite powers_concat. Qed.
Theorem C44_equal : forall n s, (0 < n)%nat -> spl_sum (repeat s n) = s + 10 * log10 (INR n).
Proof.
  intros n s N. rewrite spl_is. rewrite <- (level_power s) at 2. rewrite <- Rmult_plus_distr_l.
  rewrite <- log10_mult; [|apply power_pos | now apply lt_0_INR]. do 2 f_equal. clear N.
  induction n as [|n IH]; [simpl; lra|]. rewrite S_INR. simpl. rewrite IH. lra.
Qed.
Theorem C44_monotone : forall a b, a <> [] -> Forall2 Rle a b -> spl_sum a <= spl_sum b.
Proof. intros a b N F. rewrite !spl_is. apply level_le; [now apply powers_pos | now apply powers_le]. Qed.
Theorem C44_shift : forall c l, l <> [] -> spl_sum (map (fun s => s + c) l) = spl_sum l + c.
Proof.
  intros c l N. rewrite !spl_is, powers_shift, log10_mult; [|apply power_pos | now apply powers_pos].
  rewrite <- (level_power c) at 2. lra.
Qed.
(** pressure ratios are already powers *)
Theorem C44_pressures : forall l, l <> [] -> (forall p, In p l -> 0 < p) -> power (pressure_ratio_to_SPL l) = fold_right Rplus 0 l.
Proof. intros l N P. unfold pressure_ratio_to_SPL. apply power_level. now apply sum_pos. Qed.
(** a third-octave band holds what is inside it, and 0 dB when nothing is *)
Theorem C44_bands : forall bands h i b, nth_error bands i = Some b ->
  exists here, nth_error (third_octave bands h) i = Some here /\
    let heard := map snd (filter (fun x => if Rle_dec (fst b) (fst x) then if Rle_dec (fst x) (snd b) then true else false else false) h) in
    match heard with [] => here = 0 | _ => together heard here end.
Proof.
  intros bands h i b E. unfold third_octave.
  eexists. split; [apply map_nth_error; exact E|]. cbv zeta.
  assert (Q : filter (fun x => in_band (fst b) (snd b) (fst x)) h =
    filter (fun x => if Rle_dec (fst b) (fst x) then if Rle_dec (fst x) (snd b) then true else false else false) h).
  { apply filter_ext. intro x. unfold in_band. ltb; destruct (Rle_dec (fst b) (fst x)), (Rle_dec (fst x) (snd b)); simpl; try reflexivity; lra. }
  rewrite Q. match goal with |- context [filter ?f h] => destruct (filter f h) as [|x r] end; [simpl; reflexivity|].
  change (together (map snd (x :: r)) (spl_sum (map snd (x :: r)))). apply spl_together. discriminate.
Qed.
(** when every harmonic is inside exactly one band and no band is empty, the bands together are as loud as the harmonics *)
Theorem C44_bands_total : forall bands h, h <> [] ->
  (forall x, In x h -> one_band bands (fst x)) -> (forall b, In b bands -> exists x, In x h /\ inside b (fst x)) ->
  spl_sum (third_octave bands h) = spl_sum (map snd h).
Proof.
  intros bands h N O F. rewrite !spl_is. do 2 f_equal. rewrite <- (band_powers_all bands h O).
  unfold band_powers, third_octave. clear O. induction bands as [|b bands IH]; [reflexivity|].
  simpl map. change (powers (?x :: ?l)) with (power x + powers l). change (sum (?x :: ?l)) with (x + sum l).
  simpl powers. unfold sum. simpl. f_equal.
  - destruct (F b (or_introl eq_refl)) as (x & I & J). apply in_band_iff in J.
    assert (K : In x (filter (fun x => in_band (fst b) (snd b) (fst x)) h)) by (apply filter_In; auto).
    destruct (filter _ h) as [|y r]; [destruct K|]. apply spl_together. discriminate.
  - apply IH. intros c I. apply F. now right.
Qed.
(** a harmonic on the edge two bands share is counted in both: the total rises by 3 dB *)
Theorem C44_edge_refuted : exists bands h, (forall x, In x h -> exists b, In b bands /\ inside b (fst x)) /\ h <> [] /\
  spl_sum (third_octave bands h) > spl_sum (map snd h) + 3.
Proof.
  exists [(44, 56); (56, 71)], [(56, 80)]. split; [|split; [discriminate|]].
  - intros x [<- | []]. exists (44, 56). split; [now left|]. unfold inside. simpl. lra.
  - unfold third_octave, in_band. simpl. ltb; simpl; try lra.
    change [spl_sum [80]; spl_sum [80]] with (repeat (spl_sum [80]) 2). rewrite C44_equal by lia.
    simpl INR. replace (1 + 1) with 2 by lra. generalize log2_lo. lra.
Qed.
(** air takes level in proportion to the distance, and never adds any *)
Theorem C44_attenuation : forall d i a, nth_error (atmospheric_attenuation d) i = Some a ->
  exists c, 0 < c /\ forall d', nth_error (atmospheric_attenuation d') i = Some (c * d').
Proof.
  intros d i a E. unfold atmospheric_attenuation in *.
  destruct (nth_error att_dB i) as [c|] eqn:C;
    [|apply nth_error_None in C; assert (nth_error (map (fun a => a * d / 1000) att_dB) i = None) by (apply nth_error_None; now rewrite map_length); congruence].
  exists (c / 1000). split.
  - apply nth_error_In in C. assert (0 < c) by (unfold att_dB in C; repeat (destruct C as [<- | C]; [lra|]); destruct C). lra.
  - intro d'. erewrite map_nth_error by exact C. f_equal. field.
Qed.
(** A-weighting moves the whole by at most its largest and smallest band offset *)
Theorem C44_weighted : forall l, (length l = 24)%nat -> spl_sum l - 302 / 10 <= spl_sum (dbA_noise l) <= spl_sum l + 13 / 10.
Proof.
  intros l L. assert (N : l <> []) by (intro; subst; discriminate).
  assert (F : forall w (l : list R), (length l = length w)%nat -> (forall o, In o w -> -302 / 10 <= o <= 13 / 10) ->
    Forall2 Rle (map (fun s => s + -302 / 10) l) (map (fun p => fst p + snd p) (combine l w)) /\
    Forall2 Rle (map (fun p => fst p + snd p) (combine l w)) (map (fun s => s + 13 / 10) l)).
  { induction w as [|o w IH]; intros [|x r] Le B; try discriminate; simpl; [split; constructor|].
    injection Le as Le. destruct (IH r Le (fun o i => B o (or_intror i))). generalize (B o (or_introl eq_refl)). intro.
    split; constructor; auto; lra. }
  destruct (F dbA_attenuation l L) as [A B].
  { intros o I. unfold dbA_attenuation in I. repeat (destruct I as [<- | I]; [lra|]). destruct I. }
  assert (N1 : map (fun s => s + -302 / 10) l <> []) by (destruct l; [easy | discriminate]).
  assert (N2 : map (fun p => fst p + snd p) (combine l dbA_attenuation) <> []).
  { intro Z. apply map_eq_nil in Z. destruct l; [easy|]. discriminate. }
  apply C44_monotone in A; [|exact N1]. apply C44_monotone in B; [|exact N2].
  rewrite C44_shift in A, B by assumption. unfold dbA_noise. lra.
Qed.
Example C44_ex : [70; 80; 60] <> [] /\ one_band [(44, 56); (57, 71)] 50.
Proof.
  split; [discriminate|]. exists [], (44, 56), [(57, 71)]. split; [reflexivity|]. split; [unfold inside; simpl; lra|].
  intros c [[] | [<- | []]]. unfold inside. simpl. lra.
Qed.

(** ** C45: the tone correction *)
(** only the first spectrum of a history is looked at: the others get no correction at all *)
Theorem C45_first : forall s r, exists c, noise_tone_correction (s :: r) = Some (c :: repeat 0 (length r)) /\
  noise_tone_correction [s] = Some [c].
Proof.
  intros s r. exists (tone_correction_max s). split; [|reflexivity]. simpl. do 2 f_equal.
  induction r as [|x r IH]; [reflexivity|]. simpl. now rewrite IH.
Qed.
Theorem C45_bounds : forall S cs, noise_tone_correction S = Some cs -> length cs = length S /\ forall c, In c cs -> 0 <= c <= 20 / 3.
Proof.
  intros [|s r] cs E; [discriminate|]. simpl in E. injection E as <-. split; [simpl; now rewrite map_length|].
  intros c [<- | I].
  - unfold tone_correction_max. assert (I := maxl_in (map (tone_correction s) (seq 0 23)) ltac:(discriminate)).
    apply in_map_iff in I. destruct I as (i & <- & _). apply correction_range.
  - apply in_map_iff in I. destruct I as (_ & <- & _). lra.
Qed.
(** no tone, no correction: a spectrum on a straight line of any slope *)
Theorem C45_straight : forall a d, noise_tone_correction [straight a d] = Some [0].
Proof. intros. simpl. rewrite all_zero_max; [reflexivity|]. intros. now apply straight_none. Qed.
(** one band more than 5 dB above a level background gets the penalty of the regulation *)
Theorem C45_tone : forall a h k, 0 < a -> 5 < h -> h <> 20 -> (3 <= k <= 8 \/ 10 <= k <= 15 \/ 17 <= k <= 19 \/ k = 21)%nat ->
  noise_tone_correction [single_tone a h k] = Some [penalty k h].
Proof.
  intros a h k A H N K. simpl. rewrite tone_max by (auto; lia). rewrite tone_at by (auto; lia).
  do 2 f_equal. unfold penalty, listened. change ((10 <=? k) && (k <? 20))%nat with (between 10 20 k).
  unfold correction_mid, correction_low, Rmin. btw; simpl; try lia; ltb; simpl;
  repeat match goal with |- context [Rle_dec ?a ?b] => destruct (Rle_dec a b) end; lra.
Qed.
(** but bands 9, 16 and 20 are never looked at, and a tone of exactly 20 dB goes unpunished *)
Theorem C45_gap_refuted : forall a h k, 0 < a -> 5 < h -> (k = 9 \/ k = 16 \/ k = 20)%nat \/ (3 <= k < 22)%nat /\ h = 20 ->
  noise_tone_correction [single_tone a h k] = Some [0].
Proof.
  intros a h k A H K. simpl. rewrite tone_max by (auto; lia). rewrite tone_at by (auto; lia).
  do 2 f_equal. unfold listened. destruct K as [[-> | [-> | ->]] | [K ->]]; [reflexivity.. |].
  destruct (_ || _); [|reflexivity]. unfold correction_mid, correction_low. btw; ltb; simpl; lra.
Qed.
(** so a tone in any later spectrum is missed *)
Theorem C45_later_refuted : exists S, (forall s, In s S -> noise_tone_correction [s] = Some [5 / 3] \/ noise_tone_correction [s] = Some [0]) /\
  (exists s, In s S /\ noise_tone_correction [s] = Some [5 / 3]) /\ noise_tone_correction S = Some [0; 0].
Proof.
  exists [straight 60 0; single_tone 60 10 5].
  assert (T : noise_tone_correction [single_tone 60 10 5] = Some [5 / 3]).
  { rewrite C45_tone by (lra || lia). unfold penalty. simpl. rewrite Rmin_left by lra. do 2 f_equal. lra. }
  split; [|split].
  - intros s [<- | [<- | []]]; [right; apply C45_straight | left; exact T].
  - exists (single_tone 60 10 5). split; [right; now left | exact T].
  - generalize (C45_straight 60 0). simpl. intro E. injection E as E. now rewrite E.
Qed.
Example C45_ex : noise_tone_correction [single_tone 60 12 12; straight 50 1] = Some [4; 0].
Proof.
  generalize (C45_tone 60 12 12 ltac:(lra) ltac:(lra) ltac:(lra) ltac:(lia)). simpl. intro E. injection E as E. rewrite E.
  unfold penalty. simpl. rewrite Rmin_left by lra. do 2 f_equal. lra.
Qed.

(** ** C53: perceived noise level, effective perceived noise level and noise exposure *)
(** the perceived level is never below zero, and zero exactly when no counted band is noisy at all *)
Theorem C53_floor : forall S, 0 <= pnl S /\ (pnl S = 0 <-> forall x, In x (noisiness S) -> x = 0).
Proof.
  intro S. unfold pnl. cbv zeta. change (85 / 100 * maxl (noisiness S) + 15 / 100 * sum (noisiness S)) with (effective S).
  assert (L2 : 0 < log10 2) by (generalize log2_lo; lra).
  assert (Z : 40 + 10 / log10 2 * log10 (625 / 10000) = 0).
  { replace (625 / 10000) with (/ 2 ^ 4) by field. rewrite log10_inv, log10_pow by (try apply pow_lt; lra).
    rewrite INR_IZR_INZ. simpl Z.of_nat. field. lra. }
  assert (M : forall x, In x (noisiness S) -> 0 <= x <= maxl (noisiness S)).
  { intros x I. split; [destruct (noisiness_range S x I); lra | now apply maxl_ge]. }
  destruct (effective_range S) as [[-> Mx] | (Mx & Lo & Hi)].
  - destruct (Req_EM_T 0 0); [|lra]. rewrite Z. split; [lra|]. split; [|reflexivity]. intros _ x I. specialize (M x I). lra.
  - destruct (Req_EM_T (effective S) 0); [lra|].
    assert (Pos : 0 < 40 + 10 / log10 2 * log10 (effective S)).
    { rewrite <- Z. apply Rplus_lt_compat_l, Rmult_lt_compat_l; [apply Rdiv_lt_0_compat; lra|]. apply log10_lt; lra. }
    split; [lra|]. split; [lra|]. intro A. specialize (A _ (maxl_in _ (noisiness_nonempty S))). lra.
Qed.
(** it lies between the level of the noisiest band alone and 22 dB more *)
Theorem C53_noisiest : forall S, 0 < maxl (noisiness S) ->
  let alone := 40 + 10 / log10 2 * log10 (maxl (noisiness S)) in alone <= pnl S <= alone + 22.
Proof.
  intros S P. cbv zeta. unfold pnl. cbv zeta. change (85 / 100 * maxl (noisiness S) + 15 / 100 * sum (noisiness S)) with (effective S).
  assert (L2 : 0 < log10 2) by (generalize log2_lo; lra).
  destruct (effective_range S) as [[_ Mx] | (Mx & Lo & Hi)]; [lra|].
  destruct (Req_EM_T (effective S) 0); [lra|]. set (m := maxl (noisiness S)) in *.
  assert (K : 0 < 10 / log10 2) by (apply Rdiv_lt_0_compat; lra). split.
  - apply Rplus_le_compat_l, Rmult_le_compat_l; [lra|]. apply log10_le; lra.
  - assert (A : log10 (effective S) <= log10 (445 / 100) + log10 m) by (rewrite <- log10_mult by lra; apply log10_le; lra).
    assert (B : 10 / log10 2 * log10 (445 / 100) <= 22).
    { assert (Q : log10 ((445 / 100) ^ 5) <= log10 (2 ^ 11)) by (apply log10_le; [apply pow_lt; lra | lra]).
      rewrite !log10_pow in Q by lra. rewrite !INR_IZR_INZ in Q. simpl Z.of_nat in Q.
      apply (Rmult_le_reg_r (log10 2)); [exact L2|]. replace (10 / log10 2 * log10 (445 / 100) * log10 2) with (10 * log10 (445 / 100)) by (field; lra). lra. }
    assert (10 / log10 2 * log10 (effective S) <= 10 / log10 2 * (log10 (445 / 100) + log10 m)) by (apply Rmult_le_compat_l; lra).
    lra.
Qed.
(** the 10 kHz band is never counted *)
Theorem C53_last_band : forall S a b, length S = 23%nat -> pnl (S ++ [a]) = pnl (S ++ [b]).
Proof.
  intros S a b L. unfold pnl, noisiness.
  assert (Q : forall x, firstn 23 (combine noy (S ++ [x])) = combine (firstn 23 noy) S).
  { intro x. rewrite combine_firstn. replace (firstn 23 (S ++ [x])) with S; [reflexivity|].
    rewrite <- L. rewrite firstn_app, firstn_all, Nat.sub_diag. simpl. symmetry. apply app_nil_r. }
  now rewrite !Q.
Qed.
(** between the limit of its row and 85.9 dB an 8 kHz band counts as silent: a louder sound can get a lower perceived level *)
Theorem C53_gap_refuted : exists quiet loud, length quiet = 24%nat /\ Forall2 Rle quiet loud /\ pnl loud = 0 /\ 0 < pnl quiet.
Proof.
  assert (Z : forall r, In r noy -> noys r 0 = 0).
  { intros r I. unfold noy, m6 in I. repeat (destruct I as [<- | I]; [unfold noys, noy_1_2; simpl; ltb; simpl; lra|]). destruct I. }
  assert (F : forall x, noisiness (repeat 0 22 ++ [x; 0]) = repeat 0 22 ++ [noys (nth 22 noy (Noy 0 0 0 0 0 0 0 0 0)) x; 0]).
  { intro x. unfold noisiness.
    assert (Q : forall ys, (forall r, In r ys -> noys r 0 = 0) -> map (fun p => noys (fst p) (snd p)) (combine ys (repeat 0 (length ys))) = repeat 0 (length ys)).
    { induction ys as [|y ys IH]; intro H; [reflexivity|]. simpl. rewrite (H y (or_introl eq_refl)). f_equal. apply IH. intros; apply H; now right. }
    specialize (Q (firstn 22 noy)). change (length (firstn 22 noy)) with 22%nat in Q. rewrite combine_firstn.
    change (firstn 23 noy) with (firstn 22 noy ++ [nth 22 noy (Noy 0 0 0 0 0 0 0 0 0)]).
    change (firstn 23 (repeat 0 22 ++ [x; 0])) with (repeat 0 22 ++ [x]).
    assert (App : forall (a b : list noy_row) (c d : list R), length a = length c -> combine (a ++ b) (c ++ d) = combine a c ++ combine b d).
    { induction a as [|u a IH]; intros b [|v c] d E; try discriminate; [reflexivity|]. simpl. f_equal. apply IH. now injection E. }
    rewrite App by reflexivity. rewrite map_app. rewrite Q.
    - reflexivity.
    - intros r I. apply Z. rewrite <- (firstn_skipn 22 noy). apply in_or_app. now left. }
  exists (repeat 0 22 ++ [40; 0]), (repeat 0 22 ++ [60; 0]). split; [reflexivity|]. split; [|split].
  - apply Forall2_app; [|repeat constructor; lra]. generalize 22%nat. induction n; simpl; constructor; [lra | assumption].
  - apply C53_floor. rewrite F. intros x I. apply in_app_or in I. destruct I as [I | I]; [now apply repeat_spec in I|].
    destruct I as [<- | [<- | []]]; [|reflexivity]. simpl nth. unfold noys, noy_1_2. simpl. ltb; simpl; lra.
  - destruct (C53_floor (repeat 0 22 ++ [40; 0])) as [G E].
    destruct (Req_dec (pnl (repeat 0 22 ++ [40; 0])) 0) as [Z0 | N]; [|lra].
    destruct E as [E _]. specialize (E Z0). rewrite F in E.
    match type of E with context [repeat 0 22 ++ [?v; 0]] => assert (E' : v = 0) by (apply E, in_or_app; right; now left) end.
    clear E. rename E' into E. simpl nth in E. unfold noys, noy_1_2 in E. simpl in E.
    revert E. ltb; simpl; try lra. intro E. match type of E with p10 ?x = 0 => generalize (p10_pos x) end. lra.
Qed.

(** A fly-over that starts and ends more than 10 dB below its peak: the exposure is that of the samples within
    10 dB of the peak, and of the one sample before them *)
Theorem C53_exposure : forall m b x l a, event m (b ++ [x]) l a -> a <> [] ->
  exists s, senel_noise ((b ++ [x]) ++ l ++ a) = Some s /\ together (x :: l) s.
Proof.
  intros m b x l a E N. exists (10 * log10 (powers (x :: l))). split.
  - unfold senel_noise. rewrite (counted_event m) by assumption. rewrite powers_sum. destruct b; reflexivity.
  - unfold together. apply power_level. apply powers_pos. discriminate.
Qed.
Theorem C53_effective : forall m b x l a, event m (b ++ [x]) l a -> a <> [] ->
  exists s, epnl_noise ((b ++ [x]) ++ l ++ a) = Some (s - 13) /\ together (x :: l) s.
Proof.
  intros m b x l a E N. exists (10 * log10 (powers (x :: l))). split.
  - unfold epnl_noise. rewrite (counted_event m) by assumption. rewrite <- powers_sum.
    assert (F : forallb (fun y => if Req_EM_T y 0 then true else false) ((b ++ [x]) ++ l ++ a) = false).
    { apply not_true_is_false. intro T. rewrite forallb_forall in T. destruct E as (B & L & M & A).
      assert (m = 0). { specialize (T m). destruct (Req_EM_T m 0); [assumption|]. discriminate T. apply in_or_app; right; apply in_or_app; now left. }
      assert (x = 0). { specialize (T x). destruct (Req_EM_T x 0); [assumption|]. discriminate T. apply in_or_app; left; apply in_or_app; right; now left. }
      specialize (B x ltac:(apply in_or_app; right; now left)). lra. }
    rewrite F. destruct ((b ++ [x]) ++ l ++ a) eqn:Q; [now destruct b|]. f_equal. lra.
  - unfold together. apply power_level. apply powers_pos. discriminate.
Qed.
(** raising every sample raises the result by the same *)
Theorem C53_shift : forall c l s, senel_noise l = Some s -> senel_noise (map (fun x => x + c) l) = Some (s + c).
Proof.
  intros c l s E. assert (N : l <> []) by (intro; subst; discriminate).
  assert (Q : senel_noise (map (fun x => x + c) l) = Some (spl_sum (counted (map (fun x => x + c) l)))) by (destruct l; [easy | reflexivity]).
  rewrite Q, counted_shift, C44_shift by auto using counted_nonempty.
  replace s with (spl_sum (counted l)); [reflexivity|]. destruct l; [easy|]. now injection E.
Qed.
(** the result is at most 10 log10 of the number of samples, and one, above the peak *)
Theorem C53_most : forall l m s, (forall x, In x l -> x <= m) -> senel_noise l = Some s -> s <= m + 10 * log10 (INR (S (length l))).
Proof.
  intros l m s B E. assert (N : l <> []) by (intro; subst; discriminate).
  replace s with (spl_sum (counted l)) by (destruct l; [easy | now injection E]).
  assert (C := counted_nonempty l N).
  eapply Rle_trans; [apply (C44_most (counted l) m C); intros x I; apply B; now apply counted_in|].
  apply Rplus_le_compat_l, level_le; [apply lt_0_INR; destruct (counted l); [easy | simpl; lia]|]. apply le_INR. now apply counted_length.
Qed.
(** a history that starts loud has its very last sample counted, wherever the event is *)
Theorem C53_wrap_refuted : forall m l a, event m [] l a -> a <> [] -> exists s, senel_noise (l ++ a) = Some s /\ together (last a 0 :: l) s.
Proof.
  intros m l a E N. exists (10 * log10 (powers (last a 0 :: l))). split.
  - unfold senel_noise. rewrite (counted_wraps m) by assumption. rewrite powers_sum.
    destruct (l ++ a) eqn:Q; [apply app_eq_nil in Q; now elim N | reflexivity].
  - unfold together. apply power_level. apply powers_pos. discriminate.
Qed.
(** and one that ends loud never has its last sample counted: the exposure can be 100 dB below the peak *)
Theorem C53_end_refuted : exists l, In 100 l /\ senel_noise l = Some 0.
Proof.
  exists [0; 100]. split; [right; now left|].
  assert (M : maxl [0; 100] = 100) by (apply maxl_is; [right; now left | intros x [<- | [<- | []]]; lra]).
  assert (C : counted [0; 100] = [0]).
  { unfold counted. cbv zeta. rewrite M. simpl. ltb; try lra. reflexivity. }
  unfold senel_noise. rewrite C. simpl. f_equal. unfold Rdiv. rewrite Rmult_0_l, p10_0, Rplus_0_r, log10_1. lra.
Qed.
Example C53_ex : event 90 ([50] ++ [70]) [85; 90; 86] [60; 40].
Proof.
  unfold event. simpl.
  repeat split; intros; repeat match goal with H : _ \/ _ |- _ => destruct H as [<- | H] | H : False |- _ => destruct H end; lra || auto.
Qed.

(** ** C54: where the microphones are *)
(** flying over the microphone: distance and emission angle are those of the triangle *)
Theorem C54_approach : forall h s d t, 0 < h -> s <> 0 -> geometric_approach h s = (d, t) ->
  0 < d /\ d ^ 2 = h ^ 2 + (s - 2000) ^ 2 /\ 0 <= t <= PI /\ d * cos t = s - 2000 /\ d * sin t = h.
Proof. intros h s d t H N E. unfold geometric_approach in E. rewrite nudge_id in E by assumption. now apply overhead_spec. Qed.
Theorem C54_flyover : forall S_0 h s d t, 0 < h -> s <> 0 -> geometric_flyover S_0 h s = (d, t) ->
  0 < d /\ d ^ 2 = h ^ 2 + (s - (6500 - S_0)) ^ 2 /\ 0 <= t <= PI /\ d * cos t = s - (6500 - S_0) /\ d * sin t = h.
Proof. intros S_0 h s d t H N E. unfold geometric_flyover in E. rewrite nudge_id in E by assumption. now apply overhead_spec. Qed.
Theorem C54_sideline : forall x0 h s d t p, 0 < h -> s <> 0 -> geometric_sideline x0 h s = (d, t, p) ->
  0 < d /\ d ^ 2 = h ^ 2 + 450 ^ 2 + (s - x0) ^ 2 /\ 0 <= t <= PI /\ d * cos t = s - x0 /\ 0 < p < PI / 2 /\ h * tan p = 450.
Proof. intros x0 h s d t p H N E. unfold geometric_sideline in E. rewrite nudge_id in E by assumption. apply beside_spec; auto; lra. Qed.
(** without a setting the microphone follows the aircraft: its place on the track is minus the height at each moment *)
Theorem C54_moving_refuted : forall h s d t p, 0 < h -> s <> 0 -> geometric_other h s = (d, t, p) -> d ^ 2 = h ^ 2 + 450 ^ 2 + (s + h) ^ 2.
Proof.
  intros h s d t p H N E. unfold geometric_other in E. rewrite nudge_id in E by assumption.
  destruct (beside_spec 450 h s (- h) d t p H ltac:(lra) E) as (_ & Q & _). rewrite Q. ring.
Qed.
(** a grid of ground microphones: every crossing once, in order, on the ground, spread evenly between the limits *)
Theorem C54_ground : forall ax bx ay by_ nx ny, (2 <= nx)%nat -> (2 <= ny)%nat ->
  length (ground_microphones ax bx ay by_ nx ny) = (nx * ny)%nat /\
  forall i j, (i < nx)%nat -> (j < ny)%nat ->
    nth (i * ny + j) (ground_microphones ax bx ay by_ nx ny) (V3 0 0 0) =
      V3 (ax + (bx - ax) * (INR i / INR (nx - 1))) (ay + (by_ - ay) * (INR j / INR (ny - 1))) 0.
Proof.
  intros ax bx ay by_ nx ny X Y. unfold ground_microphones. split.
  - now rewrite grid_length, !linspace_length.
  - intros i j I J. rewrite <- (linspace_length ay by_ ny) at 1.
    rewrite (grid_nth _ _ _ (fun x y => V3 x y 0) _ _ i j 0 0) by (now rewrite linspace_length).
    now rewrite !linspace_nth by assumption.
Qed.
(** microphones of buildings lie on the walls and the roof of their building, as many as asked for *)
Theorem C54_buildings : forall bs nx ny nz ps, (0 < nz)%nat -> building_microphones bs nx ny nz = Some ps ->
  nx = ny /\ length ps = (length bs * (2 * (nx * nz + ny * nz) + nx * ny))%nat /\
  ((forall b, In b bs -> 0 <= vx (snd b) /\ 0 <= vy (snd b) /\ 0 <= vz (snd b)) ->
   forall p, In p ps -> exists b, In b bs /\ in_box (fst b) (snd b) p /\ on_face (fst b) (snd b) p).
Proof.
  intros bs nx ny nz ps Z E. unfold building_microphones in E. destruct (Nat.eqb_spec (nx * nz) (ny * nz)) as [Q|]; [|discriminate].
  injection E as <-. split; [nia|]. split.
  - clear Q. induction bs as [|b bs IH]; [reflexivity|]. simpl flat_map. rewrite app_length, IH, faces_count. simpl length. lia.
  - intros D p I. apply in_flat_map in I. destruct I as (b & B & I). exists b. split; [exact B|]. destruct (D b B) as (X & Y & H).
    eapply faces_on_box; eassumption.
Qed.
(** the walls cannot be gridded with different numbers of rows in x and y *)
Theorem C54_uneven_refuted : forall bs nx ny nz, nx <> ny -> (0 < nz)%nat -> building_microphones bs nx ny nz = None.
Proof. intros bs nx ny nz N Z. unfold building_microphones. destruct (Nat.eqb_spec (nx * nz) (ny * nz)); [nia | reflexivity]. Qed.
(** the base height of a building is ignored *)
Theorem C54_base_refuted : forall x y z z' d nx ny nz,
  building_microphones [(V3 x y z, d)] nx ny nz = building_microphones [(V3 x y z', d)] nx ny nz.
Proof. reflexivity. Qed.
(** the relative position adds to the microphone's to give the aircraft's (height above ground), and the angles fit it *)
Theorem C54_relative : forall pos mic d th ph, evaluation_location pos mic = (d, th, ph) ->
  vx mic + vx d = vx pos /\ vy mic + vy d = vy pos /\ vz mic + vz d = - vz pos /\
  - (PI / 2) < th < PI / 2 /\ - (PI / 2) < ph < PI / 2 /\
  (vx d <> 0 -> vx d * tan th = vz d) /\ (vy d <> 0 -> vy d * tan ph = vz d).
Proof.
  intros pos mic d th ph E. unfold evaluation_location in E. apply pair_equal_spec in E. destruct E as [E <-].
  apply pair_equal_spec in E. destruct E as [<- <-]. simpl.
  split; [lra|]. split; [lra|]. split; [lra|]. do 2 (split; [match goal with |- _ < atan ?x < _ => generalize (atan_bound x) end; lra|]).
  rewrite !tan_atan. split; intro; field; assumption.
Qed.
Example C54_ex : (building_microphones [(V3 0 0 0, V3 10 20 30)] 2 2 2 <> None) /\ geometric_approach 100 1900 = overhead 100 1900 2000.
Proof. split; [discriminate|]. unfold geometric_approach. rewrite nudge_id by lra. reflexivity. Qed.

(** ** C55: airframe noise *)
Lemma spread : forall x d k, 0 < x -> 0 < d -> 0 < k -> 10 * log10 (x / (k * d) ^ 2) = 10 * log10 (x / d ^ 2) - 20 * log10 k.
Proof.
  intros x d k X D K. assert (0 < d ^ 2) by now apply pow_lt. assert (0 < k ^ 2) by now apply pow_lt.
  replace (x / (k * d) ^ 2) with (x / d ^ 2 * / k ^ 2) by (field; split; lra).
  rewrite log10_mult, log10_inv, log10_pow by (auto; try apply Rinv_0_lt_compat; auto; apply Rdiv_lt_0_compat; auto).
  simpl INR. lra.
Qed.
(** from each source the level falls off with the square of the distance: 20 log10 k for k times as far *)
Theorem C55_wing : forall S b ND (hz : bool) v nu M phi th d f k, 0 < S -> 0 < b -> 0 < d -> 0 < k ->
  (if hz then cos phi else sin phi) <> 0 ->
  clean_wing S b ND hz v nu M phi th (k * d) f = clean_wing S b ND hz v nu M phi th d f - 20 * log10 k.
Proof.
  intros S b ND hz v nu M phi th d f k HS Hb Hd Hk D. unfold clean_wing. destruct (Req_EM_T (if hz then cos phi else sin phi) 0) as [Z|Z]; [contradiction|].
  cbv zeta. rewrite spread; auto; [lra|].
  apply Rmult_lt_0_compat; [|assumption]. apply Rmult_lt_0_compat; [|apply exp_pos].
  apply Rmult_lt_0_compat; [lra|]. now apply Rdiv_lt_0_compat.
Qed.
Theorem C55_flap : forall Sf cf df n v M phi th d f k, 0 < Sf -> sin df <> 0 -> 0 < d -> 0 < k ->
  trailing_edge_flap Sf cf df n v M phi th (k * d) f = trailing_edge_flap Sf cf df n v M phi th d f - 20 * log10 k.
Proof.
  intros Sf cf df n v M phi th d f k HS Hn Hd Hk. unfold trailing_edge_flap. cbv zeta. rewrite spread; auto; [lra|].
  apply Rmult_lt_0_compat; [assumption|]. rewrite <- Rsqr_pow2. now apply Rsqr_pos_lt.
Qed.
Theorem C55_gear : forall D v G1 G2 d k, 0 < D -> 0 < d -> 0 < k ->
  landing_gear D v G1 G2 (k * d) = landing_gear D v G1 G2 d - 20 * log10 k.
Proof.
  intros D v G1 G2 d k HD Hd Hk. unfold landing_gear. replace (D / (k * d)) with (D / d * / k) by (field; lra).
  rewrite log10_mult, log10_inv by (auto; try apply Rinv_0_lt_compat; auto; now apply Rdiv_lt_0_compat). lra.
Qed.
(** the slat is at least 3 dB above the wing in every band, and 6 dB where both peak *)
Theorem C55_slat : forall wing slat i w s l, nth_error wing i = Some w -> nth_error slat i = Some s ->
  nth_error (leading_edge_slat wing slat) i = Some l ->
  w + 3 < l /\ (w = maxl wing -> s = maxl slat -> l = w + 3 + 10 * log10 2).
Proof.
  intros wing slat i w s l W S L. unfold leading_edge_slat in L. cbv zeta in L.
  assert (C : nth_error (combine wing slat) i = Some (w, s)).
  { clear L. revert slat i W S. induction wing as [|x wing IH]; intros [|y slat] [|i] W S; simpl in *; try discriminate; [congruence | now apply IH]. }
  erewrite map_nth_error in L by exact C. simpl fst in L. simpl snd in L. injection L as <-.
  assert (A : forall x, p10 (1 / 10 * x) = power x) by (intro; unfold power, p10; f_equal; field).
  rewrite !A. split.
  - rewrite <- (level_power (w + 3)) at 1. apply level_lt; [apply power_pos|].
    generalize (power_pos (s + (3 + maxl wing - maxl slat))). lra.
  - intros -> ->. replace (maxl slat + (3 + maxl wing - maxl slat)) with (maxl wing + 3) by lra.
    replace (power (maxl wing + 3) + power (maxl wing + 3)) with (power (maxl wing + 3) * 2) by lra.
    rewrite log10_mult by (try apply power_pos; lra). rewrite Rmult_plus_distr_l, level_power. reflexivity.
Qed.
(** the flap's spectrum rises up to a Strouhal number of 2 and falls from there on *)
Theorem C55_flap_peak : forall n t u, n = 1%nat \/ n = 2%nat -> 0 < t < u ->
  (u <= 2 -> flap_G n t < flap_G n u) /\ (2 <= t -> flap_G n u < flap_G n t).
Proof.
  intros n t u N [T U]. assert (L : log10 t < log10 u) by now apply log10_lt. generalize log2_lo log2_hi. intros Lo Hi.
  assert (L20 : log10 20 = log10 2 + 1) by (replace 20 with (2 * 10) by lra; rewrite log10_mult, log10_10; lra).
  unfold flap_G. replace (Nat.eqb n 1 || Nat.eqb n 2) with true by (destruct N as [-> | ->]; reflexivity).
  split; intro B.
  - ltb; try lra. assert (u = 2) by lra. subst u. lra.
  - ltb; try lra.
    + assert (log10 20 <= log10 u) by (apply log10_le; lra). assert (log10 t < log10 20) by (apply log10_lt; lra). lra.
Qed.
(** with three slots it jumps up again at 75 *)
Theorem C55_slots_refuted : exists t, 74 < t < 75 /\ flap_G 3 t + 2 < flap_G 3 75.
Proof.
  exists (149 / 2). split; [lra|]. unfold flap_G. simpl. ltb; try lra.
  (* 102.61 - 2 log 74.5 + 2 < 158.11 - 30 log 75 *)
  assert (A : log10 (149 / 2) > 1).
  { rewrite <- log10_10. apply log10_lt; lra. }
  assert (B : log10 75 < 2).
  { rewrite <- (log10_p10 2). apply log10_lt; [lra|]. replace 2 with (1 + 1) by lra. rewrite p10_plus, p10_1. lra. }
  assert (Q : 8 * log10 75 < 15 + 1 / 8).
  { assert (E : log10 (75 ^ 64) < log10 (10 ^ 121)).
    { apply log10_lt; [apply pow_lt; lra|]. rewrite !pow_IZR. apply IZR_lt. vm_compute. reflexivity. }
    rewrite !log10_pow, log10_10, !INR_IZR_INZ in E by lra. simpl Z.of_nat in E. lra. }
  assert (V : 8 * log10 (149 / 2) > 14 + 7 / 8).
  { assert (E : log10 (10 ^ 119) < log10 ((149 / 2) ^ 64)).
    { apply log10_lt; [apply pow_lt; lra|]. replace ((149 / 2) ^ 64) with (149 ^ 64 / 2 ^ 64) by (unfold Rdiv; rewrite Rpow_mult_distr, pow_inv; reflexivity).
      apply (Rmult_lt_reg_r (2 ^ 64)); [apply pow_lt; lra|]. unfold Rdiv. rewrite Rmult_assoc, Rinv_l by (apply pow_nonzero; lra).
      rewrite Rmult_1_r, !pow_IZR, <- mult_IZR. apply IZR_lt. vm_compute. reflexivity. }
    rewrite !log10_pow, log10_10, !INR_IZR_INZ in E by lra. simpl Z.of_nat in E. lra. }
  lra.
Qed.
(** the airframe is its wing, horizontal tail, slats, flaps and the two gears together *)
Theorem C55_total : forall wing ht vt slat flap main nose, together [wing; ht; slat; flap; main; nose] (airframe_total wing ht vt slat (Some flap) (Some (main, nose)) 1).
Proof.
  intros. unfold airframe_total. simpl.
  assert (A : forall x, p10 (1 / 10 * x) = power x) by (intro; unfold power, p10; f_equal; field).
  rewrite !A. unfold together. simpl. rewrite power_level; [lra|].
  generalize (power_pos wing) (power_pos ht) (power_pos slat) (power_pos flap) (power_pos main) (power_pos nose). lra.
Qed.
(** the vertical tail is worked out, but makes no noise *)
Theorem C55_vertical_refuted : forall wing ht vt vt' slat flap gear n,
  airframe_total wing ht vt slat flap gear n = airframe_total wing ht vt' slat flap gear n.
Proof. reflexivity. Qed.
(** flaps up and gear up count as three sources of 0 dB: the clean airframe never gets below 4.7 dB *)
Theorem C55_silent_refuted : forall wing ht vt slat, 47 / 10 < airframe_total wing ht vt slat None None 1.
Proof.
  intros. unfold airframe_total. simpl.
  assert (A : p10 (1 / 10 * 0) = 1) by (rewrite Rmult_0_r; apply p10_0). rewrite A.
  assert (Q : 47 / 100 < log10 3).
  { assert (E : log10 (10 ^ 47) < log10 (3 ^ 100)).
    { apply log10_lt; [apply pow_lt; lra|]. rewrite !pow_IZR. apply IZR_lt. vm_compute. reflexivity. }
    rewrite !log10_pow, log10_10, !INR_IZR_INZ in E by lra. simpl Z.of_nat in E. lra. }
  match goal with |- _ < 10 * log10 ?x => assert (log10 3 < log10 x) end.
  { apply log10_lt; [lra|]. generalize (p10_pos (1 / 10 * wing)) (p10_pos (1 / 10 * ht)) (p10_pos (1 / 10 * slat)). lra. }
  lra.
Qed.
(** n main gears count for 3 (n - 1) dB more than one: for two that is a combination to within 0.02 dB, for three it is not *)
Theorem C55_units : forall s, Rabs (s + 3 * (INR 2 - 1) - spl_sum (repeat s 2)) < 2 / 100 /\ spl_sum (repeat s 3) + 1 < s + 3 * (INR 3 - 1).
Proof.
  intro s. rewrite !C44_equal by lia. rewrite !INR_IZR_INZ. simpl Z.of_nat. generalize log2_lo log2_hi. intros Lo Hi. split.
  - apply Rabs_def1; lra.
  - assert (E : log10 (3 ^ 2) < log10 10) by (apply log10_lt; [apply pow_lt; lra | lra]).
    rewrite log10_pow, log10_10, INR_IZR_INZ in E by lra. simpl Z.of_nat in E. lra.
Qed.
(** the last moment of a fly-over is left at 0 dB *)
Theorem C55_last_refuted : forall h l, history (h ++ [l]) = h ++ [map (fun _ => 0) l].
Proof. intros. unfold history. rewrite rev_app_distr. simpl. now rewrite rev_involutive. Qed.
Example C55_ex : clean_wing 1000 100 0 true 80 1 (2 / 10) 0 1 (2 * 500) 1000 = clean_wing 1000 100 0 true 80 1 (2 / 10) 0 1 500 1000 - 20 * log10 2.
Proof. apply C55_wing; try lra. rewrite cos_0. lra. Qed.

(** ** C56: certification limits and the simple estimate *)
(** numpy's rounding to one decimal *)
Definition rounds (around : R -> R) : Prop := (forall x y, x <= y -> around x <= around y) /\ forall x, Rabs (around x - x) <= 1 / 20.
Lemma lbs_ratio : forall w c, 0 < w -> 0 < c -> 0 < w / lbs / c.
Proof. intros w c W C. assert (0 < lbs) by (unfold lbs; lra). apply Rdiv_lt_0_compat; [apply Rdiv_lt_0_compat; assumption | assumption]. Qed.
Lemma ln_limit_le : forall w w' c t, 0 < w <= w' -> 0 < c -> 0 <= t -> ln (w / lbs / c) * t / ln 2 <= ln (w' / lbs / c) * t / ln 2.
Proof.
  intros w w' c t [W L] C T. assert (P : 0 < lbs) by (unfold lbs; lra).
  assert (0 < ln 2) by (rewrite <- ln_1; apply ln_increasing; lra).
  apply Rmult_le_compat_r; [left; now apply Rinv_0_lt_compat|]. apply Rmult_le_compat_r; [exact T|].
  destruct L as [L | <-]; [|lra]. left. apply ln_increasing; [now apply lbs_ratio|].
  apply Rmult_lt_compat_r; [now apply Rinv_0_lt_compat|]. apply Rmult_lt_compat_r; [now apply Rinv_0_lt_compat | exact L].
Qed.
(** a heavier aircraft, or one with more engines, is allowed no less *)
Theorem C56_heavier : forall around w w' n n', rounds around -> 0 < w <= w' -> (n <= n')%nat ->
  limit_sideline around w <= limit_sideline around w' /\ limit_approach around w <= limit_approach around w' /\
  limit_flyover around w n <= limit_flyover around w' n'.
Proof.
  intros around w w' n n' [Mo _] W N. unfold limit_sideline, limit_approach, limit_flyover.
  split; [|split]; apply Mo; [apply ln_limit_le; auto; lra.. |].
  set (C := fun n => if (3 <? n)%nat then 896 / 100 * / 10 ^ 3 else if Nat.eqb n 3 then 127 / 100 * / 10 ^ 2 else 213 / 100 * / 10 ^ 2).
  change (ln (w / lbs / C n) * 4 / ln 2 <= ln (w' / lbs / C n') * 4 / ln 2).
  assert (P : forall n, 0 < C n) by (intro k; unfold C; destruct (3 <? k)%nat; [lra|]; destruct (Nat.eqb k 3); lra).
  assert (D : C n' <= C n).
  { unfold C. destruct (Nat.ltb_spec 3 n), (Nat.ltb_spec 3 n'), (Nat.eqb_spec n 3), (Nat.eqb_spec n' 3); try lia; lra. }
  eapply Rle_trans; [apply ln_limit_le; [exact W | apply P | lra]|].
  assert (0 < ln 2) by (rewrite <- ln_1; apply ln_increasing; lra).
  assert (0 < lbs) by (unfold lbs; lra).
  apply Rmult_le_compat_r; [left; now apply Rinv_0_lt_compat|]. apply Rmult_le_compat_r; [lra|].
  destruct D as [D | ->]; [|lra]. left. apply ln_increasing; [apply lbs_ratio; [lra | apply P]|].
  apply Rmult_lt_compat_l; [apply Rdiv_lt_0_compat; lra|]. apply Rinv_lt_contravar; [apply Rmult_lt_0_compat; apply P | exact D].
Qed.
(** twice the weight raises the limits by 2.56, 4 and 2.33, to the rounding *)
Theorem C56_double : forall around w n, rounds around -> 0 < w ->
  Rabs (limit_sideline around (2 * w) - limit_sideline around w - 256 / 100) <= 1 / 10 /\
  Rabs (limit_flyover around (2 * w) n - limit_flyover around w n - 4) <= 1 / 10 /\
  Rabs (limit_approach around (2 * w) - limit_approach around w - 233 / 100) <= 1 / 10.
Proof.
  intros around w n [_ Rd] W.
  assert (L2 : 0 < ln 2) by (rewrite <- ln_1; apply ln_increasing; lra).
  assert (P : 0 < lbs) by (unfold lbs; lra).
  assert (Q : forall c t, 0 < c -> Rabs (around (ln (2 * w / lbs / c) * t / ln 2) - around (ln (w / lbs / c) * t / ln 2) - t) <= 1 / 10).
  { intros c t C. assert (E : ln (2 * w / lbs / c) * t / ln 2 = ln (w / lbs / c) * t / ln 2 + t).
    { replace (2 * w / lbs / c) with (2 * (w / lbs / c)) by (field; lra). rewrite ln_mult; [|lra | now apply lbs_ratio]. field. lra. }
    rewrite E. generalize (Rd (ln (w / lbs / c) * t / ln 2 + t)) (Rd (ln (w / lbs / c) * t / ln 2)). intros A B.
    revert A B. unfold Rabs. repeat destruct (Rcase_abs _); lra. }
  unfold limit_sideline, limit_approach, limit_flyover. split; [apply Q; lra|]. split; apply Q; [|lra].
  destruct (3 <? n)%nat; [lra|]. destruct (Nat.eqb n 3); lra.
Qed.
(** the simple estimate: n times the engines add 10 log10 n at take-off and at the side; the side line is always 2.5 dB
    below take-off; landing combines engines and airframe *)
Theorem C56_shevell : forall wl e k ts tl to sl la to' sl' la', 0 < e -> 0 < k ->
  shevell wl e ts tl = (to, sl, la) -> shevell wl (k * e) ts tl = (to', sl', la') ->
  to' = to + 10 * log10 k /\ sl' = sl + 10 * log10 k /\ to - sl = 5 / 2 /\ 40 + 10 * log10 (wl / lbs) < la /\ (1 < k -> la < la').
Proof.
  intros wl e k ts tl to sl la to' sl' la' He Hk E E'.
  unfold shevell in *. cbv zeta in *. apply pair_equal_spec in E. destruct E as [E <-]. apply pair_equal_spec in E. destruct E as [<- <-].
  apply pair_equal_spec in E'. destruct E' as [E' <-]. apply pair_equal_spec in E'. destruct E' as [<- <-].
  assert (Q : shevell_engine (k * e) ts = shevell_engine e ts + 10 * log10 k).
  { unfold shevell_engine. cbv zeta. replace (p10 (101 / 10) * (k * e)) with (p10 (101 / 10) * e * k) by ring.
    rewrite (log10_mult (p10 (101 / 10) * e) k); [lra | | assumption]. apply Rmult_lt_0_compat; [apply p10_pos | assumption]. }
  rewrite Q. split; [lra|]. split; [lra|]. split; [lra|]. split.
  - set (a := 40 + 10 * log10 (wl / lbs)). replace a with (10 * log10 (p10 (a / 10))) at 1 by (rewrite log10_p10; field).
    apply level_lt; [apply p10_pos|]. match goal with |- _ < _ + p10 ?x => generalize (p10_pos x) end. lra.
  - intro K. assert (0 < log10 k) by (rewrite <- log10_1; apply log10_lt; lra).
    apply level_lt; [generalize (p10_pos ((40 + 10 * log10 (wl / lbs)) / 10)); match goal with |- _ -> _ < _ + p10 ?x => generalize (p10_pos x) end; lra|].
    apply Rplus_lt_compat_l, p10_lt. lra.
Qed.
Example C56_ex : rounds (fun x => x) /\ 0 < 60000 <= 80000.
Proof. split; [|lra]. split; [auto|]. intro x. rewrite Rminus_diag_eq, Rabs_R0; lra. Qed.
Print Assumptions C44_energy.
Print Assumptions C44_unique.
Print Assumptions C44_loudest.
Print Assumptions C44_most.
Print Assumptions C44_order.
Print Assumptions C44_groups.
Print Assumptions C44_equal.
Print Assumptions C44_monotone.
Print Assumptions C44_shift.
Print Assumptions C44_pressures.
Print Assumptions C44_bands.
Print Assumptions C44_bands_total.
Print Assumptions C44_edge_refuted.
Print Assumptions C44_attenuation.
Print Assumptions C44_weighted.
Print Assumptions C45_first.
Print Assumptions C45_bounds.
Print Assumptions C45_straight.
Print Assumptions C45_tone.
Print Assumptions C45_gap_refuted.
Print Assumptions C45_later_refuted.
Print Assumptions C53_floor.
Print Assumptions C53_noisiest.
Print Assumptions C53_last_band.
Print Assumptions C53_gap_refuted.
Print Assumptions C53_exposure.
Print Assumptions C53_effective.
Print Assumptions C53_shift.
Print Assumptions C53_most.
Print Assumptions C53_wrap_refuted.
Print Assumptions C53_end_refuted.
Print Assumptions C54_approach.
Print Assumptions C54_flyover.
Print Assumptions C54_sideline.
Print Assumptions C54_moving_refuted.
Print Assumptions C54_ground.
Print Assumptions C54_buildings.
Print Assumptions C54_uneven_refuted.
Print Assumptions C54_base_refuted.
Print Assumptions C54_relative.
Print Assumptions C55_wing.
Print Assumptions C55_flap.
Print Assumptions C55_gear.
Print Assumptions C55_slat.
Print Assumptions C55_flap_peak.
Print Assumptions C55_slots_refuted.
Print Assumptions C55_total.
Print Assumptions C55_vertical_refuted.
Print Assumptions C55_silent_refuted.
Print Assumptions C55_units.
Print Assumptions C55_last_refuted.
Print Assumptions C56_heavier.
Print Assumptions C56_double.
Print Assumptions C56_shevell.
