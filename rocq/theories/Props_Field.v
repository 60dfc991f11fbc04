(** * C74-C77: maximum lift, field lengths, take-off weight, payload-range *)
From Coq Require Import Reals List Bool Arith String Lia Lra Psatz Permutation.
From Verif Require Import PyBase M_Opt P_Opt M_Noise P_Noise M_Field S_Field P_Deriv P_Friction P_Field P_Field2.
Import ListNotations.
Local Open Scope R_scope.
Local Open Scope list_scope.

(** ** C74: maximum lift coefficient *)
(** the coefficient is the area-weighted sum over the wings marked high-lift; order and other wings do not matter *)
Theorem C74_sum V roc nu sref factor ws :
  max_lift V roc nu sref factor ws =
    (factor * sum_of (fun w => wing_lift V roc nu sref w * w_area w / sref) (filter w_high_lift ws),
     sum_of (fun w => 1 / 100 * w_area w / sref) (filter w_high_lift ws)) /\
  max_lift V roc nu sref factor ws = max_lift V roc nu sref factor (filter w_high_lift ws) /\
  forall ws', Permutation ws ws' -> max_lift V roc nu sref factor ws' = max_lift V roc nu sref factor ws.
Proof.
  assert (K : forall ws, max_lift V roc nu sref factor ws =
    (factor * sum_of (fun w => wing_lift V roc nu sref w * w_area w / sref) (filter w_high_lift ws), sum_of (fun w => 1 / 100 * w_area w / sref) (filter w_high_lift ws))).
  { intro l. unfold max_lift. rewrite max_lift_loop_is. cbn [fst snd]. unfold lifting. f_equal; lra. }
  assert (FF : forall l : list hwing, filter w_high_lift (filter w_high_lift l) = filter w_high_lift l).
  { induction l as [|a l IH]; [reflexivity|]. cbn [filter]. destruct (w_high_lift a) eqn:E; cbn [filter]; [rewrite E; now f_equal | exact IH]. }
  split; [apply K|]. split; [now rewrite !K, FF|]. intros ws' P. rewrite !K.
  assert (PF : forall l m : list hwing, Permutation l m -> Permutation (filter w_high_lift l) (filter w_high_lift m)).
  { induction 1; cbn [filter]; try (destruct (w_high_lift x)); try (destruct (w_high_lift y)); eauto using Permutation. }
  f_equal; [f_equal|]; symmetry; apply sum_perm, PF, P.
Qed.
(** a slat adds nothing when stowed and more the further it is out, up to 36 degrees *)
Theorem C74_slat sweep : sideways sweep -> slat_lift 0 sweep = 0 /\ grows_on (fun a => slat_lift a sweep) 0 (36 * degree).
Proof.
  intro S. pose proof degree_pos as DP. split; [rewrite slat_is; unfold Rdiv; ring|]. intros x y A L B. rewrite !slat_is.
  assert (Y : y <= 63 / 100). { unfold degree in B. pose proof PI_315. lra. }
  pose proof (slat_grows x y A L Y) as G. assert (P : 0 < Rpower (cos sweep) (14 / 10)) by apply exp_pos.
  assert (K : 0 < Rpower (cos sweep) (14 / 10) / degree / 23) by (apply Rdiv_lt_0_compat; [apply Rdiv_lt_0_compat|]; lra).
  replace (x / degree / 23 * Rpower (cos sweep) (14 / 10) * cos x ^ 2) with (Rpower (cos sweep) (14 / 10) / degree / 23 * (x * cos x ^ 2)) by (unfold Rdiv; ring).
  replace (y / degree / 23 * Rpower (cos sweep) (14 / 10) * cos y ^ 2) with (Rpower (cos sweep) (14 / 10) / degree / 23 * (y * cos y ^ 2)) by (unfold Rdiv; ring).
  apply Rmult_lt_compat_l; [exact K | exact G].
Qed.
(** a flap lowered at least half a degree helps; lowering it further helps more, up to 81 degrees; triple beats double beats single *)
Theorem C74_flap tc chord sweep sref affected : 0 <= tc <= 20 -> 0 <= chord -> sideways sweep -> 0 < sref -> 0 < affected ->
  (forall k a, degree / 2 <= a <= 160 * degree -> 0 < flap_lift tc (Some k) chord a sweep sref affected) /\
  (forall k, grows_on (fun a => flap_lift tc (Some k) chord a sweep sref affected) 0 (81 * degree)) /\
  (forall k a, k <> "single_slotted"%string -> k <> "triple_slotted"%string -> degree / 2 <= a <= 160 * degree ->
     flap_lift tc (Some "single_slotted"%string) chord a sweep sref affected < flap_lift tc (Some k) chord a sweep sref affected
     < flap_lift tc (Some "triple_slotted"%string) chord a sweep sref affected) /\
  (forall a, flap_lift tc None chord a sweep sref affected = 0).
Proof.
  intros T C S SR AF. pose proof degree_pos as DP.
  assert (DEG : forall a lo hi, lo * degree <= a <= hi * degree -> lo <= a / degree <= hi).
  { intros a lo hi H. assert (E : a / degree * degree = a) by (field; lra). set (q := a / degree) in *. split; nra. }
  assert (FP : forall a, degree / 2 <= a <= 160 * degree -> 0 < flap_deflection_factor (a / degree)).
  { intros a H. apply deflection_pos. apply DEG. lra. }
  split; [|split; [|split]].
  - intros k a H. rewrite flap_is. apply Rmult_lt_0_compat; [now apply flap_k_pos | now apply FP].
  - intros k x y A L B. rewrite !flap_is. apply Rmult_lt_compat_l; [now apply flap_k_pos|].
    pose proof (DEG x 0 81 ltac:(lra)). pose proof (DEG y 0 81 ltac:(lra)). apply deflection_grows; try lra.
    unfold Rdiv. apply Rmult_lt_compat_r; [now apply Rinv_0_lt_compat | exact L].
  - intros k a N1 N2 H. rewrite !flap_is. specialize (FP a H). pose proof (flap_ref_order tc k T N1 N2) as [O1 O2].
    assert (KK : forall r, flap_k tc r chord sweep sref affected =
      (395 / 10000 * (chord * 100) + 57 / 10000) * ((1 - 8 / 100 * cos sweep ^ 2) * Rpower (cos sweep) (3 / 4)) * affected / sref * flap_ref tc r).
    { intro r. unfold flap_k, Rdiv. ring. }
    rewrite !KK. set (c := (395 / 10000 * (chord * 100) + 57 / 10000) * ((1 - 8 / 100 * cos sweep ^ 2) * Rpower (cos sweep) (3 / 4)) * affected / sref).
    assert (CP : 0 < c).
    { unfold c. apply Rdiv_lt_0_compat; [|assumption]. apply Rmult_lt_0_compat; [|assumption]. apply Rmult_lt_0_compat; [lra | now apply ksw_pos]. }
    split; (apply Rmult_lt_compat_r; [exact FP|]; apply Rmult_lt_compat_l; assumption).
  - intro a. unfold flap_lift, flap_ref. unfold Rdiv. ring.
Qed.
(** "a stowed flap changes nothing" is false: at zero deflection every flap lowers the lift *)
Theorem C74_stowed_flap_refuted tc k chord sweep sref affected : 0 <= tc <= 20 -> 0 <= chord -> sideways sweep -> 0 < sref -> 0 < affected ->
  flap_lift tc (Some k) chord 0 sweep sref affected < 0.
Proof.
  intros. rewrite flap_is. pose proof (flap_k_pos tc k chord sweep sref affected ltac:(assumption) ltac:(assumption) ltac:(assumption) ltac:(assumption) ltac:(assumption)).
  replace (flap_deflection_factor (0 / degree)) with (- (14 / 1000)) by (unfold flap_deflection_factor, Rdiv; ring). nra.
Qed.
(** "an unknown flap type adds nothing" is false: any name, "none" included, counts as double slotted *)
Theorem C74_unknown_flap_refuted tc chord a sweep sref affected k : k <> "single_slotted"%string -> k <> "triple_slotted"%string ->
  flap_lift tc (Some k) chord a sweep sref affected = flap_lift tc (Some "double_slotted"%string) chord a sweep sref affected.
Proof. intros N1 N2. unfold flap_lift, flap_ref. apply String.eqb_neq in N1, N2. rewrite N1, N2. reflexivity. Qed.
(** more speed, more lift, for a wing with high-lift devices in the range of the fits *)
Theorem C74_speed V V' roc nu sref factor ws : 0 < V -> V < V' -> 0 < roc -> 0 < nu -> 0 < sref -> 0 < factor ->
  (exists w, In w ws /\ w_high_lift w = true) ->
  (forall w, In w ws -> w_high_lift w = true ->
     0 < w_area w /\ 0 <= w_tc w <= 20 / 100 /\ 0 < w_chord w /\ 0 <= w_taper w <= 1 /\ 0 <= w_sweep w <= 45 * degree) ->
  fst (max_lift V roc nu sref factor ws) < fst (max_lift V' roc nu sref factor ws).
Proof.
  intros HV L HR HN HS HF (w0 & I0 & H0) A. destruct (C74_sum V roc nu sref factor ws) as [-> _]. destruct (C74_sum V' roc nu sref factor ws) as [-> _].
  cbn [fst]. apply Rmult_lt_compat_l; [assumption|]. pose proof degree_pos as DP.
  assert (ONE : forall w, In w (filter w_high_lift ws) -> wing_lift V roc nu sref w * w_area w / sref < wing_lift V' roc nu sref w * w_area w / sref).
  { intros w Hw. apply filter_In in Hw as [Hw1 Hw2]. destruct (A w Hw1 Hw2) as (P1 & P2 & P3 & P4 & P5).
    unfold Rdiv. apply Rmult_lt_compat_r; [now apply Rinv_0_lt_compat|]. apply Rmult_lt_compat_r; [assumption|]. unfold wing_lift.
    apply Rplus_lt_compat_r, Rplus_lt_compat_r. unfold clean_lift. apply Rplus_lt_compat_r. apply Rmult_lt_compat_l; [lra|].
    apply Rmult_lt_compat_r. { apply planform_pos; [assumption|]. assert (E : w_sweep w / degree * degree = w_sweep w) by (field; lra). set (q := w_sweep w / degree) in *. split; nra. }
    apply Rmult_lt_compat_l; [apply section_pos; lra|]. assert (PP : 0 < roc * w_chord w / nu / 9000000) by (repeat apply Rdiv_lt_0_compat; nra).
    replace (V * roc * w_chord w / nu / 9000000) with (V * (roc * w_chord w / nu / 9000000)) by (unfold Rdiv; ring).
    replace (V' * roc * w_chord w / nu / 9000000) with (V' * (roc * w_chord w / nu / 9000000)) by (unfold Rdiv; ring).
    apply Rpower_less; [nra | nra | lra]. }
  assert (NE : In w0 (filter w_high_lift ws)) by (apply filter_In; auto). revert ONE NE. generalize (filter w_high_lift ws). clear - L.
  assert (LE : forall l, (forall w, In w l -> wing_lift V roc nu sref w * w_area w / sref < wing_lift V' roc nu sref w * w_area w / sref) ->
    sum_of (fun w => wing_lift V roc nu sref w * w_area w / sref) l <= sum_of (fun w => wing_lift V' roc nu sref w * w_area w / sref) l).
  { induction l as [|a l IH]; intro H; cbn [sum_of]; [lra|]. pose proof (H a (or_introl eq_refl)). assert (forall w, In w l -> wing_lift V roc nu sref w * w_area w / sref < wing_lift V' roc nu sref w * w_area w / sref) by (intros; apply H; now right). specialize (IH H1). lra. }
  intros l ONE NE. destruct l as [|a l]; [destruct NE|]. cbn [sum_of]. pose proof (ONE a (or_introl eq_refl)). assert (sum_of (fun w => wing_lift V roc nu sref w * w_area w / sref) l <= sum_of (fun w => wing_lift V' roc nu sref w * w_area w / sref) l) by (apply LE; intros; apply ONE; now right). lra.
Qed.
(** lift times reference area does not depend on the reference area when no wing has flaps *)
Theorem C74_reference V roc nu s s' factor ws : 0 < s -> 0 < s' -> (forall w, In w ws -> w_flap w = None) ->
  s * fst (max_lift V roc nu s factor ws) = s' * fst (max_lift V roc nu s' factor ws).
Proof.
  intros HS HS' NF. destruct (C74_sum V roc nu s factor ws) as [-> _]. destruct (C74_sum V roc nu s' factor ws) as [-> _]. cbn [fst].
  assert (K : forall t, 0 < t -> t * (factor * sum_of (fun w => wing_lift V roc nu t w * w_area w / t) (filter w_high_lift ws)) =
    factor * sum_of (fun w => wing_lift V roc nu 1 w * w_area w) (filter w_high_lift ws)).
  { intros t HT. replace (t * (factor * sum_of (fun w => wing_lift V roc nu t w * w_area w / t) (filter w_high_lift ws))) with (factor * (t * sum_of (fun w => wing_lift V roc nu t w * w_area w / t) (filter w_high_lift ws))) by ring.
    rewrite <- (sum_scale t). f_equal. apply sum_ext. intros w Hw. apply filter_In in Hw as [Hw _]. unfold wing_lift. rewrite (NF w Hw). field. lra. }
  rewrite (K s HS), (K s' HS'). reflexivity.
Qed.
(** with flaps it does: the flap's share of the area is divided by the reference area twice *)
Theorem C74_reference_refuted : exists V roc nu factor w,
  w_area w = 50 /\ 50 * fst (max_lift V roc nu 50 factor [w]) <> 100 * fst (max_lift V roc nu 100 factor [w]).
Proof.
  exists 1, 1, 1, 1, (HWing true 50 (1 / 10) 1 0 (1 / 2) 20 None (Some (Some "double_slotted"%string, 3 / 10, 30 * degree))). split; [reflexivity|].
  destruct (C74_sum 1 1 1 50 1 [HWing true 50 (1 / 10) 1 0 (1 / 2) 20 None (Some (Some "double_slotted"%string, 3 / 10, 30 * degree))]) as [-> _].
  destruct (C74_sum 1 1 1 100 1 [HWing true 50 (1 / 10) 1 0 (1 / 2) 20 None (Some (Some "double_slotted"%string, 3 / 10, 30 * degree))]) as [-> _].
  cbn [fst filter w_high_lift sum_of w_area]. unfold wing_lift. cbn [w_slat w_flap w_tc w_sweep w_affected].
  set (c := clean_lift _ _ _ _). rewrite !flap_is. pose proof degree_pos as DP.
  assert (F : 0 < flap_deflection_factor (30 * degree / degree)) by (apply deflection_pos; replace (30 * degree / degree) with 30 by (field; lra); lra).
  set (fd := flap_deflection_factor (30 * degree / degree)) in *.
  assert (SW : sideways 0) by (unfold sideways; pose proof PI_RGT_0; lra).
  assert (P : 0 < flap_k (1 / 10 * 100) (Some "double_slotted"%string) (3 / 10) 0 1 20) by (apply flap_k_pos; (assumption || lra)).
  assert (H : forall s, 0 < s -> flap_k (1 / 10 * 100) (Some "double_slotted"%string) (3 / 10) 0 s 20 = flap_k (1 / 10 * 100) (Some "double_slotted"%string) (3 / 10) 0 1 20 / s) by (intros; unfold flap_k; field; lra).
  rewrite (H 50), (H 100) by lra. set (fk := flap_k _ _ _ _ _ _) in *. assert (0 < fk * fd) by (apply Rmult_lt_0_compat; assumption). intro E. field_simplify in E. nra.
Qed.
Example C74_case : (* slat at 20 degrees helps more than at 10 *) slat_lift (10 * degree) (degree * 30) < slat_lift (20 * degree) (degree * 30).
Proof.
  pose proof degree_pos. apply (C74_slat (degree * 30)); try lra. unfold sideways, degree. pose proof PI_RGT_0. lra.
Qed.

(** ** C75: field lengths *)
(** at the stall speed the maximum lift carries the weight; heavier means faster *)
Theorem C75_stall g rho sref cl : 0 < g -> 0 < rho -> 0 < sref -> 0 < cl ->
  (forall w, 0 < w -> 0 < stall_speed g rho sref cl w /\ 1 / 2 * rho * stall_speed g rho sref cl w ^ 2 * sref * cl = w * g) /\
  (forall w w', 0 < w -> w < w' -> stall_speed g rho sref cl w < stall_speed g rho sref cl w').
Proof.
  intros. split; [|intros; now apply stall_less]. intros w W. split; [now apply stall_pos'|]. rewrite stall_sq by assumption. field. lra.
Qed.
(** the length is refused exactly when there is no engine *)
Theorem C75_engines f thrust w : (exists l, takeoff_field_length f thrust w = Ok l) <-> exists n, In n (f_engines f) /\ n <> 0%nat.
Proof.
  assert (K : forall l a, fold_left Nat.add l a = 0%nat <-> a = 0%nat /\ forall n, In n l -> n = 0%nat).
  { induction l as [|x l IH]; intro a; cbn [fold_left In]; [split; [intros ->; split; [reflexivity | contradiction] | intros [-> _]; reflexivity]|].
    rewrite IH. split; [intros [A B]; split; [lia|]; intros n [<-|Hn]; [lia | auto] | intros [A B]; split; [rewrite (B x) by auto; lia | auto]]. }
  split.
  - intros [l H]. unfold takeoff_field_length in H. destruct (Nat.eqb_spec (fold_left Nat.add (f_engines f) 0%nat) 0) as [E|E]; [discriminate|].
    destruct (Exists_dec (fun n => n <> 0%nat) (f_engines f)) as [D|D]; [intro n; destruct (Nat.eq_dec n 0); [right|left]; lia | apply Exists_exists in D; exact D|].
    exfalso. apply E. apply K. split; [reflexivity|]. intros n Hn. destruct (Nat.eq_dec n 0) as [|N]; [assumption|]. exfalso. apply D. apply Exists_exists. eauto.
  - intros (n & Hn & N). assert (E : engines f <> 0%nat) by (unfold engines; intro E; apply K in E as [_ E]; specialize (E n Hn); contradiction).
    rewrite length_is by assumption. eauto.
Qed.
(** more weight, a longer field; more thrust, a shorter one; a better maximum lift, a shorter one *)
Theorem C75_takeoff f thrust w w' l l' : usable f -> fading thrust -> growing_constants (takeoff_constants (f_consts f) (fold_left Nat.add (f_engines f) 0%nat)) ->
  0 < w -> w < w' -> takeoff_field_length f thrust w = Ok l -> takeoff_field_length f thrust w' = Ok l' -> l < l'.
Proof.
  intros U T C W L H H'. assert (E : engines f <> 0%nat) by (intro E; unfold takeoff_field_length in H; fold (engines f) in H; rewrite E in H; discriminate).
  rewrite length_is in H, H' by assumption. injection H as <-. injection H' as <-. apply Rmult_lt_compat_r; [apply foot_pos|].
  apply poly_strict; [exact C|]. pose proof (index_pos f thrust w U T W). pose proof (index_less f thrust w w' U T W L). lra.
Qed.
Theorem C75_default_constants n : growing_constants (takeoff_constants None n).
Proof. apply constants_grow. Qed.
Theorem C75_thrust f t t' w l l' : usable f -> growing_constants (takeoff_constants (f_consts f) (fold_left Nat.add (f_engines f) 0%nat)) ->
  0 < w -> (forall v, 0 < t v < t' v) -> takeoff_field_length f t w = Ok l -> takeoff_field_length f t' w = Ok l' -> l' < l.
Proof.
  intros U C W T H H'. assert (E : engines f <> 0%nat) by (intro E; unfold takeoff_field_length in H; fold (engines f) in H; rewrite E in H; discriminate).
  rewrite length_is in H, H' by assumption. injection H as <-. injection H' as <-. apply Rmult_lt_compat_r; [apply foot_pos|].
  apply poly_strict; [exact C|]. unfold index. pose proof (v2_pos f w U W). set (v := v2_speed f w) in *. destruct (T (7 / 10 * v)) as [A B]. set (a := t (7 / 10 * v)) in *. set (b := t' (7 / 10 * v)) in *.
  replace (v ^ 2 / (a / w)) with (v ^ 2 * w * / a) by (field; lra). replace (v ^ 2 / (b / w)) with (v ^ 2 * w * / b) by (field; lra).
  assert (P : 0 < v ^ 2 * w) by (apply Rmult_lt_0_compat; nra). split; [apply Rlt_le, Rmult_lt_0_compat; [assumption | apply Rinv_0_lt_compat; lra]|].
  apply Rmult_lt_compat_l; [assumption|]. apply Rinv_lt_contravar; [nra | assumption].
Qed.
Theorem C75_clmax f clmax' thrust w l l' : usable f -> fading thrust -> growing_constants (takeoff_constants (f_consts f) (fold_left Nat.add (f_engines f) 0%nat)) ->
  0 < w -> f_clmax f < clmax' -> takeoff_field_length f thrust w = Ok l ->
  takeoff_field_length (Field (f_g f) (f_rho f) (f_sref f) clmax' (f_ratio f) (f_engines f) (f_consts f)) thrust w = Ok l' -> l' < l.
Proof.
  intros U [TP TM] C W L H H'. set (f' := Field (f_g f) (f_rho f) (f_sref f) clmax' (f_ratio f) (f_engines f) (f_consts f)) in *.
  assert (U' : usable f') by (destruct U as (A1 & A2 & A3 & A4 & A5 & A6); unfold usable, f'; cbn; refine (conj A1 (conj A2 (conj A3 (conj _ (conj A5 A6))))); lra).
  assert (E : engines f <> 0%nat) by (intro E; unfold takeoff_field_length in H; fold (engines f) in H; rewrite E in H; discriminate).
  rewrite length_is in H by assumption. rewrite (length_is f') in H' by exact E. change (engines f') with (engines f) in H'. change (f_consts f') with (f_consts f) in H'.
  injection H as <-. injection H' as <-. apply Rmult_lt_compat_r; [apply foot_pos|]. apply poly_strict; [exact C|].
  pose proof (v2_pos f w U W) as V. pose proof (v2_pos f' w U' W) as V'.
  assert (VV : v2_speed f' w < v2_speed f w).
  { destruct U as (A1 & A2 & A3 & A4 & A5 & A6). unfold v2_speed. cbn. apply Rmult_lt_compat_l; [assumption|]. unfold stall_speed. apply sqrt_lt_1_alt.
    split; [pose proof (stall_arg (f_g f) (f_rho f) (f_sref f) clmax' w); lra|]. unfold Rdiv. apply Rmult_lt_compat_l; [nra|].
    assert (RS : 0 < f_rho f * f_sref f) by (apply Rmult_lt_0_compat; assumption). apply Rinv_lt_contravar; [apply Rmult_lt_0_compat; apply Rmult_lt_0_compat; lra|]. apply Rmult_lt_compat_l; assumption. }
  split; [apply Rlt_le, index_pos; (assumption || split; assumption)|]. unfold index. set (v := v2_speed f w) in *. set (v' := v2_speed f' w) in *.
  pose proof (TP (7 / 10 * v)). pose proof (TP (7 / 10 * v')). assert (thrust (7 / 10 * v) <= thrust (7 / 10 * v')) by (apply TM; lra).
  set (a := thrust (7 / 10 * v)) in *. set (b := thrust (7 / 10 * v')) in *.
  replace (v ^ 2 / (a / w)) with (v ^ 2 * w * / a) by (field; lra). replace (v' ^ 2 / (b / w)) with (v' ^ 2 * w * / b) by (field; lra).
  apply Rlt_le_trans with (v ^ 2 * w * / b); [apply Rmult_lt_compat_r; [apply Rinv_0_lt_compat; lra|]; apply Rmult_lt_compat_r; nra|].
  apply Rmult_le_compat_l; [apply Rmult_le_pos; nra|]. apply Rinv_le_contravar; lra.
Qed.
(** with the built-in constants two engines need a longer field than three, three than four; one counts as two, more than four as four *)
Theorem C75_count x : 0 <= x ->
  let L n := series (takeoff_constants None n) 0 x 0 in
  L 1%nat = L 2%nat /\ L 3%nat < L 2%nat /\ L 4%nat < L 3%nat /\ forall n, (4 <= n)%nat -> L n = L 4%nat.
Proof.
  intros X L. unfold L. refine (conj eq_refl (conj _ (conj _ _))).
  - rewrite !series_is. cbn [takeoff_constants Nat.eqb poly pow]. nra.
  - rewrite !series_is. cbn [takeoff_constants Nat.eqb poly pow]. nra.
  - intros n N. f_equal. unfold takeoff_constants. destruct (Nat.eqb_spec n 2); [lia|]. destruct (Nat.eqb_spec n 3); [lia|]. destruct (Nat.eqb_spec n 4); [reflexivity|]. destruct (Nat.ltb_spec 4 n); [reflexivity | lia].
Qed.
(** the climb gradient is the excess of thrust over drag, at the take-off safety speed, per unit weight *)
Theorem C75_climb f w t ld asym mill : usable f -> 0 < w -> 0 < ld -> 0 <= asym -> 0 <= mill ->
  let q := 1 / 2 * f_rho f * v2_speed f w ^ 2 in
  let cl := w * f_g f / (q * f_sref f) in
  let drag := q * f_sref f * (cl / ld + asym + mill) in
  second_segment_gradient f w t ld asym mill * (w * f_g f) = t - drag /\ (0 < second_segment_gradient f w t ld asym mill <-> drag < t).
Proof.
  intros U W HL HA HM q cl drag. pose proof U as (G & Rh & Sr & C & Ra & _). pose proof (v2_sq f w U W) as V2.
  set (r := ratio_or (12 / 10) (f_ratio f)) in *.
  assert (QS : q * f_sref f = r ^ 2 * (w * f_g f) / f_clmax f) by (unfold q; rewrite V2; field; lra).
  assert (WG : 0 < w * f_g f) by nra. assert (R2 : 0 < r ^ 2) by nra.
  assert (CL : cl = f_clmax f / r ^ 2) by (unfold cl; rewrite QS; field; repeat split; lra).
  assert (KEY : second_segment_gradient f w t ld asym mill * (w * f_g f) = t - drag).
  { unfold second_segment_gradient, drag. fold r. rewrite <- CL, QS.
    assert (CP : 0 < cl) by (rewrite CL; apply Rdiv_lt_0_compat; assumption).
    assert (CD : 0 < cl / ld + asym + mill) by (assert (0 < cl / ld) by (apply Rdiv_lt_0_compat; assumption); lra).
    set (cd := cl / ld + asym + mill) in *. assert (EE : f_clmax f = cl * r ^ 2) by (rewrite CL; field; lra). rewrite EE. field. repeat split; lra. }
  split; [exact KEY|]. split; intro H; nra.
Qed.
(** the landing length in closed form; gravity does not enter *)
Theorem C75_landing f user w : usable f -> 0 < w ->
  landing_field_length f user w = 250 + 2485 / 1000 * ratio_or (123 / 100) (f_ratio f) ^ 2 * (2 * w / (f_rho f * f_sref f * f_clmax f)).
Proof.
  intros (G & Rh & Sr & C & _ & Ra) W. unfold landing_field_length. rewrite series_is. cbn [landing_constants poly pow].
  pose proof (stall_sq (f_g f) (f_rho f) (f_sref f) (f_clmax f) w G Rh Sr C W) as Q. set (v := stall_speed _ _ _ _ _) in *. set (r := ratio_or _ _) in *.
  replace (0 + 1 * (250 + v * r * (0 + v * r * (2485 / 1000 / f_g f + v * r * 0)))) with (250 + 2485 / 1000 / f_g f * r ^ 2 * v ^ 2) by ring. rewrite Q. field. lra.
Qed.
(** the caller's landing constants are never used *)
Theorem C75_landing_constants_refuted : exists f user w, usable f /\ 0 < w /\ user = [100; 0; 0] /\
  landing_field_length f (Some user) w = landing_field_length f None w /\ landing_field_length f (Some user) w <> 100.
Proof.
  exists (Field 10 1 100 2 None [2%nat] None), [100; 0; 0], 10000.
  assert (U : usable (Field 10 1 100 2 None [2%nat] None)) by (unfold usable; cbn; lra).
  refine (conj U (conj _ (conj eq_refl (conj eq_refl _)))); [lra|]. rewrite C75_landing by (assumption || lra). cbn. lra.
Qed.
Example C75_case : exists l l', takeoff_field_length (Field 10 1 100 2 None [2%nat] None) (fun _ => 200000) 60000 = Ok l /\
  takeoff_field_length (Field 10 1 100 2 None [2%nat] None) (fun _ => 200000) 70000 = Ok l' /\ l < l'.
Proof.
  set (f := Field 10 1 100 2 None [2%nat] None). assert (N : engines f <> 0%nat) by (cbn; lia). do 2 eexists.
  split; [apply length_is, N|]. split; [apply length_is, N|].
  eapply (C75_takeoff f (fun _ => 200000) 60000 70000); [unfold usable; cbn; lra | split; intros; lra | apply C75_default_constants | lra | lra | apply length_is, N | apply length_is, N].
Qed.

(** ** C76: take-off weight for a field length *)
(** [len] is the field length as a function of the weight *)
Theorem C76_range len oew mtow target : oew < 11 / 10 * mtow -> grows_on len oew (11 / 10 * mtow) ->
  oew <= takeoff_weight len oew mtow target <= 11 / 10 * mtow /\
  (len (11 / 10 * mtow) <= target -> takeoff_weight len oew mtow target = 11 / 10 * mtow) /\
  (target <= len oew -> takeoff_weight len oew mtow target = oew).
Proof.
  intros L G. destruct (weight_cases len oew mtow target L G) as (A & B & C).
  assert (X : len oew <= target <= len (11 / 10 * mtow) -> oew <= takeoff_weight len oew mtow target <= 11 / 10 * mtow).
  { intro H. destruct (weight_between len oew mtow target L G H) as (i & Hi & _ & Q & _). pose proof (grid_range oew mtow i L ltac:(lia)). pose proof (grid_range oew mtow (S i) L ltac:(lia)). lra. }
  split; [|split; [exact B|]].
  - destruct (Rlt_le_dec target (len oew)); [rewrite A by assumption; lra|]. destruct (Rlt_le_dec target (len (11 / 10 * mtow))); [apply X; lra | rewrite B by assumption; lra].
  - intro H. destruct (Rle_lt_or_eq_dec _ _ H) as [H'|H']; [now apply A|].
    assert (LT : len oew < len (11 / 10 * mtow)) by (apply G; lra). destruct (C ltac:(lra) ltac:(lra)) as (i & Hi & Q & E). destruct i as [|i].
    + rewrite E, grid_0, H'. unfold Rdiv. ring.
    + exfalso. assert (len oew < len (grid oew mtow (S i))); [|lra]. pose proof (grid_range oew mtow i L ltac:(lia)). pose proof (grid_range oew mtow (S i) L ltac:(lia)).
      apply G; [lra| |lra]. rewrite grid_S. lra.
Qed.
(** the weight sought and the weight returned are never more than one step, a 49th of the span, apart *)
Theorem C76_accuracy len oew mtow target w : oew < 11 / 10 * mtow -> grows_on len oew (11 / 10 * mtow) ->
  oew <= w <= 11 / 10 * mtow -> len w = target -> Rabs (takeoff_weight len oew mtow target - w) <= (11 / 10 * mtow - oew) / 49.
Proof.
  intros L G W E.
  assert (MONO : forall x y, oew <= x -> y <= 11 / 10 * mtow -> len x <= len y -> oew <= y -> x <= 11 / 10 * mtow -> x <= y).
  { intros x y X Y H Y' X'. destruct (Rle_lt_dec x y); [assumption|]. exfalso. pose proof (G y x Y' r X'). lra. }
  assert (H : len oew <= target <= len (11 / 10 * mtow)).
  { rewrite <- E. destruct W as [W1 W2]. split; [destruct (Rle_lt_or_eq_dec _ _ W1) as [Q|Q]; [left; apply G; lra | rewrite Q; lra] | destruct (Rle_lt_or_eq_dec _ _ W2) as [Q|Q]; [left; apply G; lra | rewrite Q; lra]]. }
  destruct (weight_between len oew mtow target L G H) as (i & Hi & B & Q & _).
  pose proof (grid_range oew mtow i L ltac:(lia)). pose proof (grid_range oew mtow (S i) L ltac:(lia)).
  assert (grid oew mtow i <= w) by (apply MONO; lra). assert (w <= grid oew mtow (S i)) by (apply MONO; lra).
  rewrite grid_S in *. apply Rabs_le. lra.
Qed.
(** a longer field never gives a smaller weight *)
Theorem C76_monotone len oew mtow t t' : oew < 11 / 10 * mtow -> grows_on len oew (11 / 10 * mtow) -> t <= t' ->
  takeoff_weight len oew mtow t <= takeoff_weight len oew mtow t'.
Proof.
  intros L G T. pose proof (C76_range len oew mtow t L G) as (R1 & _ & _). pose proof (C76_range len oew mtow t' L G) as (R2 & _ & _).
  destruct (weight_cases len oew mtow t L G) as (A & B & C). destruct (weight_cases len oew mtow t' L G) as (A' & B' & C').
  destruct (Rlt_le_dec t (len oew)) as [X|X]; [rewrite A by assumption; lra|].
  destruct (Rlt_le_dec t' (len (11 / 10 * mtow))) as [Y|Y]; [|rewrite B' by assumption; lra].
  destruct (C X ltac:(lra)) as (i & Hi & Q & E). destruct (C' ltac:(lra) Y) as (j & Hj & Q' & E').
  assert (GI : forall m, (m <= 49)%nat -> oew <= grid oew mtow m <= 11 / 10 * mtow) by (intros; now apply grid_range).
  assert (GM : forall m n, (m < n)%nat -> grid oew mtow m < grid oew mtow n).
  { intros m n H. induction H as [|n H IH]; [|apply Rlt_trans with (grid oew mtow n); [exact IH|]]; rewrite grid_S; lra. }
  destruct (lt_eq_lt_dec i j) as [[IJ| ->]|JI].
  - pose proof (frac _ _ _ Q) as F. pose proof (frac _ _ _ Q') as F'. rewrite E, E'. set (a := (t - _) / _) in *. set (b := (t' - _) / _) in *.
    assert (grid oew mtow (S i) <= grid oew mtow j) by (destruct (Nat.eq_dec (S i) j) as [<-|N]; [lra | left; apply GM; lia]).
    pose proof (GM i (S i) ltac:(lia)). pose proof (GM j (S j) ltac:(lia)). nra.
  - rewrite E, E'. apply Rplus_le_compat_l. pose proof (GM j (S j) ltac:(lia)). apply Rmult_le_compat_r; [lra|]. unfold Rdiv. apply Rmult_le_compat_r; [|lra].
    left. apply Rinv_0_lt_compat. lra.
  - exfalso. assert (len (grid oew mtow (S j)) <= len (grid oew mtow i)); [|lra].
    destruct (Nat.eq_dec (S j) i) as [<-|N]; [lra|]. left. apply G; [apply GI; lia | apply GM; lia | apply GI; lia].
Qed.
(** if the length is convex in the weight, the weight returned does not need a longer field than asked *)
Theorem C76_safe len oew mtow target : oew < 11 / 10 * mtow -> grows_on len oew (11 / 10 * mtow) -> convex_on len oew (11 / 10 * mtow) ->
  len oew <= target -> len (takeoff_weight len oew mtow target) <= target.
Proof.
  intros L G C T. destruct (Rle_lt_dec (len (11 / 10 * mtow)) target) as [H|H].
  - destruct (weight_cases len oew mtow target L G) as (_ & B & _). rewrite B by assumption. exact H.
  - destruct (weight_cases len oew mtow target L G) as (_ & _ & K). destruct (K T H) as (i & Hi & Q & E). rewrite E. pose proof (frac _ _ _ Q) as F.
    eapply Rle_trans; [apply C; [apply grid_range; [assumption | lia] | rewrite grid_S; lra | apply grid_range; [assumption | lia] | lra]|].
    right. field. lra.
Qed.
(** the lengths of C75 are convex when thrust does not depend on speed *)
Theorem C76_convex f t a b : usable f -> engines f <> 0%nat -> 0 < t -> 0 < a ->
  (forall c, In c (takeoff_constants (f_consts f) (fold_left Nat.add (f_engines f) 0%nat)) -> 0 <= c) ->
  exists len, (forall w, takeoff_field_length f (fun _ => t) w = Ok (len w)) /\ convex_on len a b.
Proof.
  intros U N T A C. exists (fun w => poly (takeoff_constants (f_consts f) (engines f)) (index f (fun _ => t) w) * foot). split; [intro; now apply length_is|].
  intros x y s X L Y S. pose proof U as (G & Rh & Sr & Cl & Ra & _). set (r := ratio_or (12 / 10) (f_ratio f)) in *.
  set (k := r ^ 2 * (2 * f_g f / (f_rho f * f_sref f * f_clmax f)) / t).
  assert (K : 0 < k). { unfold k. apply Rdiv_lt_0_compat; [|assumption]. apply Rmult_lt_0_compat; [nra|]. apply Rdiv_lt_0_compat; [lra|]. repeat apply Rmult_lt_0_compat; assumption. }
  assert (I : forall w, 0 < w -> index f (fun _ => t) w = k * w ^ 2) by (intros w W; unfold index; rewrite v2_sq by assumption; fold r; unfold k; field; repeat split; lra).
  set (m := x + s * (y - x)). assert (M : 0 < m) by (unfold m; nra). rewrite !I by lra. set (cs := takeoff_constants _ _) in *.
  pose proof foot_pos. assert (Q : poly cs (k * m ^ 2) <= poly cs (k * x ^ 2) + s * (poly cs (k * y ^ 2) - poly cs (k * x ^ 2))); [|nra].
  assert (X2 : 0 <= k * x ^ 2 <= k * y ^ 2) by (assert (x ^ 2 <= y ^ 2) by nra; assert (0 <= x ^ 2) by nra; nra).
  eapply Rle_trans; [apply (poly_mono cs _ (k * x ^ 2 + s * (k * y ^ 2 - k * x ^ 2))); [exact C|] | apply poly_convex; [exact C | exact X2 | exact S]].
  split; [nra|]. assert (m ^ 2 <= x ^ 2 + s * (y ^ 2 - x ^ 2)); [|nra]. unfold m. assert (0 <= s * (1 - s) * (y - x) ^ 2) by (apply Rmult_le_pos; [nra | apply pow2_ge_0]). nra.
Qed.
(** "the weight returned can take off from the field" is false of a field shorter than the empty aircraft needs *)
Theorem C76_short_refuted : exists len oew mtow target, grows_on len oew (11 / 10 * mtow) /\ oew < mtow /\ target < len (takeoff_weight len oew mtow target).
Proof.
  exists (fun w => w), 10, 20, 5. assert (G : grows_on (fun w => w) 10 (11 / 10 * 20)) by (intros x y _ L _; exact L). split; [exact G|]. split; [lra|].
  destruct (weight_cases (fun w => w) 10 20 5 ltac:(lra) G) as (A & _ & _). rewrite A by lra. lra.
Qed.
(** "the weight returned is allowed" is false: it can exceed the maximum take-off weight, and the search leaves the vehicle at 1.1 times that *)
Theorem C76_over_refuted : (exists len oew mtow target, grows_on len oew (11 / 10 * mtow) /\ oew < mtow /\ mtow < takeoff_weight len oew mtow target) /\
  forall oew mtow, masses_after oew mtow = (11 / 10 * mtow, mtow).
Proof.
  split.
  - exists (fun w => w), 10, 20, 30. assert (G : grows_on (fun w => w) 10 (11 / 10 * 20)) by (intros x y _ L _; exact L). split; [exact G|]. split; [lra|].
    destruct (weight_cases (fun w => w) 10 20 30 ltac:(lra) G) as (_ & B & _). rewrite B by lra. lra.
  - intros. unfold masses_after. f_equal. rewrite <- (grid_49 oew mtow), <- (tried_nth oew mtow 49 0) by lia.
    pose proof (tried_len oew mtow) as TL. set (l := weights_tried oew mtow) in *. clearbody l. clear - TL.
    assert (K : forall (l : list R), l <> [] -> last l 0 = nth (List.length l - 1) l 0).
    { induction l0 as [|x l0 IH]; intro H; [congruence|]. destruct l0 as [|y l0]; [reflexivity|]. change (last (x :: y :: l0) 0) with (last (y :: l0) 0). rewrite IH by discriminate. cbn [List.length]. replace (S (S (List.length l0)) - 1)%nat with (S (S (List.length l0) - 1)) by lia. reflexivity. }
    rewrite K, TL; [reflexivity|]. intros ->. discriminate.
Qed.
Example C76_case : Rabs (takeoff_weight (fun w => w ^ 2) 10 20 225 - 15) <= 12 / 49 /\ takeoff_weight (fun w => w ^ 2) 10 20 225 ^ 2 <= 225.
Proof.
  assert (G : grows_on (fun w => w ^ 2) 10 (11 / 10 * 20)) by (intros x y A L _; nra). split.
  - replace (12 / 49) with ((11 / 10 * 20 - 10) / 49) by field. apply C76_accuracy; [lra | exact G | lra | lra].
  - apply (C76_safe (fun w => w ^ 2)); [lra | exact G | | lra]. intros x y t A L B T. assert (0 <= t * (1 - t) * (y - x) ^ 2) by (apply Rmult_le_pos; [nra | apply pow2_ge_0]). nra.
Qed.

(** ** C77: payload-range *)
(** refused exactly when one of the three masses is zero *)
Theorem C77_refused m ev reserves dist : payload_range m ev reserves dist = None <-> m_empty m = 0 \/ m_zero_fuel m = 0 \/ m_takeoff m = 0.
Proof.
  unfold payload_range, is0. destruct (Req_EM_T (m_empty m) 0); [tauto|]. destruct (Req_EM_T (m_zero_fuel m) 0); [tauto|]. destruct (Req_EM_T (m_takeoff m) 0); [tauto|].
  split; [discriminate | tauto].
Qed.
(** four corners: the first at range zero with the full payload, the last without payload *)
Theorem C77_corners m ev reserves dist cs : payload_range m ev reserves dist = Some cs ->
  exists a b c d, cs = [a; b; c; d] /\ k_range a = 0 /\ k_payload a = k_payload b /\ k_payload d = 0 /\
  (* what is carried: at most the take-off weight, and that at most the maximum *)
  (forall k, In k [b; c; d] -> m_empty m + k_payload k + k_fuel k <= k_weight k <= m_takeoff m) /\
  m_empty m + k_payload c + k_fuel c = k_weight c /\ m_empty m + k_payload d + k_fuel d = k_weight d /\
  (* limits *)
  (k_payload b <= m_zero_fuel m - m_empty m) /\ (m_payload m <> 0 -> k_payload b <= m_payload m) /\
  (forall k, In k [b; c; d] -> m_fuel m <> 0 -> k_fuel k <= m_fuel m) /\ k_fuel c = k_fuel d.
Proof.
  intro H. destruct (corners_ok _ _ _ _ _ H) as (N1 & N2 & N3). destruct (corners_are m ev reserves dist N1 N2 N3) as (x & y & z & E). rewrite E in H. clear E.
  injection H as <-. do 4 eexists. split; [reflexivity|]. cbn [k_range k_payload k_fuel k_weight].
  assert (MF : max_fuel m <= m_takeoff m - m_empty m) by (unfold max_fuel; destruct (is0 (m_fuel m)); [lra | apply Rmin_r]).
  assert (MF' : m_fuel m <> 0 -> max_fuel m <= m_fuel m) by (intro N; unfold max_fuel; rewrite is0_no by assumption; apply Rmin_l).
  pose proof (Rmin_l (m_takeoff m - m_empty m - max_payload m) (max_fuel m)). pose proof (Rmin_r (m_takeoff m - m_empty m - max_payload m) (max_fuel m)).
  repeat split; try lra.
  - destruct H1 as [<-|[<-|[<-|[]]]]; cbn [k_range k_payload k_fuel k_weight]; lra.
  - destruct H1 as [<-|[<-|[<-|[]]]]; cbn [k_range k_payload k_fuel k_weight]; lra.
  - unfold max_payload. destruct (is0 (m_payload m)); [lra | apply Rmin_r].
  - intro N. unfold max_payload. rewrite is0_no by assumption. apply Rmin_l.
  - intros k Hk N. specialize (MF' N). destruct Hk as [<-|[<-|[<-|[]]]]; cbn [k_range k_payload k_fuel k_weight]; lra.
Qed.
(** if the tanks take the fuel left beside the full payload, the second corner is exactly loaded and payload never rises along the line *)
Theorem C77_tanks m ev reserves dist a b c d : payload_range m ev reserves dist = Some [a; b; c; d] ->
  (m_empty m + k_payload b + k_fuel b = k_weight b <-> m_takeoff m - m_empty m - k_payload a <= k_fuel c) /\
  (k_payload c <= k_payload b <-> m_takeoff m - m_empty m - k_payload a <= k_fuel c) /\
  (k_fuel b <= k_fuel c) /\ (k_payload c >= 0).
Proof.
  intro H. destruct (corners_ok _ _ _ _ _ H) as (N1 & N2 & N3). destruct (corners_are m ev reserves dist N1 N2 N3) as (x & y & z & E). rewrite E in H. clear E.
  injection H as <- <- <- <-. cbn [k_range k_payload k_fuel k_weight].
  assert (MF : max_fuel m <= m_takeoff m - m_empty m) by (unfold max_fuel; destruct (is0 (m_fuel m)); [lra | apply Rmin_r]).
  pose proof (Rmin_r (m_takeoff m - m_empty m - max_payload m) (max_fuel m)).
  refine (conj _ (conj _ (conj _ _))); try lra; unfold Rmin in *; destruct (Rle_dec _ _); split; lra.
Qed.
(** "payload never exceeds the maximum" is false: with small tanks the third corner carries more than the zero-fuel weight allows, and the second is not fully loaded *)
Theorem C77_tanks_refuted : exists m, forall ev reserves dist, exists a b c d, payload_range m ev reserves dist = Some [a; b; c; d] /\
  m_zero_fuel m - m_empty m < k_payload c /\ m_empty m + k_payload b + k_fuel b < k_weight b.
Proof.
  exists (Masses 40 60 100 0 10). intros. destruct (corners_are (Masses 40 60 100 0 10) ev reserves dist) as (x & y & z & E0); [cbn; lra | cbn; lra | cbn; lra|].
  do 4 eexists. split; [exact E0|]. cbn [k_payload k_fuel k_weight m_empty m_zero_fuel m_takeoff].
  assert (E : max_payload (Masses 40 60 100 0 10) = 20) by (unfold max_payload; cbn [m_empty m_zero_fuel m_takeoff m_payload m_fuel]; replace (is0 0) with true by (symmetry; now apply is0_iff); lra).
  assert (F : max_fuel (Masses 40 60 100 0 10) = 10) by (unfold max_fuel; cbn [m_empty m_zero_fuel m_takeoff m_payload m_fuel]; rewrite is0_no by lra; apply Rmin_left; lra).
  rewrite E, F. pose proof (Rmin_r (100 - 40 - 20) 10). lra.
Qed.
(** how a range is found: the cruise distance kept is the one last flown, and the search ends within one kilogram, or after ten corrections *)
Theorem C77_search ev tow fuel reserves dist : exists d e,
  refine ev tow fuel reserves 10 9999 dist (ev tow dist) = (d, ev tow d, e) /\ e = tow - o_final (ev tow d) - fuel + reserves /\
  one_point ev reserves dist (tow, fuel) = (d, o_range (ev tow d)).
Proof.
  destruct (refine ev tow fuel reserves 10 9999 dist (ev tow dist)) as [[d o] e] eqn:E.
  destruct (refine_ends _ _ _ _ _ _ _ _ _ _ _ (or_introl eq_refl) eq_refl E) as (A & _ & C). specialize (C ltac:(lia) eq_refl). subst o.
  exists d, e. split; [reflexivity|]. split; [exact C|]. unfold one_point. rewrite E. reflexivity.
Qed.
(** if each correction shrinks the fuel error by a factor, the final error is below one kilogram or below the factor to the ninth times the error after the first correction *)
Theorem C77_converges ev tow fuel reserves dist th : 0 <= th <= 1 ->
  let error d := tow - o_final (ev tow d) - fuel + reserves in
  let next d := o_dist (ev tow d) + o_dist (ev tow d) / o_fuel (ev tow d) * (fuel - (tow - o_final (ev tow d)) - reserves) in
  (forall d, Rabs (error (next d)) <= th * Rabs (error d)) ->
  let d := fst (one_point ev reserves dist (tow, fuel)) in Rabs (error d) <= 1 \/ Rabs (error d) <= th ^ 10 * Rabs (error dist).
Proof.
  intros T error next C d. destruct (C77_search ev tow fuel reserves dist) as (d' & e & E & EE & O). unfold d. rewrite O. cbn [fst]. unfold error at 1 2. rewrite <- EE.
  rewrite refine_first in E.
  destruct (refine_contracts ev tow fuel reserves th T C 9 _ _ _ _ _ eq_refl E) as [A|A]; [now left|]. right. eapply Rle_trans; [exact A|].
  replace (th ^ 10) with (th ^ 9 * th) by (simpl; ring). rewrite Rmult_assoc. apply Rmult_le_compat_l; [apply pow_le; lra | apply C].
Qed.
(** if fuel burnt is a constant plus a rate times the cruise distance, the first correction is exact *)
Theorem C77_linear ev tow fuel reserves dist a b : b <> 0 -> dist <> 0 ->
  (forall d, tow - o_final (ev tow d) = a + b * d /\ o_dist (ev tow d) = d /\ o_fuel (ev tow d) = b * d) ->
  fst (one_point ev reserves dist (tow, fuel)) = (fuel - reserves - a) / b.
Proof.
  intros B D L. unfold one_point.
  rewrite refine_first. unfold step at 3. unfold step at 2. unfold step at 1. destruct (L dist) as (L1 & L2 & L3). rewrite L1, L2, L3.
  replace (dist + dist / (b * dist) * (fuel - (a + b * dist) - reserves)) with ((fuel - reserves - a) / b) by (field; split; assumption).
  set (d := (fuel - reserves - a) / b). rewrite refine_stop; [reflexivity|]. unfold miss. destruct (L d) as (M1 & _ & _). rewrite M1.
  replace (a + b * d - fuel + reserves) with 0 by (unfold d; field; assumption). rewrite Rabs_R0. lra.
Qed.
(** "a result stays what it was" is false: all calls return the same object, so a later call changes earlier results *)
Theorem C77_shared_refuted : exists c1 c2, c1 <> c2 /\ read_after [Some c1] 0 = Some c1 /\ read_after [Some c1; Some c2] 0 = Some c2.
Proof. exists [], [Corner 1 1 1 1]. split; [discriminate|]. split; reflexivity. Qed.
(** the electric version: refused exactly when a mass is zero, else full payload at the maximum weight and no payload at the empty weight *)
Theorem C77_electric m ev :
  (electric_payload_range m ev = None <-> m_empty m = 0 \/ m_payload m = 0 \/ m_takeoff m = 0) /\
  (forall l, electric_payload_range m ev = Some l ->
     l = [(0, m_payload m, 0); (ev (m_takeoff m), m_payload m, m_takeoff m); (ev (m_empty m), 0, m_empty m)]).
Proof.
  unfold electric_payload_range, is0. destruct (Req_EM_T (m_empty m) 0); [split; [tauto | discriminate]|]. destruct (Req_EM_T (m_payload m) 0); [split; [tauto | discriminate]|].
  destruct (Req_EM_T (m_takeoff m) 0); [split; [tauto | discriminate]|]. split; [split; [discriminate | tauto]|]. intros l H. congruence.
Qed.
Example C77_case : (* burn 5 + 0.01 kg per metre of cruise; 45 kg of fuel, 5 in reserve: 3500 m *)
  fst (one_point (fun tow d => Flown (tow - (5 + 1 / 100 * d)) d (1 / 100 * d) d) 5 1000 (100, 45)) = 3500.
Proof. rewrite (C77_linear _ 100 45 5 1000 5 (1 / 100)); [lra | lra | lra|]. intro d. cbn. repeat split; ring. Qed.

Print Assumptions C74_sum.
Print Assumptions C74_slat.
Print Assumptions C74_flap.
Print Assumptions C74_stowed_flap_refuted.
Print Assumptions C74_unknown_flap_refuted.
Print Assumptions C74_speed.
Print Assumptions C74_reference.
Print Assumptions C74_reference_refuted.
Print Assumptions C75_stall.
Print Assumptions C75_engines.
Print Assumptions C75_takeoff.
Print Assumptions C75_default_constants.
Print Assumptions C75_thrust.
Print Assumptions C75_clmax.
Print Assumptions C75_count.
Print Assumptions C75_climb.
Print Assumptions C75_landing.
Print Assumptions C75_landing_constants_refuted.
Print Assumptions C76_range.
Print Assumptions C76_accuracy.
Print Assumptions C76_monotone.
Print Assumptions C76_safe.
Print Assumptions C76_convex.
Print Assumptions C76_short_refuted.
Print Assumptions C76_over_refuted.
Print Assumptions C77_refused.
Print Assumptions C77_corners.
Print Assumptions C77_tanks.
Print Assumptions C77_tanks_refuted.
Print Assumptions C77_search.
Print Assumptions C77_converges.
Print Assumptions C77_linear.
Print Assumptions C77_shared_refuted.
Print Assumptions C77_electric.
