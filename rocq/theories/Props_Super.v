(** * Supersonic drag: C134-C136 *)
From Coq Require Import Reals List Bool Arith String Lra Lia Psatz.
From Verif Require Import PyBase M_Opt M_Util M_Drag M_Super S_Super P_Opt P_Form P_Super Props_Util.
Import ListNotations.
Local Open Scope R_scope.
Local Open Scope list_scope.

(** ** C134 volume wave drag *)
Lemma drag_div_rise S M w cl : drag_div S M w cl = rise_of S M w cl.
Proof. unfold drag_div, rise_of, drag_rise. destruct (z_high w); [rewrite cos_0|]; unfold Rdiv; ring. Qed.
Lemma total_rises v cls M : divergence_total v cls M = rises (v_area v) M (v_all v) cls.
Proof.
  unfold divergence_total. revert cls. generalize (v_all v). induction l as [|w ws IH]; intros [|c cs]; try reflexivity.
  rewrite divergence_cons. cbn [rises]. rewrite drag_div_rise. f_equal. apply IH.
Qed.
Lemma out_nth s v l out : compressibility_total s v l = Ok out -> exists wave, wave_volume s v = Ok wave /\
  forall j i, nth_error l j = Some i -> exists c, nth_error (lift_wave_drag v l) j = Some c /\
    let vol := volume_drag s v wave (i_cl i) (i_M i) in let lift := c * (1 - blend (r_peak s) (r_high s) (i_M i)) in nth_error out j = Some (vol + lift, vol, lift).
Proof.
  unfold compressibility_total. destruct (wave_volume s v) as [wave|]; [|discriminate]. cbn [bind]. intro E. injection E as <-. exists wave. split; [reflexivity|].
  assert (LL : List.length (lift_wave_drag v l) = List.length l).
  { unfold lift_wave_drag. rewrite map_length. generalize (map (wave_drag_lift v) l). induction l as [|i l IH]; intro f; [reflexivity|]. cbn [spread]. destruct (supersonic i); cbn [List.length]; rewrite IH; reflexivity. }
  revert LL. generalize (lift_wave_drag v l). induction l as [|i0 l IH]; intros [|c0 cs] LL j i J; try discriminate LL; [destruct j; discriminate J|]. destruct j as [|j].
  - injection J as ->. exists c0. split; reflexivity.
  - cbn [nth_error] in *. cbn [map2 nth_error]. apply IH; [|exact J]. cbn in LL. lia.
Qed.
(** each condition's coefficient is its volume part plus its lift part; up to the beginning of the drag rise the volume part is the sum of the wings' drag rises, from its end on it is the wave drag, and at the peak it is the multiplier times the wave drag at the beginning; the other conditions have no part in it *)
Theorem C134_ends s v l out : ordered s -> compressibility_total s v l = Ok out ->
  List.length out = List.length l /\
  exists wave, wave_volume s v = Ok wave /\ forall j i, nth_error l j = Some i ->
  exists vol lift, nth_error out j = Some (vol + lift, vol, lift) /\
    (i_M i <= r_low s -> vol = rises (v_area v) (i_M i) (v_all v) (i_cl i)) /\ (i_M i = r_peak s -> vol = r_factor s * wave (r_low s)) /\ (r_high s <= i_M i -> vol = wave (i_M i)) /\
    (i_M i <= r_peak s -> lift = 0).
Proof.
  intros [L H] E. destruct (out_nth _ _ _ _ E) as (wave & W & F). split.
  { unfold compressibility_total in E. rewrite W in E. cbn [bind] in E. injection E as <-. assert (LL : List.length (lift_wave_drag v l) = List.length l).
    { unfold lift_wave_drag. rewrite map_length. generalize (map (wave_drag_lift v) l). clear. induction l as [|i l IH]; intro f; [reflexivity|]. cbn [spread]. destruct (supersonic i); cbn [List.length]; rewrite IH; reflexivity. }
    revert LL. generalize (lift_wave_drag v l). clear. induction l as [|i l IH]; intros [|c cs] LL; try discriminate LL; [reflexivity|]. cbn [map2 List.length] in *. rewrite IH; lia. }
  exists wave. split; [exact W|]. intros j i J. destruct (F j i J) as (c & _ & N). eexists _, _. split; [exact N|]. split; [|split; [|split]].
  - intro B. rewrite volume_low by assumption. apply total_rises.
  - intros ->. rewrite volume_peak by assumption. ring.
  - intro B. apply volume_high; assumption.
  - intro B. rewrite (proj1 (C39_ends (r_peak s) (r_high s) (i_M i) H)) by exact B. ring.
Qed.
Definition v1 (le : R) : body := {| v_wing := {| z_high := true; z_main := true; z_tc := 3 / 100; z_sweep := 1; z_area := 300 |}; v_span := 26; v_chordwise := 28; v_ar := 2; v_le := le; v_length := 60; v_section := 10; v_area := 300;
  v_all := [{| z_high := true; z_main := true; z_tc := 3 / 100; z_sweep := 1; z_area := 300 |}; {| z_high := false; z_main := false; z_tc := 3 / 100; z_sweep := 0; z_area := 30 |}] |}.
Definition s1 (w : wave) : rules := {| r_low := 95 / 100; r_high := 13 / 10; r_peak := 105 / 100; r_factor := 125 / 100; r_scaling := 32 / 10; r_wave := w; r_fixed := true |}.
Example C134_case : ordered (s1 Raymer) /\ exists out, compressibility_total (s1 Raymer) (v1 60) [{| i_M := 2; i_CL := 1 / 10; i_cl := [1 / 10; 0] |}; {| i_M := 8 / 10; i_CL := 1 / 10; i_cl := [1 / 10; 0] |}] = Ok out.
Proof. split; [unfold ordered; cbn; lra|]. eexists. reflexivity. Qed.
(** it is continuous in the Mach number, for either form of wave drag *)
Theorem C134_continuous s v wave cls M : ordered s -> wave_volume s v = Ok wave -> continuity_pt (volume_drag s v wave cls) M.
Proof.
  intros [L H] W. apply cont_volume; try assumption. revert W. unfold wave_volume. destruct (r_wave s); destruct (r_fixed s); try discriminate; [destruct (Nat.ltb 1 (mains v)); [discriminate|]|]; intro E; injection E as <-; [apply cont_raymer|apply cont_const].
Qed.
(** in between it is a mean of the drag rise or wave drag there, of the value at the peak and of the value at the beginning *)
Theorem C134_mean s v wave cls M : ordered s -> exists x y z, 0 <= x /\ 0 <= y /\ 0 <= z /\ x + y + z = 1 /\
  volume_drag s v wave cls M = x * (if Rltb M (r_peak s) then rises (v_area v) M (v_all v) cls else wave M) + y * (r_factor s * wave (r_low s)) + z * (if Rltb M (r_peak s) then rises (v_area v) (r_low s) (v_all v) cls else wave (r_low s)).
Proof.
  intros [L H]. destruct (volume_mixed s v wave cls L H M) as (x & y & z & X & Y & Z & T & E). exists x, y, z. repeat split; try assumption. rewrite E, !total_rises. rewrite (Rmult_comm (wave (r_low s))). reflexivity.
Qed.
(** Raymer's form: constant up to Mach 1.2, never rising from Mach 1.3 on when the leading edge is swept at most 81 degrees, and then not negative up to Mach 6.2; Sears-Haack's is 4/3 of the constant *)
Theorem C134_raymer v k : 0 <= k -> 0 < v_area v ->
  (forall M, M <= 12 / 10 -> raymer v k M = k * bluntness v) /\
  (0 <= v_le v <= 81 -> (forall M M', 13 / 10 <= M -> M <= M' -> raymer v k M' <= raymer v k M) /\ (forall M, M <= 62 / 10 -> 0 <= raymer v k M <= k * bluntness v)).
Proof.
  intros K A. assert (AR : 0 <= area_rule v) by (unfold area_rule; rewrite Rmult_assoc; pose proof PI_RGT_0; apply Rmult_le_pos; [lra|apply Rle_0_sqr]).
  assert (BA : area_rule v / v_area v = bluntness v) by (unfold area_rule, bluntness, Rdiv; ring).
  assert (IA : 0 < / v_area v) by (apply Rinv_0_lt_compat, A). split.
  - intros M B. rewrite raymer_eq, (proj1 (C39_ends (12 / 10) (13 / 10) M ltac:(lra))) by exact B. rewrite <- BA. unfold Rdiv. ring.
  - intro LE. pose proof (sweep_factor (v_le v) LE) as SF. split.
    + intros M M' B B'. rewrite !raymer_eq. rewrite !(proj2 (C39_ends (12 / 10) (13 / 10) _ ltac:(lra))) by lra. unfold Rdiv. apply Rmult_le_compat_r; [lra|]. assert (raymer_factor v M' <= raymer_factor v M).
      { unfold raymer_factor. pose proof (pw_mono (M - 12 / 10) (M' - 12 / 10) (57 / 100) ltac:(lra) ltac:(lra)). set (f := 1 - PI * pw (v_le v) (77 / 100) / 100) in *. nra. }
      assert (k * raymer_factor v M' * area_rule v <= k * raymer_factor v M * area_rule v) by (apply Rmult_le_compat_r; [exact AR|apply Rmult_le_compat_l; assumption]). lra.
    + intros M B. rewrite raymer_eq. assert (F : 0 <= raymer_factor v M <= 1).
      { unfold raymer_factor. pose proof (pw_small (M - 12 / 10) (57 / 100) ltac:(lra) ltac:(lra)). pose proof (pw_nonneg (M - 12 / 10) (57 / 100)). set (f := 1 - PI * pw (v_le v) (77 / 100) / 100) in *. set (q := pw (M - 12 / 10) (57 / 100)) in *. assert (0 <= q * f <= 5 * 1) by (split; [apply Rmult_le_pos|apply Rmult_le_compat]; lra). lra. }
      pose proof (C39_range (12 / 10) (13 / 10) M) as H. set (h := blend (12 / 10) (13 / 10) M) in *. rewrite <- BA. set (f := raymer_factor v M) in *.
      replace ((k * area_rule v * h + k * f * area_rule v * (1 - h)) / v_area v) with ((k * (area_rule v / v_area v)) * (h + f * (1 - h))) by (unfold Rdiv; ring).
      assert (P : 0 <= k * (area_rule v / v_area v)) by (apply Rmult_le_pos; [exact K|apply Rmult_le_pos; lra]). assert (Q : 0 <= h + f * (1 - h) <= 1) by nra. split; [apply Rmult_le_pos; lra|]. rewrite <- (Rmult_1_r (k * (area_rule v / v_area v))) at 2. apply Rmult_le_compat_l; lra.
Qed.
Theorem C134_sears_haack v k : 0 < v_section v -> sears_haack v k = 4 / 3 * (k * bluntness v).
Proof.
  intro A. unfold sears_haack, bluntness. assert (S : sqrt (v_section v / PI) * sqrt (v_section v / PI) = v_section v / PI) by (pose proof PI_RGT_0; apply sqrt_sqrt, Rlt_le, Rdiv_lt_0_compat; lra).
  pose proof PI_RGT_0. revert S. generalize (sqrt (v_section v / PI)). intros r S. replace (v_section v / PI) with (v_section v * / PI) in S by reflexivity. unfold Rdiv. generalize (/ v_length v) (/ v_area v). intros iL iS.
  replace (3 * / 2 * PI * PI * (r * 2 * iL) * (r * 2 * iL) * v_section v * iS * k) with (6 * (PI * (PI * (r * r))) * iL * iL * v_section v * iS * k) by field.
  rewrite S. replace (PI * (v_section v * / PI)) with (v_section v) by (field; lra). field.
Qed.
(** nothing is negative *)
Theorem C134_nonneg s v wave cls M : ordered s -> wave_volume s v = Ok wave -> 0 < v_area v -> 0 < v_section v -> Forall sound_wing (v_all v) -> 0 <= r_factor s -> 0 <= r_scaling s -> 0 <= v_le v <= 81 -> r_low s <= 62 / 10 -> M <= 62 / 10 ->
  0 <= volume_drag s v wave cls M.
Proof.
  intros O W A SE F RF RS LE LO HM. assert (WN : forall M, M <= 62 / 10 -> 0 <= wave M).
  { revert W. unfold wave_volume. destruct (r_wave s); destruct (r_fixed s); try discriminate; [destruct (Nat.ltb 1 (mains v)); [discriminate|]|]; intro E; injection E as <-; intros m B.
    - apply (C134_raymer v (r_scaling s) RS A); assumption.
    - rewrite C134_sears_haack by exact SE. assert (0 <= bluntness v) by (unfold bluntness; pose proof PI_RGT_0; apply Rmult_le_pos; [apply Rmult_le_pos; [lra|apply pow2_ge_0]|left; apply Rinv_0_lt_compat, A]). assert (0 <= r_scaling s * bluntness v) by (apply Rmult_le_pos; assumption). lra. }
  assert (DN : forall m, 0 <= rises (v_area v) m (v_all v) cls) by (intro m; rewrite <- total_rises; apply divergence_nonneg; [exact A|eapply Forall_impl; [|exact F]; intros w [X Y]; split; [exact X|intros _; exact Y]]).
  destruct (C134_mean s v wave cls M O) as (x & y & z & X & Y & Z & _ & E). rewrite E. pose proof (WN (r_low s) LO). pose proof (WN M HM). pose proof (DN M). pose proof (DN (r_low s)). assert (0 <= r_factor s * wave (r_low s)) by (apply Rmult_le_pos; assumption).
  assert (0 <= y * (r_factor s * wave (r_low s))) by (apply Rmult_le_pos; assumption).
  destruct (Rltb M (r_peak s)); apply Rplus_le_le_0_compat; try (apply Rplus_le_le_0_compat); try (apply Rmult_le_pos; assumption); assumption.
Qed.
Example C134_nonneg_case : exists w, wave_volume (s1 Sears_Haack) (v1 60) = Ok w /\ 0 < v_area (v1 60) /\ 0 < v_section (v1 60) /\ Forall sound_wing (v_all (v1 60)).
Proof.
  eexists. split; [reflexivity|]. cbn. pose proof PI_RGT_0. pose proof PI2_1. repeat split; try lra. apply Forall_cons; [|apply Forall_cons; [|apply Forall_nil]]; unfold sound_wing; cbn; (split; [lra|]); [left; apply cos_gt_0; lra|rewrite cos_0; lra].
Qed.
(** other names of the form, areas not fixed, and with Raymer's form several main wings, are refused *)
Theorem C134_refused s v l : (exists out, compressibility_total s v l = Ok out) <-> (r_fixed s = true /\ (r_wave s = Sears_Haack \/ (r_wave s = Raymer /\ (mains v <= 1)%nat))).
Proof.
  unfold compressibility_total, wave_volume. destruct (r_wave s); destruct (r_fixed s); cbn [bind].
  1: destruct (Nat.ltb 1 (mains v)) eqn:N; cbn [bind]; [apply Nat.ltb_lt in N|apply Nat.ltb_ge in N].
  all: split; [intros [out E]; try discriminate E|intros [F [G|[G G']]]; try discriminate F; try discriminate G; try lia; eexists; reflexivity].
  - split; [reflexivity|]. right. split; [reflexivity|exact N].
  - split; [reflexivity|]. left. reflexivity.
Qed.
(** the peak is not the multiplier times the wave drag at the end of the drag rise, which is what the setting promises *)
Theorem C134_peak_refuted : exists s v wave cls, ordered s /\ wave_volume s v = Ok wave /\ 0 < v_area v /\ 0 < v_section v /\ volume_drag s v wave cls (r_peak s) > r_factor s * wave (r_high s).
Proof.
  exists (s1 Raymer), (v1 0), (raymer (v1 0) (32 / 10)), [1 / 10; 0]. split; [unfold ordered; cbn; lra|]. split; [reflexivity|]. split; [cbn; lra|]. split; [cbn; lra|].
  rewrite volume_peak by (cbn; lra). cbn [r_low r_factor r_high s1]. rewrite !raymer_eq. rewrite (proj1 (C39_ends (12 / 10) (13 / 10) (95 / 100) ltac:(lra))) by lra. rewrite (proj2 (C39_ends (12 / 10) (13 / 10) (13 / 10) ltac:(lra))) by lra.
  unfold raymer_factor, area_rule. cbn [v_le v_section v_length v_area v1]. rewrite (pw_0 0) by lra. rewrite (pw_pos (13 / 10 - 12 / 10)) by lra. assert (0 < Rpower (13 / 10 - 12 / 10) (57 / 100)) by apply exp_pos. pose proof PI_RGT_0. set (q := Rpower _ _) in *. nra.
Qed.

(** ** C135 wave drag due to lift *)
Lemma wl_formula v i : sound_body v -> wave_drag_lift v i * z_area (v_wing v) / v_area v = lift_drag v i.
Proof.
  intros (S & C & A & V & Z & W). unfold lift_drag. destruct (supersonic i) eqn:E.
  - rewrite lift_formula by assumption. unfold supersonic in E. apply negb_true_iff in E. rewrite E. fold (slender v). fold (fullness v). fold (cone v (i_M i)). unfold Rdiv. ring.
  - rewrite slow_none by exact E. unfold supersonic in E. apply negb_false_iff in E. rewrite E. unfold Rdiv. ring.
Qed.
(** when the conditions below Mach 1.01 come last, each condition's lift part is that of its own Mach number and lift coefficient, faded in between the peak and the end of the drag rise *)
Theorem C135_own s v a b out : sound_body v -> compressibility_total s v (a ++ b) = Ok out -> Forall (fun i => 101 / 100 <= i_M i) a -> Forall (fun i => i_M i < 101 / 100) b ->
  forall j i, nth_error (a ++ b) j = Some i -> exists vol, nth_error out j = Some (vol + lift_drag v i * (1 - blend (r_peak s) (r_high s) (i_M i)), vol, lift_drag v i * (1 - blend (r_peak s) (r_high s) (i_M i))).
Proof.
  intros SB E A B j i J. destruct (out_nth _ _ _ _ E) as (wave & W & F). destruct (F j i J) as (c & N & O). assert (c = lift_drag v i).
  { unfold lift_wave_drag in N. rewrite map_app in N. rewrite spread_pointwise in N.
    - rewrite map_map in N. rewrite (map_ext _ (lift_drag v)) in N by (intro; apply wl_formula, SB). rewrite (map_nth_error _ _ _ J) in N. injection N as <-. reflexivity.
    - eapply Forall_impl; [|exact A]. intros k K. unfold supersonic. apply negb_true_iff, Rltb_false, K.
    - eapply Forall_impl; [|exact B]. intros k K. unfold supersonic. apply negb_false_iff, Rltb_true, K.
    - apply slow_none. }
  subst c. eexists. exact O.
Qed.
Example C135_case : sound_body (v1 60) /\ Forall (fun i => 101 / 100 <= i_M i) [{| i_M := 2; i_CL := 1 / 10; i_cl := [1 / 10; 0] |}] /\ Forall (fun i => i_M i < 101 / 100) [{| i_M := 8 / 10; i_CL := 1 / 10; i_cl := [1 / 10; 0] |}].
Proof. unfold sound_body. cbn. split; [repeat split; lra|split; repeat constructor; cbn; lra]. Qed.
(** in general a condition at Mach 1.01 or more gets the value of an earlier one: the k-th of these gets that of the k-th of all conditions *)
Theorem C135_places v l j i : sound_body v -> nth_error l j = Some i ->
  nth_error (lift_wave_drag v l) j = Some (if Rltb (i_M i) (101 / 100) then 0 else
    nth (List.length (filter (fun k => negb (Rltb (i_M k) (101 / 100))) (firstn j l))) (map (lift_drag v) l) 0).
Proof.
  intros SB J. unfold lift_wave_drag. erewrite map_nth_error by (apply spread_nth, J). f_equal. change (fun k => negb (Rltb (i_M k) (101 / 100))) with supersonic. unfold supersonic at 1. destruct (Rltb (i_M i) (101 / 100)); cbn [negb]; [unfold Rdiv; ring|].
  rewrite <- (map_ext (fun k => wave_drag_lift v k * z_area (v_wing v) / v_area v) _ (fun k => wl_formula v k SB)). rewrite <- (map_map (wave_drag_lift v) (fun c => c * z_area (v_wing v) / v_area v)).
  rewrite <- (map_nth (fun c => c * z_area (v_wing v) / v_area v)). f_equal. unfold Rdiv. ring.
Qed.
Definition at_mach (M : R) : instant := {| i_M := M; i_CL := 1 / 10; i_cl := [] |}.
Lemma at_two : 0 < lift_drag (v1 60) (at_mach 2).
Proof.
  unfold lift_drag. cbn [i_M i_CL at_mach]. rewrite (proj2 (Rltb_false 2 (101 / 100))) by lra. unfold cone, fullness, slender. cbn [v_span v_chordwise v_ar v_wing z_area v_area v1].
  assert (S3 : 17 / 10 <= sqrt (2 ^ 2 - 1) <= 174 / 100) by (split; [rewrite <- (sqrt_Rsqr (17 / 10)) by lra|rewrite <- (sqrt_Rsqr (174 / 100)) by lra]; apply sqrt_le_1_alt; unfold Rsqr; lra).
  set (r := sqrt (2 ^ 2 - 1)) in *. set (x := r * (26 / 2 / 28)). assert (X : 7 / 10 <= x <= 81 / 100) by (unfold x; lra). assert (0 < fw x).
  { unfold fw. rewrite (proj2 (Rltb_true (178 / 1000) x)) by lra. assert (49 / 100 <= x ^ 2 <= 6561 / 10000) by nra. assert (x ^ 3 <= 81 / 100 * x ^ 2) by nra. assert (0 <= x ^ 4) by (apply pow_le; lra). assert (x ^ 5 <= x ^ 4) by (replace (x ^ 5) with (x * x ^ 4) by ring; nra). nra. }
  pose proof PI_RGT_0. repeat (lra || apply Rmult_lt_0_compat || apply Rinv_0_lt_compat || apply pow_lt).
Qed.
(** so a flight that accelerates through Mach 1 is given no drag due to lift at Mach 2, although flown alone, or first, that condition has some *)
Theorem C135_order_refuted : exists v i k, sound_body v /\ lift_wave_drag v [i] = [lift_drag v i] /\ 0 < lift_drag v i /\ lift_wave_drag v [k; i] = [0; 0] /\ lift_wave_drag v [i; k] = [lift_drag v i; 0].
Proof.
  assert (SB : sound_body (v1 60)) by (unfold sound_body; cbn; repeat split; lra). exists (v1 60), (at_mach 2), (at_mach (8 / 10)). split; [exact SB|].
  assert (S2 : supersonic (at_mach 2) = true) by (unfold supersonic; apply negb_true_iff, Rltb_false; cbn; lra). assert (S8 : supersonic (at_mach (8 / 10)) = false) by (unfold supersonic; apply negb_false_iff, Rltb_true; cbn; lra).
  unfold lift_wave_drag. cbn [map spread]. rewrite S2, S8. cbn [hd tl map spread]. rewrite (wl_formula _ _ SB), (slow_none _ _ S8).
  split; [reflexivity|]. split; [apply at_two|]. split; repeat f_equal; unfold Rdiv; ring.
Qed.
(** not negative while the Mach cone parameter is at most 0.178 or between 0.19 and 2.9 *)
Theorem C135_nonneg v i : sound_body v -> cone v (i_M i) <= 178 / 1000 \/ 19 / 100 <= cone v (i_M i) <= 29 / 10 -> 0 <= lift_drag v i.
Proof.
  intros (S & C & A & V & Z & _) X. unfold lift_drag. destruct (Rltb _ _); [lra|]. pose proof (fw_nonneg _ X). assert (0 < slender v) by (unfold slender; apply Rdiv_lt_0_compat; lra). assert (0 < fullness v) by (unfold fullness; apply Rdiv_lt_0_compat; lra). pose proof PI_RGT_0. pose proof (pow2_ge_0 (i_CL i)).
  apply Rmult_le_pos; [|apply Rmult_le_pos; [exact Z|left; apply Rinv_0_lt_compat, V]]. apply Rmult_le_pos; [|left; apply Rinv_0_lt_compat; apply Rmult_lt_0_compat; lra]. apply Rmult_le_pos; [|assumption]. apply Rmult_le_pos; lra.
Qed.
(** it does not grow with the lift coefficient's sign, and grows with its square *)
Theorem C135_square v i k : i_M i = i_M k -> lift_drag v i * i_CL k ^ 2 = lift_drag v k * i_CL i ^ 2.
Proof. intro E. unfold lift_drag. rewrite E. destruct (Rltb _ _); [ring|]. unfold Rdiv. ring. Qed.
(** outside those ranges it is negative: lift is then credited with thrust *)
Theorem C135_negative_refuted : fw (18 / 100) < 0 /\ fw 3 < 0 /\ (forall v i, sound_body v -> 101 / 100 <= i_M i -> i_CL i <> 0 -> 0 < z_area (v_wing v) -> fw (cone v (i_M i)) < 0 -> lift_drag v i < 0).
Proof.
  split; [unfold fw; rewrite (proj2 (Rltb_true _ _)) by lra; lra|]. split; [unfold fw; rewrite (proj2 (Rltb_true _ _)) by lra; lra|].
  intros v i (S & C & A & V & _ & _) M N Z F. unfold lift_drag. rewrite (proj2 (Rltb_false _ _)) by exact M. assert (0 < slender v) by (unfold slender; apply Rdiv_lt_0_compat; lra). assert (0 < fullness v) by (unfold fullness; apply Rdiv_lt_0_compat; lra). pose proof PI_RGT_0. assert (0 < i_CL i ^ 2) by nra.
  assert (0 < i_CL i ^ 2 * (1 + fullness v) * (- fw (cone v (i_M i))) / (2 * PI * slender v) * (z_area (v_wing v) / v_area v)); [|replace (i_CL i ^ 2 * (1 + fullness v) * - fw (cone v (i_M i)) / (2 * PI * slender v) * (z_area (v_wing v) / v_area v)) with (- (i_CL i ^ 2 * (1 + fullness v) * fw (cone v (i_M i)) / (2 * PI * slender v) * (z_area (v_wing v) / v_area v))) in * by (unfold Rdiv; ring); lra].
  repeat (lra || apply Rmult_lt_0_compat || apply Rinv_0_lt_compat).
Qed.

(** ** C136 fuselages, nacelles, base drag *)
Definition diam (f : fuselage) : R := fu_diam f / fu_len f.
(** up to the beginning of the blend (below Mach 0.95) a fuselage has the drag of the subsonic analysis; from the end of the blend on its form factor does not depend on the Mach number *)
Theorem C136_fuselage C low high fl f t b : low < high -> t_fus_ff t = C ->
  (fl_M fl <= low -> fl_M fl < 95 / 100 -> e_cd (super_fuselage C low high fl f) = snd (parasite_drag_fuselage t fl f b)) /\
  (high <= fl_M fl -> forall M, 95 / 100 <= M -> e_ff (super_fuselage C low high fl f) = fuselage_form_factor C (diam f) M) /\
  e_cd (super_fuselage C low high fl f) * fu_front f = (if Req_EM_T (fu_front f) 0 then 0 else e_ff (super_fuselage C low high fl f) * e_cf (super_fuselage C low high fl f) * fu_wet f).
Proof.
  intros L <-. split; [|split].
  - intros B B'. unfold super_fuselage, parasite_drag_fuselage, fuselage_form_factor. cbn [e_cd snd]. rewrite blended_eq by exact L. rewrite (proj2 (Rltb_true _ high)) by lra. rewrite (proj1 (C39_ends low high _ L)) by lra. unfold speed_up. rewrite (proj2 (Rltb_true _ (95 / 100))) by exact B'. replace (1 - 1) with 0 by ring. rewrite Rmult_1_r, Rmult_0_r, Rplus_0_r. unfold slow_speed_up. reflexivity.
  - intros B M HM. unfold super_fuselage, fuselage_form_factor. cbn [e_ff]. rewrite blended_eq by exact L. rewrite (proj2 (Rltb_false _ high)) by lra. unfold speed_up. rewrite (proj2 (Rltb_false _ (95 / 100))) by exact HM. reflexivity.
  - unfold super_fuselage. cbn [e_cd e_ff e_cf]. destruct (Req_EM_T (fu_front f) 0) as [->|N]; [ring|]. field. exact N.
Qed.
(** the form factor is above 1, continuous in the Mach number and greater for a stouter fuselage *)
Theorem C136_form C low high T re f : 0 < C -> low < high < 1 -> 0 < diam f < 1 ->
  (forall M, 0 <= M -> 1 < e_ff (super_fuselage C low high (Flow M T re) f)) /\
  (forall M, 0 <= M -> continuity_pt (fun M => e_ff (super_fuselage C low high (Flow M T re) f)) M) /\
  (forall M f', 0 <= M -> diam f < diam f' < 1 -> e_ff (super_fuselage C low high (Flow M T re) f) < e_ff (super_fuselage C low high (Flow M T re) f')).
Proof.
  intros HC [L H] HD. unfold super_fuselage. cbn [e_ff fl_M]. fold (diam f). assert (P : forall M d, 0 <= M -> 0 < d < 1 -> 0 < blended_speed_up low high d M).
  { intros M d HM Hd. rewrite blended_eq by exact L. pose proof (fast_pos d Hd) as FP. destruct (Rltb M high) eqn:E; [|exact FP]. apply Rltb_true in E. pose proof (slow_pos d M Hd ltac:(lra)). pose proof (C39_range low high M). set (h := blend low high M) in *. destruct (Rle_lt_dec h (1 / 2)); nra. }
  split; [|split].
  - intros M HM. pose proof (P M (diam f) HM HD). assert (0 < C * blended_speed_up low high (diam f) M) by (apply Rmult_lt_0_compat; lra). nra.
  - intros M HM. apply cont_pow. apply (continuity_pt_plus (fun _ => 1)); [apply cont_const|]. apply (continuity_pt_mult (fun _ => C) (blended_speed_up low high (diam f))); [apply cont_const|apply blended_cont; assumption].
  - intros M f' HM HD'. fold (diam f'). pose proof (P M (diam f) HM HD). assert (blended_speed_up low high (diam f) M < blended_speed_up low high (diam f') M).
    { rewrite !blended_eq by exact L. assert (FG : fast_speed_up (diam f) < fast_speed_up (diam f')) by (rewrite !fast_eq by lra; apply gain_grows; nra). destruct (Rltb M high) eqn:E; [|exact FG]. apply Rltb_true in E.
      pose proof (slow_grows (diam f) (diam f') M ltac:(lra) ltac:(lra) ltac:(lra) ltac:(lra)). pose proof (C39_range low high M). set (h := blend low high M) in *. destruct (Rle_lt_dec h (1 / 2)); nra. }
    assert (C * blended_speed_up low high (diam f) M < C * blended_speed_up low high (diam f') M) by (apply Rmult_lt_compat_l; assumption). assert (0 < C * blended_speed_up low high (diam f) M) by (apply Rmult_lt_0_compat; lra). nra.
Qed.
Example C136_case : 0 < 23 / 10 /\ 9 / 10 < 94 / 100 < 1 /\ 0 < diam (Fuselage "body" 10 400 60 3) < 1.
Proof. unfold diam. cbn. lra. Qed.
Lemma blend_falls a c x y : a < c -> x <= y -> blend a c y <= blend a c x.
Proof.
  intros L B. pose proof (C39_range a c x). pose proof (C39_range a c y). destruct (Rle_lt_dec x a) as [X|X]; [rewrite (proj1 (C39_ends a c x L)) by exact X; lra|]. destruct (Rle_lt_dec c y) as [Y|Y]; [rewrite (proj2 (C39_ends a c y L)) by exact Y; lra|].
  destruct (Req_dec x y) as [->|N]; [lra|]. left. apply C39_falls; lra.
Qed.
(** a nacelle's form factor is the subsonic one up to the beginning of the drag rise, 1 from its end on, and falls continuously from one to the other *)
Theorem C136_nacelle s T re n b : r_low s < r_high s -> 0 < na_len n -> 0 < na_diam n ->
  let k M := e_ff (super_nacelle s (Flow M T re) n) in let full := 1 + 35 / 100 / (na_len n / na_diam n) in
  (forall M, M <= r_low s -> k M = full /\ e_cd (super_nacelle s (Flow M T re) n) = snd (parasite_drag_nacelle (Flow M T re) n b)) /\
  (forall M, r_high s <= M -> k M = 1) /\ (forall M, 1 <= k M <= full) /\ (forall M M', M <= M' -> k M' <= k M) /\ (forall M, continuity_pt k M).
Proof.
  intros L HL HD k full. assert (FP : 1 < full) by (unfold full; assert (0 < 35 / 100 / (na_len n / na_diam n)) by (repeat apply Rdiv_lt_0_compat; lra); lra).
  assert (K : forall M, k M = full * blend (r_low s) (r_high s) M + 1 * (1 - blend (r_low s) (r_high s) M)) by reflexivity. split; [|split; [|split; [|split]]].
  - intros M B. assert (KM : k M = full) by (rewrite K, (proj1 (C39_ends _ _ M L)) by exact B; ring). split; [exact KM|]. unfold k, super_nacelle in KM. cbn [e_ff fl_M] in KM. unfold super_nacelle, parasite_drag_nacelle. cbn [e_cd snd fl_M fl_T fl_re]. rewrite KM. reflexivity.
  - intros M B. rewrite K, (proj2 (C39_ends _ _ M L)) by exact B. ring.
  - intro M. rewrite K. pose proof (C39_range (r_low s) (r_high s) M). set (h := blend _ _ M) in *. nra.
  - intros M M' B. rewrite !K. pose proof (blend_falls (r_low s) (r_high s) M M' L B). nra.
  - intro M. apply (continuity_pt_ext (fun M => full * blend (r_low s) (r_high s) M + 1 * (1 - blend (r_low s) (r_high s) M))); [intro; symmetry; apply K|]. clear K. clearbody full. cnt; exact L.
Qed.
(** miscellaneous drag: a base area per nacelle, however often it is placed, and one upsweep, whether or not there is a fuselage *)
Theorem C136_misc area l : 0 < area -> super_misc area l * area = 6 / 1000 + PI / 120 * fold_right (fun n t => na_diam n + t) 0 l.
Proof.
  intro A. unfold super_misc. assert (G : forall l a, fold_left (fun t n => t + 5 / 10 / 12 * PI * na_diam n * (2 / 10) / area) l a = a + PI / 120 * fold_right (fun n t => na_diam n + t) 0 l / area).
  { induction l0 as [|n r IH]; intro a; cbn [fold_left fold_right]; [field; lra|]. rewrite IH. field. lra. }
  rewrite G. field. lra.
Qed.
Theorem C136_misc_order area l l' : Permutation.Permutation l l' -> super_misc area l = super_misc area l'.
Proof.
  intro P. unfold super_misc. f_equal. f_equal. f_equal. generalize 0 as a. induction P; intro a; cbn [fold_left]; [reflexivity|apply IHP| |rewrite IHP1; apply IHP2]. f_equal. ring.
Qed.
Theorem C136_origins_refuted : exists n n', na_origins n = 1%nat /\ na_origins n' = 4%nat /\ forall area, super_misc area [n] = super_misc area [n'].
Proof. exists (Nacelle "n" 2 5 30 1), (Nacelle "n" 2 5 30 4). repeat split. Qed.
Print Assumptions C134_ends.
Print Assumptions C134_continuous.
Print Assumptions C134_mean.
Print Assumptions C134_raymer.
Print Assumptions C134_sears_haack.
Print Assumptions C134_nonneg.
Print Assumptions C134_refused.
Print Assumptions C134_peak_refuted.
Print Assumptions C135_own.
Print Assumptions C135_places.
Print Assumptions C135_order_refuted.
Print Assumptions C135_nonneg.
Print Assumptions C135_square.
Print Assumptions C135_negative_refuted.
Print Assumptions C136_fuselage.
Print Assumptions C136_form.
Print Assumptions C136_nacelle.
Print Assumptions C136_misc.
Print Assumptions C136_misc_order.
Print Assumptions C136_origins_refuted.
