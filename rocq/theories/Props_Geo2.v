(** * Properties of airfoils, wing boxes, fuselages, origins, tails and nacelles *)
From Coq Require Import Reals List Arith ZArith Bool Lia Lra.
From Verif Require Import PyBase M_Opt P_Opt M_Drag P_Super M_Noise P_Noise M_Wing M_Geo2 S_Geo2 P_Geo2.
Import ListNotations.
Local Open Scope R_scope.

(** ** C167 the four-digit airfoils *)
Theorem C167_outline d0 d1 d2 d3 rest n te :
  digit d1 -> (d0 = 0%Z \/ d1 <> 0%Z) -> (3 <= n)%nat -> (match te with Some e => 0 < e | None => True end) ->
  let m := IZR d0 / 100 in let p := IZR d1 / 10 in let t := IZR d2 / 10 + IZR d3 / 100 in
  exists f k, naca (d0 :: d1 :: d2 :: d3 :: rest) n te = Ok f /\ length (fo_x f) = n /\ length (fo_y f) = n /\
    (0 < k < n - 1)%nat /\ down_then_up (fo_x f) k /\ nth 0 (fo_x f) 0 = 1 /\ nth k (fo_x f) 0 = 0 /\ nth (n - 1) (fo_x f) 0 = 1 /\
    (forall i, (i <= k)%nat -> nth i (fo_y f) 0 = mean_line m p (nth i (fo_x f) 0) - family t (nth i (fo_x f) 0)) /\
    (forall i, (k < i < n)%nat -> nth i (fo_y f) 0 = mean_line m p (nth i (fo_x f) 0) + family t (nth i (fo_x f) 0)) /\
    fo_max f = t /\ fo_tc f = t /\ fo_camber f = m /\
    k = (length (fo_xl f) - 1)%nat /\ length (fo_xu f) = (n - k)%nat /\ length (fo_yu f) = length (fo_xu f) /\ length (fo_yl f) = length (fo_xl f) /\
    (forall i, (i <= k)%nat -> nth i (fo_xl f) 0 = nth (k - i) (fo_x f) 0 /\ nth i (fo_yl f) 0 = nth (k - i) (fo_y f) 0) /\
    (forall i, (k + i < n)%nat -> nth i (fo_xu f) 0 = nth (k + i) (fo_x f) 0 /\ nth i (fo_yu f) 0 = nth (k + i) (fo_y f) 0).
Proof. exact (naca_out d0 d1 d2 d3 rest n te). Qed.
(** the nose sits in the middle of the list *)
Theorem C167_nose d0 d1 d2 d3 rest n te f : (2 <= n)%nat -> naca (d0 :: d1 :: d2 :: d3 :: rest) n te = Ok f ->
  length (fo_xl f) = ((n + 1) / 2)%nat.
Proof.
  intros N E. unfold naca in E. cbv zeta in E. destruct (negb (d0 =? 0)%Z && (d1 =? 0)%Z)%bool; [discriminate|].
  rewrite keep in E. { injection E as <-. cbn [fo_xl]. now rewrite map_length, linspace_length. }
  intro Z. apply (f_equal (@length R)) in Z. rewrite app_length, rev_length, map_length, linspace_length in Z. cbn [length] in Z.
  pose proof (Nat.div_le_mono 2 (n + 1) 2 ltac:(lia) ltac:(lia)). change (2 / 2)%nat with 1%nat in *. lia.
Qed.
Theorem C167_mean_line m p x : 0 <= m -> 0 < p < 1 -> 0 <= x <= 1 ->
  mean_line m p 0 = 0 /\ mean_line m p 1 = 0 /\ 0 <= mean_line m p x <= m /\ (0 < m -> (mean_line m p x = m <-> x = p)).
Proof.
  intros M P X. destruct (mean_ends m p P) as [A B]. split; [exact A|]. split; [exact B|]. split; [split; [now apply mean_nonneg|now apply mean_le]|]. intro M'. now apply mean_top.
Qed.
(** the surfaces meet at the nose only: the trailing edge is open by 2.1% of the thickness; the thickness is at most 0.1% above the name's *)
Theorem C167_thickness t x : 0 < t -> 0 < x <= 1 ->
  family t 0 = 0 /\ 0 < family t x /\ 2 * family t 1 = 21 / 1000 * t /\ 2 * family t x <= 1001 / 1000 * t.
Proof.
  intros T X. assert (Q : 0 < sqrt x <= 1). { split; [apply sqrt_lt_R0; lra|]. apply Rle_trans with (sqrt 1); [apply sqrt_le_1; lra|rewrite sqrt_1; lra]. }
  split; [unfold family; rewrite sqrt_0; ring|]. split.
  - rewrite family_shape by lra. pose proof (shape_pos (sqrt x) Q). apply Rmult_lt_0_compat; lra.
  - split; [unfold family; rewrite sqrt_1; field|]. rewrite family_shape by lra. pose proof (shape_top (sqrt x) ltac:(lra)). nra.
Qed.
(** the airfoil is thicker than its reported maximum thickness *)
Theorem C167_thickness_refuted : forall t, 0 < t -> t < 2 * family t (3 / 10).
Proof.
  intros t T. unfold family. assert (5477 / 10000 < sqrt (3 / 10)). { rewrite <- (sqrt_square (5477 / 10000)) by lra. apply sqrt_lt_1; lra. } nra.
Qed.
Theorem C167_maximum_refuted : exists f, naca [0; 0; 1; 2]%Z 21 None = Ok f /\
  nth 13 (fo_x f) 0 = nth 7 (fo_x f) 0 /\ fo_max f < nth 13 (fo_y f) 0 - nth 7 (fo_y f) 0.
Proof.
  assert (D0 : digit 0) by (unfold digit; lia). assert (T3 : (3 <= 21)%nat) by lia.
  destruct (C167_outline 0 0 1 2 [] 21 None D0 (or_introl eq_refl) T3 I) as (f & k & E & Lx & Ly & K & _ & _ & _ & _ & Lo & Up & Mx & _ & _ & Kl & _).
  exists f. split; [exact E|]. assert (T2 : (2 <= 21)%nat) by lia. rewrite (C167_nose _ _ _ _ _ _ _ _ T2 E) in Kl. change ((21 + 1) / 2 - 1)%nat with 10%nat in Kl. subst k.
  assert (A : nth 7 (fo_x f) 0 = 3 / 10 /\ nth 13 (fo_x f) 0 = 3 / 10).
  { unfold naca in E. cbv zeta in E. change (negb (0 =? 0)%Z && (0 =? 0)%Z)%bool with false in E. cbv iota in E. change ((21 + 1) / 2)%nat with 11%nat in E. change (11 + (if Nat.even 21 then 1 else 0))%nat with 11%nat in E.
    cbn [bunched linspace map seq rev tl app] in E. injection E as <-. cbn [fo_x nth Nat.eqb]. cbn [Nat.sub INR]. split; field. }
  destruct A as [A B]. split; [congruence|]. rewrite (Lo 7%nat), (Up 13%nat), A, B, Mx by lia. pose proof (C167_thickness_refuted (1 / 10 + 2 / 100) ltac:(lra)). lra.
Qed.
(** names that raise: shorter than four digits, or with camber but no place for it *)
Theorem C167_errors digits n te :
  ((length digits < 4)%nat -> naca digits n te = Err IndexError) /\
  (forall d0 d2 d3 rest, d0 <> 0%Z -> naca (d0 :: 0%Z :: d2 :: d3 :: rest) n te = Err ZeroDivisionError).
Proof.
  split.
  - destruct digits as [|? [|? [|? [|? ?]]]]; cbn [length]; intro L; try reflexivity. lia.
  - intros d0 d2 d3 rest Z. unfold naca. cbv zeta. apply Z.eqb_neq in Z. now rewrite Z.
Qed.
Example C167_case : exists f, naca [2; 4; 1; 2]%Z 200 (Some (3 / 2)) = Ok f /\ length (fo_x f) = 200%nat /\ fo_max f = 12 / 100 /\ 0 <= mean_line (2 / 100) (4 / 10) (1 / 2) <= 2 / 100.
Proof.
  assert (D4 : digit 4) by (unfold digit; lia). assert (N4 : 4%Z <> 0%Z) by lia. assert (T3 : (3 <= 200)%nat) by lia. assert (P3 : 0 < 3 / 2) by lra.
  destruct (C167_outline 2 4 1 2 [] 200 (Some (3 / 2)) D4 (or_intror N4) T3 P3) as (f & k & E & Lx & _ & _ & _ & _ & _ & _ & _ & _ & Mx & _).
  exists f. repeat split; [exact E|exact Lx|rewrite Mx; lra| |]; apply (C167_mean_line (2 / 100) (4 / 10) (1 / 2)); lra.
Qed.

(** ** C168 the room inside a wing *)
(** what the estimate is: short of the swept volume by a term in the difference of the chords *)
Theorem C168_estimate w m p sf sr V : 1 / 10 < p < 6 / 10 -> derivable_pt_lim (mean_line m p) (1 / 10) sf -> derivable_pt_lim (mean_line m p) (6 / 10) sr -> 0 < v_span w ->
  swept_volume (fun y => box_area (v_tc w) sf sr (chord_at (v_root w) (v_tip w) (v_span w / 2) y)) (v_span w / 2) V ->
  internal_volume w m p = Ok (2 * V - v_span w * (2 * family (v_tc w) (1 / 10) / sqrt (1 + sf ^ 2)) * (v_root w ^ 2 - v_tip w ^ 2) / 24).
Proof. apply volume_is. Qed.
Theorem C168_straight w m p sf sr V : 1 / 10 < p < 6 / 10 -> derivable_pt_lim (mean_line m p) (1 / 10) sf -> derivable_pt_lim (mean_line m p) (6 / 10) sr -> 0 < v_span w -> v_root w = v_tip w ->
  swept_volume (fun y => box_area (v_tc w) sf sr (chord_at (v_root w) (v_tip w) (v_span w / 2) y)) (v_span w / 2) V -> internal_volume w m p = Ok (2 * V).
Proof. intros P F R B E S. rewrite (volume_is w m p sf sr V P F R B S). f_equal. rewrite E. field. pose proof (slope_root sf). lra. Qed.
Theorem C168_tapered_refuted w m p sf sr V : 1 / 10 < p < 6 / 10 -> derivable_pt_lim (mean_line m p) (1 / 10) sf -> derivable_pt_lim (mean_line m p) (6 / 10) sr -> 0 < v_span w ->
  0 < v_tc w -> 0 <= v_tip w < v_root w ->
  swept_volume (fun y => box_area (v_tc w) sf sr (chord_at (v_root w) (v_tip w) (v_span w / 2) y)) (v_span w / 2) V -> exists v, internal_volume w m p = Ok v /\ v < 2 * V.
Proof.
  intros P F R B T L S. eexists. split; [apply (volume_is w m p sf sr V P F R B S)|].
  destruct (C167_thickness (v_tc w) (1 / 10) T ltac:(lra)) as (_ & Q & _). pose proof (slope_root sf) as Z.
  assert (0 < v_span w * (2 * family (v_tc w) (1 / 10) / sqrt (1 + sf ^ 2)) * (v_root w ^ 2 - v_tip w ^ 2)); [|lra].
  apply Rmult_lt_0_compat; [apply Rmult_lt_0_compat; [exact B|]; apply Rmult_lt_0_compat; [lra|now apply Rinv_0_lt_compat]|nra].
Qed.
(** a wing twice the size in every direction holds eight times as much *)
Theorem C168_scaling w m p k v : 0 < k -> internal_volume w m p = Ok v -> internal_volume (Swept (v_tc w) (k * v_root w) (k * v_tip w) (k * v_span w)) m p = Ok (k ^ 3 * v).
Proof.
  intros K. unfold internal_volume. cbn [v_tc v_root v_tip v_span]. destruct (Req_EM_T p 0) as [|P0]; [discriminate|]. destruct (Req_EM_T p 1) as [|P1]; [discriminate|].
  destruct (Req_EM_T (v_span w) 0) as [|B0]; [discriminate|]. destruct (Req_EM_T (k * v_span w) 0) as [Z|_]; [apply Rmult_integral in Z; destruct Z; lra|].
  cbv zeta. intro E. assert (E' := f_equal (fun r => match r with Ok x => x | Err _ => 0 end) E). cbv beta iota in E'. clear E. rewrite <- E'. clear E'. f_equal.
  unfold front_camber, rear_camber, spar_half. set (cf := cos _). set (cr := cos (rear_angle m p)).
  set (g1 := 2969 / 10000 * sqrt (1 / 10) - _ - _ + _ - _). set (g6 := 2969 / 10000 * sqrt (6 / 10) - _ - _ + _ - _). field. repeat split; lra.
Qed.
Theorem C168_errors w m p : internal_volume w m p = Err ZeroDivisionError <-> p = 0 \/ p = 1 \/ v_span w = 0.
Proof.
  unfold internal_volume. destruct (Req_EM_T p 0); [tauto|]. destruct (Req_EM_T p 1); [tauto|]. destruct (Req_EM_T (v_span w) 0); [tauto|]. cbv zeta. split; [discriminate|tauto].
Qed.
(** the slopes and the swept volume exist *)
Example C168_case : let w := Swept (12 / 100) 2 1 10 in exists sf sr V v, derivable_pt_lim (mean_line (2 / 100) (4 / 10)) (1 / 10) sf /\ derivable_pt_lim (mean_line (2 / 100) (4 / 10)) (6 / 10) sr /\
  swept_volume (fun y => box_area (v_tc w) sf sr (chord_at (v_root w) (v_tip w) (v_span w / 2) y)) (v_span w / 2) V /\ internal_volume w (2 / 100) (4 / 10) = Ok v /\ v < 2 * V.
Proof.
  cbv zeta. destruct (slopes_exist (2 / 100) (4 / 10) ltac:(lra)) as (sf & sr & A & B). destruct (box_exists (Swept (12 / 100) 2 1 10) sf sr ltac:(cbn; lra)) as (V & S).
  destruct (C168_tapered_refuted (Swept (12 / 100) 2 1 10) (2 / 100) (4 / 10) sf sr V ltac:(lra) A B ltac:(cbn; lra) ltac:(cbn; lra) ltac:(cbn; lra) S) as (v & E & L).
  exists sf, sr, V, v. tauto.
Qed.
Print Assumptions C167_outline.
Print Assumptions C167_nose.
Print Assumptions C167_mean_line.
Print Assumptions C167_thickness.
Print Assumptions C167_thickness_refuted.
Print Assumptions C167_maximum_refuted.
Print Assumptions C167_errors.
Print Assumptions C168_estimate.
Print Assumptions C168_straight.
Print Assumptions C168_tapered_refuted.
Print Assumptions C168_scaling.
Print Assumptions C168_errors.
