(** * Flight envelope: order of the points, gusts, witnesses *)
From Coq Require Import Reals List Bool Arith String Lia Lra Psatz.
From Verif Require Import PyBase M_Opt P_Opt M_Vn S_Vn P_Vn P_Vn2.
Import ListNotations.
Local Open Scope R_scope.
Local Open Scope list_scope.

(** ** the first points *)
Lemma head_v_eq vs va : head_v vs va ((va - vs) / 21) = vs :: map (fun k => vs + INR k / 21 * (va - vs)) (seq 0 22).
Proof. unfold head_v. cbn [seq map app INR Nat.add]. repeat (f_equal; try (field; fail); try lra). Qed.
Lemma head_n_eq a b vs va f : f vs = a -> f va = b ->
  head_n a b vs ((va - vs) / 21) f = 0 :: map (fun k => f (vs + INR k / 21 * (va - vs))) (seq 0 22).
Proof. intros <- <-. unfold head_n. cbn [seq map app INR Nat.add]. repeat (f_equal; try (field; fail); try lra). Qed.
Lemma nth_seq {A} (f : nat -> A) x d q k : (k <= 21)%nat -> nth (1 + k) ((x :: map f (seq 0 22)) ++ q) d = f k.
Proof.
  intro K. rewrite app_nth1 by (cbn [List.length]; rewrite map_length, seq_length; lia). cbn [nth Nat.add].
  rewrite (nth_indep _ d (f 0%nat)) by (rewrite map_length, seq_length; lia). rewrite map_nth, seq_nth by lia. reflexivity.
Qed.

(** ** order *)
Lemma ascending_app a x b : ascending (a ++ [x]) -> ascending (x :: b) -> ascending (a ++ x :: b).
Proof.
  induction a as [|y a IH]; intros H1 H2; [exact H2|]. cbn [app] in *.
  destruct a as [|z a]; cbn [app] in *; cbn [ascending] in H1 |- *; [destruct H1; split; assumption|].
  destruct H1 as [H0 H1]. split; [assumption | now apply IH].
Qed.
Lemma ascending_seq f n : (forall k, f k <= f (S k)) -> forall i, ascending (map f (seq i n)).
Proof.
  intro M. induction n as [|n IH]; intro i; [exact I|]. cbn [seq map]. specialize (IH (S i)). destruct n as [|n]; [exact I|].
  cbn [seq map] in *. split; [apply M | exact IH].
Qed.
Lemma ascending_head vs va q : vs <= va -> ascending (va :: q) -> ascending (head_v vs va ((va - vs) / 21) ++ q).
Proof.
  intros L A. rewrite head_v_eq.
  assert (E : vs :: map (fun k => vs + INR k / 21 * (va - vs)) (seq 0 22) = (vs :: map (fun k => vs + INR k / 21 * (va - vs)) (seq 0 21)) ++ [va]).
  { cbn [app]. f_equal. change (seq 0 22) with (seq 0 21 ++ [21%nat]). rewrite map_app. f_equal. cbn [map]. f_equal. replace (INR 21) with 21 by (simpl; lra). field. }
  rewrite E, <- app_assoc. apply ascending_app; [|exact A]. rewrite <- E.
  split; [cbn [INR]; lra|]. apply (ascending_seq (fun k => vs + INR k / 21 * (va - vs))). intro k. rewrite S_INR. lra.
Qed.

Section s.
Variables (part : nat) (cat : string) (c : craft) (np nn : R).
Hypothesis F : flyable c.
Hypothesis HP : 25 / 10 <= np.
Hypothesis HN : nn <= -1.
Notation r := (design part cat c np nn).
Lemma r_gusts : gust_speeds part cat (c_alt c) = (r_ur r, r_uc r, r_ud r).
Proof. unfold design. destruct (gust_speeds part cat (c_alt c)) as [[? ?] ?]. reflexivity. Qed.
Lemma r_vc_ge : keas c (c_vc c) <= r_vc r /\ r_vc1 r <= r_vc r /\
  (va_pos c np <> va_neg c nn \/ va_pos c np <= keas c (c_vc c) -> va_pos c np <= r_vc r /\ va_neg c nn <= r_vc r).
Proof.
  unfold design. destruct (gust_speeds part cat (c_alt c)) as [[ur uc] ud]. cbn [r_vc r_vc1].
  pose proof (va_gt c np F ltac:(lra)). pose proof (vs_pos_pos c F). pose proof (va_neg_ge c nn F HN). pose proof (vs_neg_pos c F).
  destruct (cruise_up (va_pos c np) (va_neg c nn) (keas c (c_vc c)) ltac:(lra) ltac:(lra)) as [C1 C2].
  set (vc0 := cruise_above_manoeuvre (va_pos c np) (va_neg c nn) (keas c (c_vc c))) in *.
  destruct (at_least_ge (minimum_cruise part cat c (gust_alleviation c) uc) vc0) as [A1 A2].
  repeat split; try lra; specialize (C2 H3); lra.
Qed.
Lemma r_vc_pos : 0 < c_vc c -> 0 < r_vc r.
Proof. intro V. pose proof (keas_pos c F _ V). pose proof r_vc_ge. lra. Qed.
Lemma r_vd_eq : r_vd r = dive_speed part cat (wing_loading c) (r_vc r) (r_vc1 r).
Proof. unfold design. destruct (gust_speeds part cat (c_alt c)) as [[? ?] ?]. reflexivity. Qed.
Lemma r_vd_ge : 0 < c_vc c -> 115 / 100 * r_vc r <= r_vd r.
Proof. intro V. rewrite r_vd_eq. apply dive_ge, r_vc_pos, V. Qed.
Lemma r_vd_le : 0 < c_vc c -> wing_loading c <= 400 -> r_vd r <= 16 / 10 * r_vc r.
Proof.
  intros V W. pose proof (r_vc_pos V) as P. rewrite r_vd_eq. destruct (Nat.eqb part 25) eqn:E.
  - unfold dive_speed. rewrite E. lra.
  - apply dive_le; try assumption; [|now apply wl_pos]. split; [|apply r_vc_ge].
    unfold design. destruct (gust_speeds part cat (c_alt c)) as [[ur uc] ud]. cbn [r_vc1]. apply min_cruise_pos; [assumption | now apply wl_pos | assumption].
Qed.
Lemma r_load_order : 0 < c_vc c -> wing_loading c <= 400 -> c_alt c <= 50000 ->
  1 < gust_load c (r_ud r) (r_vd r) <= gust_load c (r_uc r) (r_vc r).
Proof.
  intros V W A. destruct (gust_range _ _ _ _ _ _ r_gusts A) as (U1 & U2 & U3 & U4).
  rewrite !gust_slope by assumption. pose proof (slope_pos c F) as Sl. pose proof (r_vc_pos V). pose proof (r_vd_ge V). pose proof (r_vd_le V W).
  assert (r_vd r * r_ud r <= r_vc r * r_uc r) by nra.
  split; [assert (0 < slope c * r_vd r * r_ud r) by (apply Rmult_lt_0_compat; [apply Rmult_lt_0_compat|]; lra); lra | nra].
Qed.

(** every gust factor the positive half has to cover is among its load factors, or below the limit *)
Lemma pos_covered : 0 < c_vc c -> wing_loading c <= 400 -> c_alt c <= 50000 ->
  let g2 := gust_load c (r_uc r) (r_vc r) in let g3 := gust_load c (r_ud r) (r_vd r) in
  let l := pn c np ++ snd (tail_pos c np (r_ur r) (r_uc r) (r_vc r)) ++ snd (end_pos np g2 g3 (r_vc r) (r_vd r)) in
  np <= maximum l /\ g2 <= maximum l /\ g3 <= maximum l.
Proof.
  intros V W A g2 g3 l. destruct (r_load_order V W A) as [O1 O2]. fold g2 in O2. fold g3 in O1, O2.
  assert (N : np <= maximum l).
  { apply maximum_ge. unfold l. apply in_or_app. left. unfold pn, head_n. apply in_or_app. right. apply in_or_app. right. now left. }
  assert (G : g2 <= maximum l).
  { unfold l, tail_pos. fold g2. rewrite (Rabs_right np), (Rabs_right g2) by lra.
    destruct (Rltb np (Rabs _)) eqn:E1; [|destruct (Rltb np g2) eqn:E2].
    - apply maximum_ge. apply in_or_app. right. apply in_or_app. left. cbn [snd]. apply in_or_app. right. right. now left.
    - apply maximum_ge. apply in_or_app. right. apply in_or_app. left. right. now left.
    - apply Rltb_false in E2. refine (Rle_trans _ _ _ E2 _). apply maximum_ge. apply in_or_app. left. unfold pn, head_n. apply in_or_app. right. apply in_or_app. right. now left. }
  split; [exact N | split; [exact G | lra]].
Qed.

(** the positive half, when no gust reaches the stall line at the manoeuvre speed, never goes back *)
Lemma pos_ascends : 0 < c_vc c -> wing_loading c <= 400 -> c_alt c <= 50000 ->
  va_pos c np <= r_vc r -> gust_load c (r_ur r) (va_pos c np) <= np ->
  ascending (pv c np ++ fst (tail_pos c np (r_ur r) (r_uc r) (r_vc r)) ++ fst (end_pos np (gust_load c (r_uc r) (r_vc r)) (gust_load c (r_ud r) (r_vd r)) (r_vc r) (r_vd r))).
Proof.
  intros V W A L G. destruct (r_load_order V W A) as [O1 O2]. destruct (gust_range _ _ _ _ _ _ r_gusts A) as (U1 & U2 & U3 & U4).
  pose proof (r_vc_pos V) as VC. pose proof (r_vd_ge V) as VD. pose proof (va_gt c np F ltac:(lra)) as VA. pose proof (vs_pos_pos c F) as VS.
  pose proof (slope_pos c F) as SL.
  apply ascending_head; [lra|]. unfold tail_pos, end_pos.
  assert (G1 : 1 < gust_load c (r_ur r) (va_pos c np)).
  { rewrite gust_slope by assumption. assert (0 < slope c * va_pos c np * r_ur r) by (apply Rmult_lt_0_compat; [apply Rmult_lt_0_compat|]; lra). lra. }
  rewrite !(Rabs_right np), (Rabs_right (gust_load c (r_ur r) (va_pos c np))) by lra.
  replace (Rltb np (gust_load c (r_ur r) (va_pos c np))) with false by (symmetry; apply Rltb_false; lra).
  rewrite (Rabs_right (gust_load c (r_uc r) (r_vc r))), (Rabs_right (gust_load c (r_ud r) (r_vd r))) by lra.
  destruct (Rltb np (gust_load c (r_uc r) (r_vc r))) eqn:E2; [apply Rltb_true in E2|apply Rltb_false in E2].
  - replace (498 * (np - 1) * wing_loading c / (gust_alleviation c * r_uc r * c_cla c)) with ((np - 1) / (slope c * r_uc r)).
    2:{ unfold slope. pose proof (wl_pos c F). pose proof (kg_pos c F). pose proof (F_pos c F). field. repeat split; lra. }
    set (vi := (np - 1) / (slope c * r_uc r)).
    assert (SU : 0 < slope c * r_uc r) by (apply Rmult_lt_0_compat; lra).
    assert (EV : vi * (slope c * r_uc r) = np - 1) by (unfold vi; field; lra).
    assert (V1 : va_pos c np <= vi).
    { apply Rmult_le_reg_r with (slope c * r_uc r); [exact SU|]. rewrite EV. rewrite gust_slope in G by assumption. 
      assert (slope c * va_pos c np * r_uc r <= slope c * va_pos c np * r_ur r) by (apply Rmult_le_compat_l; [|exact U2]; apply Rlt_le, Rmult_lt_0_compat; lra). lra. }
    assert (V2 : vi <= r_vc r).
    { apply Rmult_le_reg_r with (slope c * r_uc r); [exact SU|]. rewrite EV. rewrite gust_slope in E2 by assumption. lra. }
    destruct (Rltb np (gust_load c (r_ud r) (r_vd r))) eqn:E3; cbn [fst app ascending]; [repeat split; lra|apply Rltb_false in E3].
    set (g2 := gust_load c (r_uc r) (r_vc r)) in *. set (g3 := gust_load c (r_ud r) (r_vd r)) in *.
    assert (T : 0 <= (np - g2) / (g3 - g2) <= 1).
    { replace ((np - g2) / (g3 - g2)) with ((g2 - np) / (g2 - g3)) by (field; lra). split; [apply Rlt_le, Rdiv_lt_0_compat; lra|].
      apply Rmult_le_reg_r with (g2 - g3); [lra|]. unfold Rdiv. rewrite Rmult_assoc, Rinv_l by lra. lra. }
    replace ((np - g2) * (r_vd r - r_vc r) / (g3 - g2)) with ((np - g2) / (g3 - g2) * (r_vd r - r_vc r)) by (field; lra).
    repeat split; nra.
  - cbn [fst app ascending]. repeat split; lra.
Qed.

Lemma neg_covered :
  let g2 := gust_load c (- r_uc r) (r_vc r) in let g3 := gust_load c (- r_ud r) (r_vd r) in
  let e := if two_sided cat then -1 else 0 in
  let tn := tail_neg c nn (- r_ur r) (- r_uc r) (r_vc r) in
  forall last,
  let l := nn_ c nn ++ snd tn ++ snd (end_neg cat nn g2 g3 (r_vc r) (r_vd r) e (nn_ c nn ++ snd tn)) ++ last in
  minimum l <= nn /\ minimum l <= g3 /\ (Rabs (gust_load c (- r_ur r) (va_neg c nn)) <= Rabs nn -> minimum l <= g2).
Proof.
  intros g2 g3 e tn last l.
  assert (N : minimum l <= nn).
  { apply minimum_le. unfold l. apply in_or_app. left. unfold nn_, head_n. apply in_or_app. right. apply in_or_app. right. now left. }
  split; [exact N|]. split.
  - unfold l, end_neg. destruct (Rltb g3 e) eqn:E; [|apply Rltb_false in E].
    + apply minimum_le. apply in_or_app. right. apply in_or_app. right. apply in_or_app. left.
      destruct (Rltb (Rabs nn) (Rabs g2)); [now left|]. destruct (dive_cross _ _ _ _ _ _) as [v n]. right. now left.
    + refine (Rle_trans _ _ _ _ E). apply minimum_le. apply in_or_app. right. apply in_or_app. right. apply in_or_app. left. now left.
  - intro G. unfold l, tn, tail_neg. replace (Rltb (Rabs nn) (Rabs (gust_load c (- r_ur r) (va_neg c nn)))) with false by (symmetry; apply Rltb_false; lra).
    fold g2. destruct (Rltb (Rabs nn) (Rabs g2)) eqn:E.
    + apply minimum_le. apply in_or_app. right. apply in_or_app. left. right. now left.
    + apply Rltb_false in E. rewrite (Rabs_left nn) in E by lra. assert (nn <= g2) by (unfold Rabs in E; destruct (Rcase_abs g2); lra).
      refine (Rle_trans _ nn _ _ H). apply minimum_le. apply in_or_app. left. unfold nn_, head_n. apply in_or_app. right. apply in_or_app. right. now left.
Qed.
End s.

(** ** the least cruise speed of part 25 *)
Lemma larger_root_zero a b e : 0 < a -> 0 <= b ^ 2 - 4 * a * e ->
  a * larger_root a b e ^ 2 + b * larger_root a b e + e = 0 /\ - b / (2 * a) <= larger_root a b e.
Proof.
  intros A D. unfold larger_root. set (d := sqrt (b ^ 2 - 4 * a * e)).
  assert (D2 : d ^ 2 = b ^ 2 - 4 * a * e) by (apply sqrt_pow2; assumption). assert (D0 : 0 <= d) by apply sqrt_pos.
  assert (I : 0 < / (2 * a)) by (apply Rinv_0_lt_compat; lra).
  rewrite Rmax_left by (unfold Rdiv; apply Rmult_le_compat_r; lra). split.
  - replace (a * ((- b + d) / (2 * a)) ^ 2 + b * ((- b + d) / (2 * a)) + e) with ((d ^ 2 - (b ^ 2 - 4 * a * e)) / (4 * a)) by (field; lra).
    rewrite D2. field. lra.
  - unfold Rdiv. apply Rmult_le_compat_r; lra.
Qed.
