(** * Maximum lift, take-off weight and payload-range: proofs *)
From Coq Require Import Reals List Bool Arith String Lia Lra Psatz Permutation Machin.
From Verif Require Import PyBase M_Opt P_Opt M_Noise P_Noise M_Field S_Field P_Deriv P_Friction P_Field.
Import ListNotations.
Local Open Scope R_scope.
Local Open Scope list_scope.

Lemma PI_315 : PI < 315 / 100.
Proof. destruct (PI_2_3_7_ineq 1) as [_ H]. unfold PI_2_3_7_tg, tg_alt, Ratan_seq in H. cbn in H. lra. Qed.
(** ** wings *)
Lemma section_pos t : 0 <= t <= 20 -> 0 < section_clmax t.
Proof.
  intros [A B]. unfold section_clmax. assert (0 <= t * t) by nra. assert (t * t * t <= 20 * (t * t)) by nra.
  replace (t ^ 3) with (t * t * t) by ring. replace (t ^ 2) with (t * t) by ring. pose proof (pow2_ge_0 (t - 6)). nra.
Qed.
Lemma planform_pos t s : 0 <= t <= 1 -> 0 <= s <= 45 -> 0 < planform_factor t s.
Proof.
  intros [A B] [C D]. unfold planform_factor.
  assert (T2 : 0 <= t ^ 2 <= 1) by (simpl; nra). assert (T3 : t ^ 3 <= t ^ 2) by (simpl; nra). assert (TT : 0 <= t * s) by nra.
  assert (T2S : 0 <= t ^ 2 * s) by nra. assert (TS2 : 0 <= t * s ^ 2) by (simpl; nra). assert (S2 : 0 <= s ^ 2 <= 2025) by (simpl; nra).
  assert (S3 : 0 <= s ^ 3 <= 91125) by (replace (s ^ 3) with (s * s ^ 2) by ring; nra). lra.
Qed.
Lemma flap_ref_pos tc k : 0 <= tc <= 20 -> 0 < flap_ref tc (Some k).
Proof.
  intros [A B]. unfold flap_ref.
  set (d := - (4 / 100000) * tc ^ 4 + 14 / 10000 * tc ^ 3 - 93 / 10000 * tc ^ 2 + 436 / 10000 * tc + 9734 / 10000).
  assert (D : 0 < d).
  { unfold d. assert (0 <= tc ^ 3) by (simpl; nra). assert (tc ^ 4 <= 20 * tc ^ 3) by (replace (tc ^ 4) with (tc * tc ^ 3) by ring; nra).
    assert (0 <= tc * (6 * tc ^ 2 - 93 * tc + 436)) by (apply Rmult_le_pos; [lra|]; pose proof (pow2_ge_0 (tc - 31 / 4)); nra). nra. }
  destruct (String.eqb k "single_slotted"), (String.eqb k "triple_slotted"); lra.
Qed.
Lemma flap_ref_order tc k : 0 <= tc <= 20 -> k <> "single_slotted"%string -> k <> "triple_slotted"%string ->
  flap_ref tc (Some "single_slotted"%string) < flap_ref tc (Some k) < flap_ref tc (Some "triple_slotted"%string).
Proof.
  intros H N1 N2. pose proof (flap_ref_pos tc k H) as P. unfold flap_ref in *.
  apply String.eqb_neq in N1, N2. rewrite N1, N2 in *. cbn [String.eqb Ascii.eqb Bool.eqb]. cbn. lra.
Qed.
Lemma deflection_pos a : 1 / 2 <= a <= 160 -> 0 < flap_deflection_factor a.
Proof. intros [A B]. unfold flap_deflection_factor. nra. Qed.
Lemma deflection_grows : grows_on flap_deflection_factor 0 81.
Proof. intros x y A L B. unfold flap_deflection_factor. nra. Qed.
Lemma ksw_pos sw : sideways sw -> 0 < (1 - 8 / 100 * cos sw ^ 2) * Rpower (cos sw) (3 / 4).
Proof.
  intro S. pose proof (cos_sideways sw S). pose proof (COS_bound sw). apply Rmult_lt_0_compat; [nra|]. apply exp_pos.
Qed.
Definition flap_k tc kind chord sweep sref affected : R :=
  (395 / 10000 * (chord * 100) + 57 / 10000) * ((1 - 8 / 100 * cos sweep ^ 2) * Rpower (cos sweep) (3 / 4)) * flap_ref tc kind * affected / sref.
Lemma flap_k_pos tc k chord sweep sref affected : 0 <= tc <= 20 -> 0 <= chord -> sideways sweep -> 0 < sref -> 0 < affected ->
  0 < flap_k tc (Some k) chord sweep sref affected.
Proof.
  intros. unfold flap_k. apply Rdiv_lt_0_compat; [|assumption]. apply Rmult_lt_0_compat; [|assumption].
  apply Rmult_lt_0_compat; [|now apply flap_ref_pos]. apply Rmult_lt_0_compat; [lra | now apply ksw_pos].
Qed.
Lemma flap_is tc kind chord angle sweep sref affected :
  flap_lift tc kind chord angle sweep sref affected = flap_k tc kind chord sweep sref affected * flap_deflection_factor (angle / degree).
Proof. unfold flap_lift, flap_k, Rdiv. ring. Qed.

(** ** take-off weight *)
Lemma tried_len a b : List.length (weights_tried a b) = 50%nat.
Proof. apply linspace_length. Qed.
Definition grid (a b : R) (i : nat) : R := a + INR i * ((11 / 10 * b - a) / 49).
Lemma tried_nth a b i d : (i < 50)%nat -> nth i (weights_tried a b) d = grid a b i.
Proof. intro H. unfold weights_tried, grid. rewrite linspace_nth by (assumption || lia). replace (INR (50 - 1)) with 49 by (cbn; lra). field. Qed.
Lemma grid_0 a b : grid a b 0 = a. Proof. unfold grid. cbn. lra. Qed.
Lemma grid_49 a b : grid a b 49 = 11 / 10 * b. Proof. unfold grid. replace (INR 49) with 49 by (cbn; lra). field. Qed.
Lemma grid_S a b i : grid a b (S i) = grid a b i + (11 / 10 * b - a) / 49. Proof. unfold grid. rewrite S_INR. lra. Qed.
Lemma grid_range a b i : a < 11 / 10 * b -> (i <= 49)%nat -> a <= grid a b i <= 11 / 10 * b.
Proof.
  intros H I. unfold grid. apply le_INR in I. replace (INR 49) with 49 in I by (cbn; lra). pose proof (pos_INR i).
  set (h := (11 / 10 * b - a) / 49). assert (h = (11 / 10 * b - a) / 49) by reflexivity. assert (0 < h) by (unfold h; lra). split; nra.
Qed.
Lemma weight_cases len oew mtow target : oew < 11 / 10 * mtow -> grows_on len oew (11 / 10 * mtow) ->
  (target < len oew -> takeoff_weight len oew mtow target = oew) /\
  (len (11 / 10 * mtow) <= target -> takeoff_weight len oew mtow target = 11 / 10 * mtow) /\
  (len oew <= target -> target < len (11 / 10 * mtow) -> exists i, (i < 49)%nat /\
     len (grid oew mtow i) <= target < len (grid oew mtow (S i)) /\
     takeoff_weight len oew mtow target = grid oew mtow i +
       (target - len (grid oew mtow i)) / (len (grid oew mtow (S i)) - len (grid oew mtow i)) * (grid oew mtow (S i) - grid oew mtow i)).
Proof.
  intros L G. unfold takeoff_weight. set (pts := map (fun w => (len w, w)) (weights_tried oew mtow)).
  assert (N : forall i, (i < 50)%nat -> nth i pts (len 0, 0) = (len (grid oew mtow i), grid oew mtow i)).
  { intros i H. unfold pts. rewrite (map_nth (fun w => (len w, w)) (weights_tried oew mtow) 0 i). rewrite tried_nth by assumption. reflexivity. }
  assert (PL : List.length pts = 50%nat) by (unfold pts; rewrite map_length; apply tried_len).
  destruct (interp_spec target pts (len 0, 0)) as (A & B & C).
  - intro E. rewrite E in PL. discriminate.
  - intros i H. rewrite PL in H. rewrite !N by lia. cbn [fst]. apply G.
    + apply grid_range; [assumption | lia].
    + rewrite grid_S. lra.
    + apply grid_range; [assumption | lia].
  - rewrite PL in *. replace (50 - 1)%nat with 49%nat in * by reflexivity. rewrite (N 0%nat), (N 49%nat) in * by lia. cbn [fst snd] in *.
    rewrite grid_0, grid_49 in *. refine (conj A (conj B _)). intros H1 H2. destruct (C H1 H2) as (i & Hi & Q & E).
    exists i. rewrite !N in Q, E by lia. cbn [fst snd] in *. split; [lia|]. split; [exact Q|]. rewrite E. field. lra.
Qed.
Lemma frac a x b : a <= x < b -> 0 <= (x - a) / (b - a) < 1.
Proof.
  intro H. assert (E : (x - a) / (b - a) * (b - a) = x - a) by (field; lra). set (q := (x - a) / (b - a)) in *. nra.
Qed.
Lemma weight_between len oew mtow target : oew < 11 / 10 * mtow -> grows_on len oew (11 / 10 * mtow) ->
  len oew <= target <= len (11 / 10 * mtow) -> exists i, (i < 49)%nat /\
  len (grid oew mtow i) <= target <= len (grid oew mtow (S i)) /\
  grid oew mtow i <= takeoff_weight len oew mtow target <= grid oew mtow (S i) /\
  takeoff_weight len oew mtow target = grid oew mtow i +
       (target - len (grid oew mtow i)) / (len (grid oew mtow (S i)) - len (grid oew mtow i)) * (grid oew mtow (S i) - grid oew mtow i).
Proof.
  intros L G [A B]. destruct (weight_cases len oew mtow target L G) as (_ & W2 & W3). destruct (Rle_lt_or_eq_dec _ _ B) as [B'|B'].
  - destruct (W3 A B') as (i & Hi & Q & E). exists i. refine (conj Hi (conj _ (conj _ E))); [lra|]. pose proof (frac _ _ _ Q) as F. rewrite E.
    set (q := (target - _) / _) in *. rewrite grid_S. set (h := (11 / 10 * mtow - oew) / 49). assert (0 < h) by (unfold h; lra). split; nra.
  - exists 48%nat. specialize (W2 ltac:(lra)). rewrite W2, grid_49.
    assert (G48 : grid oew mtow 48 < 11 / 10 * mtow) by (pose proof (grid_S oew mtow 48) as GS; rewrite grid_49 in GS; lra).
    assert (len (grid oew mtow 48) < len (11 / 10 * mtow)) by (apply G; [apply grid_range; [assumption|lia] | assumption | lra]).
    split; [lia|]. split; [lra|]. split; [lra|]. rewrite B'. field. lra.
Qed.

(** ** payload-range *)
Lemma refine_ends ev tow fuel reserves n : forall err dist o d o' e,
  (err = 9999 \/ err = tow - o_final o - fuel + reserves) -> o = ev tow dist ->
  refine ev tow fuel reserves n err dist o = (d, o', e) ->
  o' = ev tow d /\ (e = 9999 \/ e = tow - o_final o' - fuel + reserves) /\ ((0 < n)%nat -> err = 9999 -> e = tow - o_final o' - fuel + reserves).
Proof.
  induction n as [|n IH]; intros err dist o d o' e HE HO H; cbn [refine] in H.
  - injection H as <- <- <-. split; [assumption|]. split; [assumption|]. lia.
  - destruct (Rltb 1 (Rabs err)) eqn:E.
    + destruct (IH _ _ _ _ _ _ (or_intror (eq_refl)) eq_refl H) as (A & B & C). split; [exact A|]. split; [exact B|]. intros _ _.
      clear IH. destruct B as [B|B]; [|exact B].
      (* the last error was computed from the last mission *)
      assert (K : forall m err dist o, err = tow - o_final o - fuel + reserves -> o = ev tow dist ->
        forall d o' e, refine ev tow fuel reserves m err dist o = (d, o', e) -> e = tow - o_final o' - fuel + reserves).
      { clear. induction m as [|m IH]; intros err dist o HE HO d o' e H; cbn [refine] in H; [injection H as <- <- <-; exact HE|].
        destruct (Rltb 1 (Rabs err)); [eapply IH; [| |exact H]; reflexivity | injection H as <- <- <-; exact HE]. }
      eapply K; [| |exact H]; reflexivity.
    + injection H as <- <- <-. split; [assumption|]. split; [assumption|]. intros _ ->. apply Rltb_false in E. rewrite Rabs_right in E; lra.
Qed.
(** one improvement of the cruise distance *)
Definition step (ev : R -> R -> flown) (tow fuel reserves : R) (dist : R) : R :=
  let o := ev tow dist in o_dist o + o_dist o / o_fuel o * (fuel - (tow - o_final o) - reserves).
Definition miss (ev : R -> R -> flown) (tow fuel reserves : R) (dist : R) : R := tow - o_final (ev tow dist) - fuel + reserves.
Lemma refine_contracts ev tow fuel reserves th : 0 <= th <= 1 ->
  (forall d, Rabs (miss ev tow fuel reserves (step ev tow fuel reserves d)) <= th * Rabs (miss ev tow fuel reserves d)) ->
  forall n err dist d o e, err = miss ev tow fuel reserves dist ->
  refine ev tow fuel reserves n err dist (ev tow dist) = (d, o, e) -> Rabs e <= 1 \/ Rabs e <= th ^ n * Rabs err.
Proof.
  intros T C. induction n as [|n IH]; intros err dist d o e HE H; cbn [refine] in H.
  - injection H as <- <- <-. right. cbn. lra.
  - destruct (Rltb 1 (Rabs err)) eqn:E.
    + fold (step ev tow fuel reserves dist) in H. destruct (IH _ (step ev tow fuel reserves dist) _ _ _ eq_refl H) as [A|A]; [now left|]. right.
      eapply Rle_trans; [exact A|]. fold (miss ev tow fuel reserves (step ev tow fuel reserves dist)). subst err. specialize (C dist). cbn [pow].
      pose proof (pow_le th n ltac:(lra)). apply Rle_trans with (th ^ n * (th * Rabs (miss ev tow fuel reserves dist))); [now apply Rmult_le_compat_l | lra].
    + injection H as <- <- <-. left. apply Rltb_false in E. exact E.
Qed.
Lemma is0_iff x : is0 x = true <-> x = 0. Proof. unfold is0. destruct (Req_EM_T x 0); split; congruence. Qed.
Lemma is0_no x : x <> 0 -> is0 x = false. Proof. unfold is0. destruct (Req_EM_T x 0); congruence. Qed.
Lemma points_three ev reserves dist p q r : exists x y z, points ev reserves dist [p; q; r] = [x; y; z].
Proof.
  cbn [points]. destruct (one_point ev reserves dist p) as [d1 x]. destruct (one_point ev reserves d1 q) as [d2 y]. destruct (one_point ev reserves d2 r) as [d3 z].
  exists x, y, z. reflexivity.
Qed.
Lemma corners_are m ev reserves dist : m_empty m <> 0 -> m_zero_fuel m <> 0 -> m_takeoff m <> 0 -> exists x y z,
  payload_range m ev reserves dist = Some [Corner 0 (max_payload m) 0 0;
    Corner x (max_payload m) (Rmin (m_takeoff m - m_empty m - max_payload m) (max_fuel m)) (m_takeoff m);
    Corner y (m_takeoff m - max_fuel m - m_empty m) (max_fuel m) (m_takeoff m);
    Corner z 0 (max_fuel m) (m_empty m + max_fuel m)].
Proof.
  intros A B C. unfold payload_range. rewrite !is0_no by assumption. cbn [combine].
  destruct (points_three ev reserves dist (m_takeoff m, Rmin (m_takeoff m - m_empty m - max_payload m) (max_fuel m)) (m_takeoff m, max_fuel m) (m_empty m + max_fuel m, max_fuel m)) as (x & y & z & E).
  exists x, y, z. rewrite E. reflexivity.
Qed.
Lemma corners_ok m ev reserves dist cs : payload_range m ev reserves dist = Some cs -> m_empty m <> 0 /\ m_zero_fuel m <> 0 /\ m_takeoff m <> 0.
Proof.
  unfold payload_range, is0. destruct (Req_EM_T (m_empty m) 0); [discriminate|]. destruct (Req_EM_T (m_zero_fuel m) 0); [discriminate|]. destruct (Req_EM_T (m_takeoff m) 0); [discriminate|].
  intros _. auto.
Qed.
Lemma refine_first ev tow fuel reserves n dist :
  refine ev tow fuel reserves (S n) 9999 dist (ev tow dist) =
  refine ev tow fuel reserves n (miss ev tow fuel reserves (step ev tow fuel reserves dist)) (step ev tow fuel reserves dist) (ev tow (step ev tow fuel reserves dist)).
Proof. cbn [refine]. replace (Rltb 1 (Rabs 9999)) with true by (symmetry; apply Rltb_true; rewrite Rabs_right; lra). reflexivity. Qed.
Lemma refine_stop ev tow fuel reserves n e dist o : Rabs e <= 1 -> refine ev tow fuel reserves n e dist o = (dist, o, e).
Proof. intro H. destruct n; [reflexivity|]. cbn [refine]. replace (Rltb 1 (Rabs e)) with false by (symmetry; apply Rltb_false; lra). reflexivity. Qed.
